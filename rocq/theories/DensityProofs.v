(** compute_particle_density (C33, C34, C35). *)
From Coq Require Import List Arith ZArith Lia Bool.
From Verif Require Import Scalar Py Numpy Spec BasisSet NumpyFacts TransformFacts BasisSpec BasisFacts ChangeProofs DensitySpec.
Import ListNotations.

Section Density.
  Variable K : scalar.
  Add Ring Kring : (s_ring K).
  Local Open Scope K_scope.
  Local Open Scope nat_scope.
  Notation arr := (arr K).
  Notation basis := (basis K).
  Implicit Types (a b rho ket bra phi_t phi acc : arr).

  Lemma dmax_absorb d e : castable d e = true -> dmax (dmax d e) e = e.
  Proof. destruct d, e; cbn; congruence. Qed.
  Lemma dmax_cast d e : castable (dmax (dmax d e) e) e = castable d e.
  Proof. destruct d, e; reflexivity. Qed.

  Definition pd_step (rho phi_t phi acc : arr) (c : K) : res arr :=
    let! t := amul (scale (dt rho) c phi_t) phi in iadd acc t.
  Lemma pd_step_ok rho phi_t phi acc c g d : shape phi_t = g -> shape phi = g -> shape acc = g ->
    dt phi_t = d -> dt phi = d -> dt acc = d -> castable (dt rho) d = true ->
    exists acc', pd_step rho phi_t phi acc c = Ok acc' /\ shape acc' = g /\ dt acc' = d /\
      forall x, valid g x -> (get acc' x = get acc x + (c * get phi_t x) * get phi x)%K.
  Proof.
    intros S1 S2 S3 D1 D2 D3 Hc. unfold pd_step, amul.
    destruct (broadcast2_same K smul (scale (dt rho) c phi_t) phi) as (t & Et & St & Dt & Gt).
    { cbn. congruence. }
    rewrite Et. cbn [rbind]. destruct (inplace_same K sadd acc t) as (r & Er & Sr & Dr & Gr).
    { rewrite St. cbn. congruence. }
    { rewrite Dt. cbn. rewrite D1, D2, D3, dmax_absorb by exact Hc. destruct d; reflexivity. }
    exists r. unfold iadd. split; [exact Er|]. split; [congruence|]. split; [congruence|].
    intros x V. rewrite Gr by (rewrite S3; exact V). rewrite Gt by (cbn; rewrite S1; exact V). reflexivity.
  Qed.
  Lemma pd_step_err rho phi_t phi acc c g d : shape phi_t = g -> shape phi = g -> shape acc = g ->
    dt phi_t = d -> dt phi = d -> dt acc = d -> castable (dt rho) d = false ->
    pd_step rho phi_t phi acc c = Err UFuncTypeError.
  Proof.
    intros S1 S2 S3 D1 D2 D3 Hc. unfold pd_step, amul.
    destruct (broadcast2_same K smul (scale (dt rho) c phi_t) phi) as (t & Et & St & Dt & Gt).
    { cbn. congruence. }
    rewrite Et. cbn [rbind]. apply inplace_cast.
    - rewrite St. cbn. congruence.
    - rewrite Dt. cbn. rewrite D1, D2, D3, dmax_cast. exact Hc.
  Qed.

  (** A loop over 0..n-1 that adds F i to every element. *)
  Lemma rfold_sum (f : arr -> nat -> res arr) g d (F : nat -> list nat -> K) n : forall k acc,
    (forall acc i, k <= i < k + n -> shape acc = g -> dt acc = d ->
       exists acc', f acc i = Ok acc' /\ shape acc' = g /\ dt acc' = d /\
         forall x, valid g x -> (get acc' x = get acc x + F i x)%K) ->
    shape acc = g -> dt acc = d ->
    exists acc', rfold f (seq k n) acc = Ok acc' /\ shape acc' = g /\ dt acc' = d /\
      forall x, valid g x -> (get acc' x = get acc x + sumn n (fun i => F (k + i)%nat x))%K.
  Proof.
    induction n as [|n IH]; intros k acc Hs Sa Da.
    - exists acc. cbn. repeat split; auto. intros x V. ring.
    - cbn [seq rfold]. destruct (Hs acc k ltac:(lia) Sa Da) as (a1 & E1 & S1 & D1 & G1). rewrite E1. cbn [rbind].
      destruct (IH (S k) a1) as (a2 & E2 & S2 & D2 & G2); [intros; apply Hs; [lia|assumption..] | exact S1 | exact D1 |].
      exists a2. split; [exact E2|]. split; [exact S2|]. split; [exact D2|].
      intros x V. rewrite G2, G1 by exact V. 
      replace (S n) with (1 + n) by lia. rewrite sumn_app. cbn [sumn].
      rewrite Nat.add_0_r.
      rewrite (sumn_ext K n (fun i => F (S k + i) x) (fun i => F (k + (1 + i)) x)).
      + ring.
      + intros i _. f_equal. lia.
  Qed.

  Theorem particle_density_ok rho ket bra n n1 n2 g : shape ket = n :: g -> shape bra = n :: g ->
    shape rho = [n1; n2] -> n <= n1 -> n <= n2 -> dt bra = dt ket -> (0 < n -> castable (dt rho) (dt ket) = true) ->
    exists d, particle_density rho ket bra = Ok d /\ shape d = g /\ dt d = dt ket /\
      forall x, valid g x -> get d x = density_at n (mat rho) (orb bra x) (orb ket x).
  Proof.
    intros Sk Sb Sr H1 H2 Hd Hc. unfold particle_density. rewrite Sb, Sk, list_eqb_refl.
    unfold deqb. rewrite Hd, Nat.eqb_refl. unfold shape_at. rewrite Sk, Sb. cbn [nth_error rbind tl].
    match goal with |- exists d, rfold ?f _ _ = _ /\ _ => set (ff := f) end.
    destruct (rfold_sum ff g (dt ket) (fun p x => sumn n (fun q => get bra (p :: x) * mat rho q p * get ket (q :: x))%K) n 0
                (zeros g (dt ket))) as (d & E & S & D & G).
    - intros acc p Hp Sa Da. unfold ff. destruct (row_ok K bra n g p Sb ltac:(lia)) as (pt & -> & Spt & Dpt & Gpt).
      cbn [rbind].
      match goal with |- exists a', rfold ?f _ _ = _ /\ _ => set (f2 := f) end.
      destruct (rfold_sum f2 g (dt ket) (fun q x => get bra (p :: x) * mat rho q p * get ket (q :: x))%K n 0 acc)
        as (a' & E' & S' & D' & G'); [| exact Sa | exact Da |].
      + intros acc' q Hq Sa' Da'. unfold f2. destruct (row_ok K ket n g q Sk ltac:(lia)) as (ph & -> & Sph & Dph & Gph).
        cbn [rbind]. unfold item2. rewrite Sr.
        destruct (Nat.ltb_spec q n1); [|lia]. destruct (Nat.ltb_spec p n2); [|lia]. cbn [andb rbind].
        destruct (pd_step_ok rho pt ph acc' (get rho [q; p]) g (dt ket)) as (a2 & E2 & S2 & D2 & G2); try congruence; [apply Hc; lia|].
        exists a2. split; [exact E2|]. split; [exact S2|]. split; [exact D2|].
        intros x V. rewrite G2 by exact V. rewrite Gpt, Gph. unfold mat. ring.
      + exists a'. auto.
    - reflexivity.
    - reflexivity.
    - exists d. split; [exact E|]. split; [exact S|]. split; [exact D|].
      intros x V. rewrite G by exact V. cbn [get zeros]. unfold density_at, orb. cbn [Nat.add]. ring.
  Qed.
  Theorem particle_density_types rho ket bra : shape bra = shape ket -> dt bra <> dt ket ->
    particle_density rho ket bra = Err AssertionError.
  Proof.
    intros S D. unfold particle_density. rewrite S, list_eqb_refl. unfold deqb.
    destruct (Nat.eqb_spec (drank (dt bra)) (drank (dt ket))); [|reflexivity].
    exfalso. apply D. destruct (dt bra), (dt ket); cbn in *; congruence.
  Qed.
  Theorem particle_density_cast rho ket bra n n1 n2 g : shape ket = n :: g -> shape bra = n :: g ->
    shape rho = [n1; n2] -> 0 < n -> n <= n1 -> n <= n2 -> dt bra = dt ket -> castable (dt rho) (dt ket) = false ->
    particle_density rho ket bra = Err UFuncTypeError.
  Proof.
    intros Sk Sb Sr Hn H1 H2 Hd Hc. unfold particle_density. rewrite Sb, Sk, list_eqb_refl.
    unfold deqb. rewrite Hd, Nat.eqb_refl. unfold shape_at. rewrite Sk, Sb. cbn [nth_error rbind tl].
    destruct n as [|n]; [lia|].
    destruct (row_ok K bra (S n) g 0 Sb ltac:(lia)) as (pt & E1 & Spt & Dpt & Gpt).
    destruct (row_ok K ket (S n) g 0 Sk ltac:(lia)) as (ph & E2 & Sph & Dph & Gph).
    change (seq 0 (S n)) with (0 :: seq 1 n). cbn [rfold]. rewrite E1. cbn [rbind]. cbn [rfold]. rewrite E2. cbn [rbind].
    unfold item2 at 1. rewrite Sr at 1.
    destruct (Nat.ltb_spec 0 n1); [|lia]. destruct (Nat.ltb_spec 0 n2); [|lia]. cbn [andb rbind].
    pose proof (pd_step_err rho pt ph (zeros g (dt ket)) (get rho [0; 0]) g (dt ket)) as E.
    unfold pd_step in E. rewrite E by (cbn; congruence). reflexivity.
  Qed.

  (** The result depends on the orbitals' shapes, types and elements only. *)
  Lemma rfold_rel {A} (R : A -> A -> Prop) (f f' : A -> nat -> res A) n : forall k (x0 y0 : A),
    (forall (x y : A) i, k <= i < k + n -> R x y ->
       match f x i, f' y i with Ok x', Ok y' => R x' y' | Err e, Err e' => e = e' | _, _ => False end) ->
    R x0 y0 ->
    match rfold f (seq k n) x0, rfold f' (seq k n) y0 with
    | Ok x, Ok y => R x y | Err e, Err e' => e = e' | _, _ => False end.
  Proof.
    induction n as [|n IH]; intros k x0 y0 Hs Ha; cbn; [exact Ha|].
    pose proof (Hs x0 y0 k ltac:(lia) Ha) as H1.
    destruct (f x0 k), (f' y0 k); cbn [rbind]; try exact H1; try contradiction.
    apply IH; [|exact H1]. intros; apply Hs; [lia | assumption].
  Qed.
  Definition alike a b : Prop := aeq a b /\ dt a = dt b.
  Lemma particle_density_ext rho ket bra ket' bra' : alike ket ket' -> alike bra bra' ->
    same_result (particle_density rho ket bra) (particle_density rho ket' bra').
  Proof.
    intros [[Sk Gk] Dk] [[Sb Gb] Db]. unfold particle_density. rewrite <- Sk, <- Sb, <- Dk, <- Db.
    destruct (list_eqb (shape bra) (shape ket)) eqn:E; [|reflexivity]. apply list_eqb_spec in E.
    destruct (deqb (dt bra) (dt ket)) eqn:Ed; [|reflexivity].
    assert (Hd : dt bra = dt ket).
    { unfold deqb in Ed. apply Nat.eqb_eq in Ed. destruct (dt bra), (dt ket); cbn in *; congruence. }
    unfold shape_at. rewrite <- Sk, <- Sb. rewrite E.
    destruct (shape ket) as [|n g] eqn:Ek; [reflexivity|]. cbn [nth_error rbind tl].
    pose (R := fun a b => shape a = g /\ dt a = dt ket /\ aeq a b /\ dt b = dt ket).
    match goal with |- same_result ?u ?v => assert (match u, v with
       Ok x, Ok y => R x y | Err e, Err e' => e = e' | _, _ => False end) as H end.
    { apply rfold_rel; [|repeat split; reflexivity].
      intros acc acc' p Hp (SA & DA & GA & DA').
      destruct (row_ok K bra n g p E ltac:(lia)) as (pt & -> & Spt & Dpt & Gpt).
      destruct (row_ok K bra' n g p ltac:(congruence) ltac:(lia)) as (pt' & -> & Spt' & Dpt' & Gpt').
      cbn [rbind]. apply rfold_rel; [|repeat split; assumption || apply GA].
      clear acc acc' SA DA GA DA'. intros acc acc' q Hq (SA & DA & GA & DA').
      destruct (row_ok K ket n g q Ek ltac:(lia)) as (ph & -> & Sph & Dph & Gph).
      destruct (row_ok K ket' n g q ltac:(congruence) ltac:(lia)) as (ph' & -> & Sph' & Dph' & Gph').
      cbn [rbind]. destruct (item2 rho q p) as [c|e]; [|reflexivity]. cbn [rbind].
      change (match pd_step rho pt ph acc c, pd_step rho pt' ph' acc' c with
              | Ok x, Ok y => R x y | Err e, Err e' => e = e' | _, _ => False end).
      assert (SA' : shape acc' = g) by (destruct GA; congruence).
      destruct (castable (dt rho) (dt ket)) eqn:Ec.
      - destruct (pd_step_ok rho pt ph acc c g (dt ket)) as (x & Ex & Sx & Dx & Gx); try congruence.
        destruct (pd_step_ok rho pt' ph' acc' c g (dt ket)) as (y & Ey & Sy & Dy & Gy); try congruence.
        rewrite Ex, Ey. split; [exact Sx|]. split; [exact Dx|]. split; [|exact Dy].
        split; [congruence|]. intros i V. rewrite Sx in V. rewrite Gx, Gy by exact V.
        rewrite Gpt, Gpt', Gph, Gph'.
        rewrite <- Gb by (rewrite E; constructor; [lia | exact V]).
        rewrite <- Gk by (constructor; [lia | exact V]).
        destruct GA as [_ GA]. rewrite GA by (rewrite SA; exact V). reflexivity.
      - rewrite (pd_step_err rho pt ph acc c g (dt ket)), (pd_step_err rho pt' ph' acc' c g (dt ket)); congruence. }
    match goal with |- same_result ?x ?y => destruct x, y end; cbn; try exact H. apply H.
  Qed.
End Density.

Section Api.
  Variable K : scalar.
  Add Ring Kring2 : (s_ring K).
  Local Open Scope K_scope.
  Local Open Scope nat_scope.
  Notation arr := (arr K).
  Notation basis := (basis K).
  Implicit Types (rho ket bra C D : arr) (b : basis).

  Lemma aeq_refl' (a : arr) : aeq a a.
  Proof. split; [reflexivity|]. reflexivity. Qed.
  Lemma opt_aeq_refl (x : option arr) : opt_aeq x x.
  Proof. destruct x; cbn; [apply aeq_refl' | exact I]. Qed.

  Lemma get_bra_view b ket : b_arr b F_spf = Some ket ->
    exists bra b1, bra_view b = Some bra /\ get_bra b = (Ok (Some bra), b1) /\ same_values b1 b.
  Proof.
    intros Hk. unfold bra_view, get_bra, bind, rd. destruct (b_arr b F_bra) as [x|] eqn:E.
    - exists x, b. repeat split; try reflexivity; intros; apply opt_aeq_refl.
    - rewrite Hk. cbn. exists (aconj ket), (set_arr F_bra (Some (aconj ket)) b). repeat split; try reflexivity.
      + intros f Hf. cbn. rewrite upd_other by congruence. apply opt_aeq_refl.
      + unfold bra_view. cbn. rewrite E, Hk. apply aeq_refl'.
  Qed.

  Lemma cpd_eval b rho ket m : b_np b = Some m -> b_arr b F_spf = Some ket ->
    exists bra b1, bra_view b = Some bra /\ same_values b1 b /\
      compute_particle_density rho None None b = (particle_density rho ket bra, b1).
  Proof.
    intros Hm Hk. destruct (get_bra_view b ket Hk) as (bra & b1 & Hv & Hg & Hs).
    exists bra, b1. split; [exact Hv|]. split; [exact Hs|]. unfold compute_particle_density.
    rewrite (bind_ok K _ _ _ (Some ket) b) by (unfold rd; rewrite Hk; reflexivity).
    rewrite (bind_ok K _ _ _ ket b) by reflexivity.
    rewrite (bind_ok K _ _ _ (Some bra) b1) by exact Hg.
    rewrite (bind_ok K _ _ _ bra b1) by reflexivity.
    rewrite (bind_ok K _ _ _ m b1).
    - reflexivity.
    - apply need_np_ok. rewrite <- Hm. apply (sv_np _ _ _ Hs).
  Qed.
  Lemma cpd_eval_C b rho C Ct ket m ket' : b_np b = Some m -> b_arr b F_spf = Some ket ->
    transform_spf ket C = Ok ket' ->
    exists bra b1, bra_view b = Some bra /\ same_values b1 b /\
      forall bra', transform_bra_spf bra (default_tilde C Ct) = Ok bra' ->
      compute_particle_density rho (Some C) Ct b = (particle_density rho ket' bra', b1).
  Proof.
    intros Hm Hk Hk'. destruct (get_bra_view b ket Hk) as (bra & b1 & Hv & Hg & Hs).
    exists bra, b1. split; [exact Hv|]. split; [exact Hs|]. intros bra' Hb'. unfold compute_particle_density.
    rewrite (bind_ok K _ _ _ (Some ket) b) by (unfold rd; rewrite Hk; reflexivity).
    rewrite (bind_ok K _ _ _ ket b) by reflexivity.
    rewrite (bind_ok K _ _ _ (Some bra) b1) by exact Hg.
    rewrite (bind_ok K _ _ _ bra b1) by reflexivity.
    rewrite (bind_ok K _ _ _ m b1) by (apply need_np_ok; rewrite <- Hm; apply (sv_np _ _ _ Hs)).
    rewrite (bind_ok K _ _ _ ket' b1) by (unfold lift; rewrite Hk'; reflexivity).
    rewrite (bind_ok K _ _ _ bra' b1) by (unfold lift; rewrite Hb'; reflexivity).
    reflexivity.
  Qed.

  (** C33 *)
  Theorem density_formula b rho ket bra n g : (exists m, b_np b = Some m) ->
    b_arr b F_spf = Some ket -> bra_view b = Some bra -> shape ket = n :: g -> shape bra = n :: g ->
    shape rho = [n; n] -> dt bra = dt ket -> castable (dt rho) (dt ket) = true ->
    exists d b', compute_particle_density rho None None b = (Ok d, b') /\ same_values b' b /\ shape d = g /\
      forall x, valid g x -> get d x = density_at n (mat rho) (orb bra x) (orb ket x).
  Proof.
    intros [m Hm] Hk Hb Sk Sb Sr Hd Hc.
    destruct (cpd_eval b rho ket m Hm Hk) as (bra0 & b1 & Hv & Hs & E). rewrite Hb in Hv. injection Hv as <-.
    destruct (particle_density_ok K rho ket bra n n n g) as (d & Ed & Sd & _ & Gd); try assumption; try lia; auto.
    exists d, b1. rewrite E, Ed. auto.
  Qed.
  Theorem density_at_real n (rho : nat -> nat -> K) (bra ket : nat -> K) : hermitian n rho ->
    (forall p, p < n -> bra p = sconj (ket p)) ->
    sconj (density_at n rho bra ket) = density_at n rho bra ket.
  Proof.
    intros H Hb. unfold density_at. rewrite sumn_conj.
    rewrite (sumn_ext K n _ (fun p => sumn n (fun q => bra q * rho p q * ket p)%K)).
    - rewrite sumn_swap. reflexivity.
    - intros p Hp. rewrite sumn_conj. apply sumn_ext. intros q Hq.
      rewrite !conj_mul, (Hb p Hp), (Hb q Hq), conj_invol. rewrite (H p q Hp Hq). ring.
  Qed.
  Theorem density_real b rho ket n g d b' : (exists m, b_np b = Some m) ->
    b_arr b F_spf = Some ket -> b_arr b F_bra = None -> shape ket = n :: g -> shape rho = [n; n] ->
    hermitian n (mat rho) -> compute_particle_density rho None None b = (Ok d, b') ->
    forall x, valid g x -> sconj (get d x) = get d x.
  Proof.
    intros [m Hm] Hk Hb Sk Sr Hh E x V.
    destruct (cpd_eval b rho ket m Hm Hk) as (bra & b1 & Hv & Hs & E'). rewrite E in E'. injection E' as E' <-.
    unfold bra_view in Hv. rewrite Hb, Hk in Hv. injection Hv as <-.
    assert (Hc : (0 < n -> castable (dt rho) (dt ket) = true)).
    { intros Hn. destruct (castable (dt rho) (dt ket)) eqn:Ec; [reflexivity|].
      rewrite (particle_density_cast K rho ket (aconj ket) n n n g) in E'; try assumption; try lia; try reflexivity. discriminate E'. }
    destruct (particle_density_ok K rho ket (aconj ket) n n n g) as (d' & Ed & Sd & _ & Gd) ; try assumption; try lia; try reflexivity.
    rewrite Ed in E'. injection E' as <-. rewrite Gd by exact V. apply density_at_real; [exact Hh|]. reflexivity.
  Qed.

  (** C34 *)
  Theorem density_rotated b rho C Ct l k : ready b l -> shape C = [l; k] -> tilde_shape C Ct k l ->
    b_arr b F_spf <> None ->
    exists b1, change_basis C Ct b = (Ok tt, b1) /\
      same_result (fst (compute_particle_density rho (Some C) Ct b)) (fst (compute_particle_density rho None None b1)) /\
      same_values (snd (compute_particle_density rho (Some C) Ct b)) b.
  Proof.
    intros R HC HD Hspf. destruct (b_arr b F_spf) as [ket|] eqn:Hk; [clear Hspf|congruence].
    destruct (default_tilde_spec K C Ct l k k HC HD) as [SD GD].
    destruct (change_basis_ok K l k C (default_tilde C Ct) HC SD b R) as (b1 & E1 & Bc).
    exists b1. rewrite change_basis_default. split; [exact E1|].
    destruct (r_np _ _ _ R) as [m Hm].
    destruct (r_spf _ _ _ R ket Hk) as (g & Sk & _).
    destruct (transform_spf_ok K ket C l k g Sk HC) as (ket' & Ek' & Sk' & Dk' & Gk').
    destruct (cpd_eval_C b rho C Ct ket m ket' Hm Hk Ek') as (bra & b2 & Hv & Hs & Ev).
    assert (exists g', shape bra = l :: g') as (g' & Sb).
    { unfold bra_view in Hv. destruct (b_arr b F_bra) as [x|] eqn:Eb.
      - injection Hv as <-. destruct (r_bra _ _ _ R x Eb) as (g' & Sx & _). eauto.
      - rewrite Hk in Hv. injection Hv as <-. exists g. exact Sk. }
    destruct (transform_bra_ok K bra (default_tilde C Ct) l k g' Sb SD) as (bra' & Eb' & Sb' & Db' & Gb').
    rewrite (Ev bra' Eb'). cbn [fst snd]. split; [|exact Hs].
    pose proof (bc_spf Bc) as Cs. rewrite Hk in Cs. cbn in Cs.
    destruct (b_arr b1 F_spf) as [ket1|] eqn:Ek1; [|contradiction]. destruct Cs as (Sk1 & Dk1 & Gk1).
    pose proof (bc_bra Bc ltac:(congruence)) as Cb. rewrite Hv in Cb. cbn in Cb.
    destruct (b_arr b1 F_bra) as [bra1|] eqn:Eb1; [|contradiction]. destruct Cb as (Sb1 & Db1 & Gb1).
    destruct (cpd_eval b1 rho ket1 m) as (bra1' & b3 & Hv1 & Hs1 & Ev1); [rewrite (bc_np Bc); exact Hm | exact Ek1 |].
    unfold bra_view in Hv1. rewrite Eb1 in Hv1. injection Hv1 as <-.
    rewrite Ev1. cbn [fst]. apply particle_density_ext.
    - split; [|congruence]. rewrite Sk in Sk1. split; [cbn in Sk1; congruence|].
      intros idx V. rewrite Sk' in V. inversion V; subst. rewrite Gk', Gk1 by assumption. reflexivity.
    - split; [|congruence]. rewrite Sb in Sb1. split; [cbn in Sb1; congruence|].
      intros idx V. rewrite Sb' in V. inversion V; subst. rewrite Gb', Gb1 by assumption. reflexivity.
  Qed.

  Lemma density_at_rotated l k (rho C D : nat -> nat -> K) (bra ket : nat -> K) :
    density_at k rho (fun p => sumn l (fun i => D p i * bra i)%K) (fun q => sumn l (fun j => C j q * ket j)%K)
    = density_at l (mmul k (mmul k C rho) D) bra ket.
  Proof.
    unfold density_at, mmul.
    transitivity (sumn k (fun p => sumn k (fun q => sumn l (fun i => sumn l (fun j =>
      bra i * (C j q * rho q p * D p i) * ket j))))%K).
    { apply sumn_ext; intros p _. apply sumn_ext; intros q _.
      rewrite sumn_mul_r, sumn_mul_r. apply sumn_ext; intros i _. rewrite sumn_mul_l. apply sumn_ext; intros j _. ring. }
    transitivity (sumn l (fun i => sumn l (fun j => sumn k (fun p => sumn k (fun q =>
      bra i * (C j q * rho q p * D p i) * ket j))))%K).
    { rewrite (sumn_ext K k _ (fun p => sumn l (fun i => sumn l (fun j => sumn k (fun q =>
        bra i * (C j q * rho q p * D p i) * ket j))))%K).
      - rewrite sumn_swap. apply sumn_ext; intros i _. rewrite sumn_swap. reflexivity.
      - intros p _. rewrite sumn_swap. apply sumn_ext; intros i _. rewrite sumn_swap. reflexivity. }
    apply sumn_ext; intros i _. apply sumn_ext; intros j _.
    rewrite sumn_mul_l, sumn_mul_r. apply sumn_ext; intros p _.
    rewrite sumn_mul_r, sumn_mul_l, sumn_mul_r. reflexivity.
  Qed.
  Theorem density_rotated_formula b rho C Ct l k ket bra : ready b l -> shape C = [l; k] -> tilde_shape C Ct k l ->
    shape rho = [k; k] -> b_arr b F_spf = Some ket -> bra_view b = Some bra -> shape bra = shape ket ->
    dmax (dt (default_tilde C Ct)) (dt bra) = dmax (dt C) (dt ket) ->
    castable (dt rho) (dmax (dt C) (dt ket)) = true ->
    exists d b', compute_particle_density rho (Some C) Ct b = (Ok d, b') /\ same_values b' b /\ shape d = tl (shape ket) /\
      forall x, valid (tl (shape ket)) x ->
        get d x = density_at l (mmul k (mmul k (mat C) (mat rho)) (tilde C Ct)) (orb bra x) (orb ket x).
  Proof.
    intros R HC HD Sr Hk Hv Sbk Hd Hc.
    destruct (default_tilde_spec K C Ct l k k HC HD) as [SD GD].
    destruct (r_np _ _ _ R) as [m Hm].
    destruct (r_spf _ _ _ R ket Hk) as (g & Sk & _).
    destruct (transform_spf_ok K ket C l k g Sk HC) as (ket' & Ek' & Sk' & Dk' & Gk').
    destruct (cpd_eval_C b rho C Ct ket m ket' Hm Hk Ek') as (bra0 & b2 & Hv' & Hs & Ev).
    rewrite Hv in Hv'. injection Hv' as <-. rewrite Sk in Sbk.
    destruct (transform_bra_ok K bra (default_tilde C Ct) l k g Sbk SD) as (bra' & Eb' & Sb' & Db' & Gb').
    destruct (particle_density_ok K rho ket' bra' k k k g) as (d & Ed & Sd & _ & Gd); try assumption; try lia.
    { congruence. } { rewrite Dk'. auto. }
    exists d, b2. rewrite (Ev bra' Eb'), Ed, Sk. cbn [tl]. split; [reflexivity|]. split; [exact Hs|]. split; [exact Sd|].
    intros x V. rewrite Gd by exact V. unfold orb.
    rewrite <- (density_at_rotated l k (mat rho) (mat C) (tilde C Ct) (fun i => get bra (i :: x)) (fun j => get ket (j :: x))).
    unfold density_at. apply sumn_ext; intros p Hp. apply sumn_ext; intros q Hq.
    rewrite Gb', Gk' by assumption. f_equal. f_equal. apply sumn_ext; intros i Hi. f_equal.
    apply GD; assumption.
  Qed.

  (** C35: exactly which element types are accepted (non-empty basis). *)
  Theorem density_types b rho ket bra n g : (exists m, b_np b = Some m) -> 0 < n ->
    b_arr b F_spf = Some ket -> bra_view b = Some bra -> shape ket = n :: g -> shape bra = n :: g ->
    shape rho = [n; n] ->
    match fst (compute_particle_density rho None None b) with
    | Ok d => dt bra = dt ket /\ castable (dt rho) (dt ket) = true /\ shape d = g /\ dt d = dt ket
    | Err AssertionError => dt bra <> dt ket
    | Err UFuncTypeError => dt bra = dt ket /\ castable (dt rho) (dt ket) = false
    | Err _ => False
    end.
  Proof.
    intros [m Hm] Hn Hk Hb Sk Sb Sr.
    destruct (cpd_eval b rho ket m Hm Hk) as (bra0 & b1 & Hv & Hs & E). rewrite Hb in Hv. injection Hv as <-.
    rewrite E. cbn [fst].
    assert ({dt bra = dt ket} + {dt bra <> dt ket}) as [Hd|Hd] by decide equality.
    - destruct (castable (dt rho) (dt ket)) eqn:Hc.
      + destruct (particle_density_ok K rho ket bra n n n g) as (d & -> & Sd & Dd & _); auto.
      + rewrite (particle_density_cast K rho ket bra n n n g) by auto. auto.
    - rewrite particle_density_types by congruence. exact Hd.
  Qed.
End Api.
