(** Plane rotations of the orbitals of a system. *)
From Coq Require Import Reals List Arith ZArith Lia Lra Bool.
From Coquelicot Require Import Coquelicot.
From Verif Require Import Scalar ScalarC Py Numpy Spec BasisSet BasisSpec ChangeProofs EnergySpec EnergyProofs EnergyFacts Systems SystemFacts SystemProofs RotationSpec RotationProofs.
Import ListNotations.

Section Exact.
  Variable K : scalar.
  Add Ring KringRT : (s_ring K).
  Local Open Scope K_scope.
  Definition expansion (k : kind) (l : nat) (u : nat -> nat -> nat -> nat -> K) (F D : nat -> nat -> K) : K :=
    match k with
    | General => trace2 l D F + shalf * curv l u D D
    | Spatial => (1 + 1) * trace2 l D F + curv l (fun p q r s => (1 + 1) * u p q r s - u p q s r) D D
    end.
  Lemma energy_expansion s (w : world K) k N l n x b C Ct h u f : sys_at w s k N l x b ->
    shape C = [l; n] -> tilde_shape C Ct n l -> spin_mats_ok b l n -> (b_arr b F_spf = None -> b_arr b F_bra = None) -> (N <= n)%nat ->
    b_arr b F_h = Some h -> b_arr b F_u = Some u -> buffer_ok f h u -> particle_sym l (ten u) ->
    exists w' e e' F, sys_change_basis s C Ct w = (Ok tt, w') /\ fock_matrix s h u f w = (Ok F, w) /\
      reference_energy s w = (Ok e, w) /\ reference_energy s w' = (Ok e', w') /\
      e' = e + expansion k l (ten u) (mat F) (density_change N (mat C) (tilde C Ct)).
  Proof.
    intros A HC HD Hsp Hbra HN Hh Hu Hf Hs.
    destruct (sys_change_basis_ok K s w k N l x b C Ct n A HC HD) as (b' & B & E & _). specialize (E HN).
    pose proof (change_basis_sys_at K s w k N l x b b' C Ct n A B Hsp Hbra HN) as A'.
    pose proof (at_le K _ _ _ _ _ _ _ A) as HNl.
    destruct (r_h K b l (at_ready K _ _ _ _ _ _ _ A)) as (h0 & Hh0 & Sh). rewrite Hh in Hh0. injection Hh0 as <-.
    destruct (r_u K b l (at_ready K _ _ _ _ _ _ _ A)) as (u0 & Hu0 & Su). rewrite Hu in Hu0. injection Hu0 as <-.
    pose proof (bc_h B) as Bh. rewrite Hh in Bh. destruct (b_arr b' F_h) as [h'|] eqn:Eh'; [|destruct Bh].
    pose proof (bc_u B) as Bu. rewrite Hu in Bu. destruct (b_arr b' F_u) as [u'|] eqn:Eu'; [|destruct Bu].
    destruct (fock_matrix_ok K w s k N l x b h u f A Sh Su Hf) as (F & EF & SF & GF).
    eexists; eexists; eexists; exists F. split; [exact E|]. split; [exact EF|].
    split; [exact (reference_energy_ok K w s k N l x b h u A Hh Hu Sh Su)|].
    split; [exact (reference_energy_ok K _ s k N n _ b' h' u' A' Eh' Eu' (proj1 Bh) (proj1 Bu))|].
    destruct (default_tilde_spec K C Ct l n n HC HD) as [SD GD].
    assert (DD : forall q p, density_change N (mat C) (mat (default_tilde C Ct)) q p = density_change N (mat C) (tilde C Ct) q p).
    { intros q p. unfold density_change. f_equal. apply sumn_ext. intros i _. rewrite GD. reflexivity. }
    destruct k; cbn [expansion].
    - transitivity (E_general N (T1 l (mat h) (mat C) (mat (default_tilde C Ct))) (T2 l (ten u) (mat C) (mat (default_tilde C Ct)))).
      + apply E_general_ext; intros; [apply (proj2 Bh) | apply (proj2 Bu)]; lia.
      + rewrite (expand_general K l N) by assumption.
        rewrite (trace2_ext K l _ (density_change N (mat C) (tilde C Ct)) (F_general N (mat h) (ten u)) (mat F));
          [|intros; apply DD|intros; symmetry; apply GF; assumption].
        rewrite (curv_ext K l (ten u) (ten u) _ (density_change N (mat C) (tilde C Ct)) _ (density_change N (mat C) (tilde C Ct))); try (intros; apply DD); try reflexivity. ring.
    - transitivity (E_restricted N (T1 l (mat h) (mat C) (mat (default_tilde C Ct))) (T2 l (ten u) (mat C) (mat (default_tilde C Ct)))).
      + apply E_restricted_ext; intros; [apply (proj2 Bh) | apply (proj2 Bu)]; lia.
      + rewrite (expand_restricted K l N) by assumption.
        rewrite (trace2_ext K l _ (density_change N (mat C) (tilde C Ct)) (F_restricted N (mat h) (ten u)) (mat F));
          [|intros; apply DD|intros; symmetry; apply GF; assumption].
        rewrite (curv_ext K l _ (fun p q r s => (1 + 1) * ten u p q r s - ten u p q s r) _ (density_change N (mat C) (tilde C Ct)) _ (density_change N (mat C) (tilde C Ct))); try (intros; apply DD); try reflexivity. ring.
  Qed.

  (** Plane rotations are unitary. *)
  Lemma sum_two l i a (f : nat -> K) : (i < l)%nat -> (a < l)%nat -> i <> a -> (forall k, (k < l)%nat -> k <> i -> k <> a -> f k = 0) -> sumn l f = f i + f a.
  Proof.
    intros Hi Ha Hne H. rewrite (sumn_ext K l f (fun k => (if (k =? i)%nat then f i else 0) + (if (k =? a)%nat then f a else 0))).
    - rewrite sumn_add. rewrite (sumn_pick K l i), (sumn_pick K l a), !Nat.eqb_refl; try assumption; try reflexivity;
        intros j _ Hj; apply Nat.eqb_neq in Hj; rewrite Hj; reflexivity.
    - intros k Hk. destruct (Nat.eqb_spec k i) as [E1|H1]; destruct (Nat.eqb_spec k a) as [E2|H2]; try (exfalso; congruence); [rewrite E1; ring | rewrite E2; ring | rewrite H by assumption; ring].
  Qed.
  Lemma plane_unitary l i a (c s z : K) : (i < l)%nat -> (a < l)%nat -> i <> a -> sconj c = c -> sconj s = s -> c * c + s * s = 1 -> z * sconj z = 1 ->
    forall p q, (p < l)%nat -> (q < l)%nat -> mmul l (adj (plane i a c s z)) (plane i a c s z) p q = delta p q.
  Proof.
    intros Hi Ha Hne Hc Hs Hcs Hz p q Hp Hq. unfold mmul, adj.
    assert (Nia : (i =? a)%nat = false) by (apply Nat.eqb_neq; assumption). assert (Nai : (a =? i)%nat = false) by (apply Nat.eqb_neq; congruence).
    assert (Ci : forall k, k <> i -> k <> a -> plane i a c s z k i = 0 /\ plane i a c s z k a = 0).
    { intros k H1 H2. apply Nat.eqb_neq in H1, H2. unfold plane. rewrite !Nat.eqb_refl, Nai, H1, H2. split; reflexivity. }
    assert (Co : forall j k, j <> i -> j <> a -> plane i a c s z k j = delta k j).
    { intros j k H1 H2. apply Nat.eqb_neq in H1, H2. unfold plane. rewrite H1, H2. reflexivity. }
    assert (Vii : plane i a c s z i i = c) by (unfold plane; rewrite !Nat.eqb_refl; reflexivity).
    assert (Vai : plane i a c s z a i = s * z) by (unfold plane; rewrite !Nat.eqb_refl, Nai; reflexivity).
    assert (Via : plane i a c s z i a = - (s * sconj z)) by (unfold plane; rewrite !Nat.eqb_refl, Nai, Nia; reflexivity).
    assert (Vaa : plane i a c s z a a = c) by (unfold plane; rewrite !Nat.eqb_refl, Nai; reflexivity).
    assert (Q : forall j, (j < l)%nat -> j <> i -> j <> a -> forall m, (m < l)%nat -> sumn l (fun k => sconj (plane i a c s z k m) * plane i a c s z k j) = delta m j /\
       sumn l (fun k => sconj (plane i a c s z k j) * plane i a c s z k m) = delta j m).
    { intros j Hj H1 H2 m Hm.
      assert (V : plane i a c s z j m = delta j m).
      { unfold plane. destruct (Nat.eqb_spec m i) as [->|]; [|destruct (Nat.eqb_spec m a) as [->|]; [|reflexivity]].
        - pose proof H1 as H1'. pose proof H2 as H2'. apply Nat.eqb_neq in H1', H2'. unfold delta. rewrite H1', H2'. reflexivity.
        - pose proof H1 as H1'. pose proof H2 as H2'. apply Nat.eqb_neq in H1', H2'. unfold delta. rewrite H1', H2'. reflexivity. }
      split.
      - rewrite (sumn_pick K l j); [|exact Hj|].
        + rewrite (Co j j H1 H2), V. unfold delta. rewrite Nat.eqb_refl, (Nat.eqb_sym m j). destruct (j =? m)%nat; rewrite ?conj_1, ?conj_0; ring.
        + intros k _ Hk. rewrite (Co j k H1 H2). unfold delta. apply Nat.eqb_neq in Hk. rewrite Hk. ring.
      - rewrite (sumn_pick K l j); [|exact Hj|].
        + rewrite (Co j j H1 H2), V. unfold delta. rewrite Nat.eqb_refl. destruct (j =? m)%nat; rewrite ?conj_1, ?conj_0; ring.
        + intros k _ Hk. rewrite (Co j k H1 H2). unfold delta. apply Nat.eqb_neq in Hk. rewrite Hk, conj_0. ring. }
    assert (Hz' : s * s * (z * sconj z) = s * s) by (rewrite Hz; ring).
    destruct (Nat.eq_dec q i) as [->|Nq1]; [|destruct (Nat.eq_dec q a) as [->|Nq2]; [|apply (fun A B C => proj1 (Q q A B C p Hp)); assumption]];
    (destruct (Nat.eq_dec p i) as [->|Np1]; [|destruct (Nat.eq_dec p a) as [->|Np2]; [|apply (fun A B C => proj2 (Q p A B C _ Hq)); assumption]]);
    rewrite (sum_two l i a) by (first [assumption | intros k Hk H1 H2; destruct (Ci k H1 H2) as [V1 V2]; rewrite ?V1, ?V2, ?conj_0; ring]);
    rewrite ?Vii, ?Vai, ?Via, ?Vaa; unfold delta; rewrite ?Nat.eqb_refl, ?Nai, ?Nia; rewrite ?conj_opp, ?conj_mul, ?conj_invol, ?Hc, ?Hs.
    - rewrite <- Hcs. transitivity (c * c + s * s * (z * sconj z)); [ring | rewrite Hz'; reflexivity].
    - ring.
    - ring.
    - rewrite <- Hcs. transitivity (c * c + s * s * (z * sconj z)); [ring | rewrite Hz'; reflexivity].
  Qed.
End Exact.

Local Open Scope R_scope.
Lemma re_scal x y : Re (RtoC x * y)%C = x * Re y.
Proof. destruct y as [y1 y2]. unfold Cmult, RtoC, Re. cbn. ring. Qed.
Lemma re_plus x y : Re (x + y)%C = Re x + Re y.
Proof. reflexivity. Qed.
Lemma cos_sin t : (RtoC (cos t) * RtoC (cos t) + RtoC (sin t) * RtoC (sin t) = RtoC 1)%C.
Proof. rewrite <- !RtoC_mult, <- RtoC_plus. f_equal. pose proof (sin2_cos2 t) as H. unfold Rsqr in H. lra. Qed.
Lemma conj_real x : Cconj (RtoC x) = RtoC x.
Proof. unfold Cconj, RtoC. cbn. f_equal. lra. Qed.
(** The energy along a rotation *)
Definition factor (k : kind) : R := match k with General => 1 | Spatial => 2 end.
Definition path (k : kind) l i a (u : nat -> nat -> nat -> nat -> C) (F : nat -> nat -> C) (z e : C) (t : R) : C :=
  let s := RtoC (sin t) in let c := RtoC (cos t) in
  let G := match k with General => u | Spatial => fun p q r s => (RtoC 2 * u p q r s - u p q s r)%C end in
  let m := RtoC (match k with General => / 2 | Spatial => 1 end) in
  (e + RtoC (factor k) * ((s * c) * (z * F i a + Cconj z * F a i) + (s * s) * (F a a - F i i)) +
   m * ((s * s) * ((c * c) * curv (K:=CC) l G (along CC i a z) (along CC i a z) + (s * c) * (curv (K:=CC) l G (along CC i a z) (across CC i a) + curv (K:=CC) l G (across CC i a) (along CC i a z))
      + (s * s) * curv (K:=CC) l G (across CC i a) (across CC i a))))%C.
Lemma path_derive k l i a u F z e : is_derive (fun t => Re (path k l i a u F z e t)) 0 (factor k * Re (z * F i a + Cconj z * F a i)%C).
Proof.
  unfold path. cbv zeta. set (G := match k with General => u | Spatial => _ end).
  set (A := (z * F i a + Cconj z * F a i)%C). set (B := (F a a - F i i)%C).
  set (X := curv (K:=CC) l G (along CC i a z) (along CC i a z)). set (Y := (curv (K:=CC) l G (along CC i a z) (across CC i a) + curv (K:=CC) l G (across CC i a) (along CC i a z))%C).
  set (Z := curv (K:=CC) l G (across CC i a) (across CC i a)). set (m := match k with General => / 2 | Spatial => 1 end).
  apply (is_derive_ext (fun t => Re e + factor k * (sin t * cos t * Re A + sin t * sin t * Re B) + m * (sin t * sin t * (cos t * cos t * Re X + sin t * cos t * Re Y + sin t * sin t * Re Z)))).
  - intros t. rewrite <- !RtoC_mult. repeat (rewrite re_plus || rewrite re_scal). reflexivity.
  - clearbody m. generalize (Re A) (Re B) (Re X) (Re Y) (Re Z). intros a1 b1 x1 y1 z1. auto_derive; [exact I|]. rewrite sin_0, cos_0. ring.
Qed.
Ltac cring := match goal with |- @eq _ ?a ?b => change (@eq C a b) end; ring.
Lemma path_0 k l i a u F z e : path k l i a u F z e 0 = e.
Proof. unfold path. rewrite sin_0. ring. Qed.
Lemma fock_gradient s (w : world CC) k N l x b (h u : arr CC) f i a z : sys_at w s k N l x b ->
  (b_arr b F_spf = None -> b_arr b F_bra = None) ->
  b_arr b F_h = Some h -> b_arr b F_u = Some u -> buffer_ok f h u -> particle_sym l (ten u) ->
  (i < N)%nat -> (N <= a < l)%nat -> (z * Cconj z)%C = RtoC 1 ->
  exists (F : arr CC) (e : R -> CC), fock_matrix s h u f w = (Ok F, w) /\ reference_energy s w = (Ok (e 0), w) /\
    (forall t, exists w', sys_change_basis s (rotation l i a t z) None w = (Ok tt, w') /\ reference_energy s w' = (Ok (e t), w')) /\
    is_derive (fun t => Re (e t)) 0 (factor k * Re (z * mat F i a + Cconj z * mat F a i)%C).
Proof.
  intros A Hbra Hh Hu Hf Hs Hi Ha Hz.
  assert (Ex : forall t, exists w' e e' F, sys_change_basis s (rotation l i a t z) None w = (Ok tt, w') /\ fock_matrix s h u f w = (Ok F, w) /\
      reference_energy s w = (Ok e, w) /\ reference_energy s w' = (Ok e', w') /\ e' = path k l i a (ten u) (mat F) z e t).
  { intros t. pose proof (at_le CC _ _ _ _ _ _ _ A) as HN.
    destruct (energy_expansion CC s w k N l l x b (rotation l i a t z) None h u f A eq_refl eq_refl (or_introl eq_refl) Hbra HN Hh Hu Hf Hs) as (w' & e & e' & F & E1 & E2 & E3 & E4 & E5).
    exists w', e, e', F. split; [exact E1|]. split; [exact E2|]. split; [exact E3|]. split; [exact E4|]. rewrite E5.
    pose proof (plane_trace CC l N i a (RtoC (cos t)) (RtoC (sin t)) z (mat F) Hi Ha (conj_real _) (conj_real _) (cos_sin t) Hz) as T.
    pose proof (fun G => plane_curv CC l N i a (RtoC (cos t)) (RtoC (sin t)) z G Hi Ha (conj_real _) (conj_real _) (cos_sin t) Hz) as Q.
    cbv zeta in Q. unfold expansion, path. change (tilde (rotation l i a t z) None) with (fun p q => @sconj CC (@plane CC i a (RtoC (cos t)) (RtoC (sin t)) z q p)).
    change (mat (rotation l i a t z)) with (@plane CC i a (RtoC (cos t)) (RtoC (sin t)) z).
    assert (T2 : (RtoC 1 + RtoC 1)%C = RtoC 2) by (rewrite <- RtoC_plus; f_equal; lra).
    destruct k; cbn [factor].
    - rewrite T, Q. change (@sadd CC) with Cplus. change (@smul CC) with Cmult. change (@ssub CC) with Cminus. change (@sconj CC) with Cconj. change (@shalf CC) with (RtoC (/ 2)). cring.
    - rewrite (curv_ext CC l _ (fun p q r s0 => (RtoC 2 * ten u p q r s0 - ten u p q s0 r)%C) _ _ _ _ (fun p q _ _ => eq_refl) (fun p q _ _ => eq_refl)).
      2: { intros p q r v _ _ _ _. change (@sadd CC) with Cplus. change (@smul CC) with Cmult. change (@ssub CC) with Cminus. change (@s1 CC) with (RtoC 1). rewrite T2. reflexivity. }
      rewrite T, Q. change (@sadd CC) with Cplus. change (@smul CC) with Cmult. change (@ssub CC) with Cminus. change (@sconj CC) with Cconj. change (@s1 CC) with (RtoC 1). rewrite T2. cring. }
  destruct (Ex 0) as (w0 & e0 & e0' & F & _ & EF & E0 & _ & _).
  exists F, (path k l i a (ten u) (mat F) z e0). split; [exact EF|]. split; [|split].
  - rewrite E0, path_0. reflexivity.
  - intros t. destruct (Ex t) as (w1 & e1 & e1' & F1 & H1 & H2 & H3 & H4 & H5). rewrite EF in H2. injection H2 as <-. rewrite E0 in H3. injection H3 as <-.
    exists w1. split; [exact H1|]. rewrite H4, H5. reflexivity.
  - apply path_derive.
Qed.

(** ** Orbitals of lowest energy *)
Lemma minimum_zero f d : is_derive f 0 d -> (forall t, f 0 <= f t) -> d = 0.
Proof.
  intros H M. apply is_derive_Reals in H. pose (pr := exist _ d H : derivable_pt f 0).
  pose proof (deriv_minimum f (-1) 1 0 pr ltac:(lra) ltac:(lra) (fun x _ _ => M x)) as E. exact E.
Qed.
Lemma brillouin s (w : world CC) k N l x b (h u : arr CC) f e : sys_at w s k N l x b ->
  (b_arr b F_spf = None -> b_arr b F_bra = None) ->
  b_arr b F_h = Some h -> b_arr b F_u = Some u -> buffer_ok f h u ->
  hermitian l (mat h) -> hermitian2 l (ten u) -> particle_sym l (ten u) ->
  reference_energy s w = (Ok e, w) ->
  (forall (C : arr CC) w' e', shape C = [l; l] ->
     (forall p q, (p < l)%nat -> (q < l)%nat -> mmul l (adj (mat C)) (mat C) p q = delta p q) ->
     sys_change_basis s C None w = (Ok tt, w') -> reference_energy s w' = (Ok e', w') -> Re e <= Re e') ->
  exists F, fock_matrix s h u f w = (Ok F, w) /\ forall i a, (i < N)%nat -> (N <= a < l)%nat -> mat F a i = RtoC 0 /\ mat F i a = RtoC 0.
Proof.
  intros A Hbra Hh Hu Hf Herm Herm2 Hs He M.
  destruct (r_h CC b l (at_ready CC _ _ _ _ _ _ _ A)) as (h0 & Hh0 & Sh). rewrite Hh in Hh0. injection Hh0 as <-.
  destruct (r_u CC b l (at_ready CC _ _ _ _ _ _ _ A)) as (u0 & Hu0 & Su). rewrite Hu in Hu0. injection Hu0 as <-.
  destruct (fock_hermitian CC s w k N l x b h u f A Sh Su Hf Herm Herm2 (fun _ => Hs)) as (F & EF & SF & HF).
  exists F. split; [exact EF|]. intros i a Hi Ha. pose proof (at_le CC _ _ _ _ _ _ _ A) as HN.
  assert (Z : forall z : C, (z * Cconj z)%C = RtoC 1 -> Re (z * mat F i a + Cconj z * mat F a i)%C = 0).
  { intros z Hz. destruct (fock_gradient s w k N l x b h u f i a z A Hbra Hh Hu Hf Hs Hi Ha Hz) as (F' & en & EF' & E0 & Et & D).
    rewrite EF in EF'. injection EF' as <-. rewrite He in E0. injection E0 as E0.
    apply minimum_zero in D.
    - destruct k; cbn [factor] in D; lra.
    - intros t. rewrite <- E0. destruct (Et t) as (w' & E1 & E2). apply (M (rotation l i a t z) w' (en t) eq_refl); [|exact E1|exact E2].
      intros p q Hp Hq. change (mat (rotation l i a t z)) with (@plane CC i a (RtoC (cos t)) (RtoC (sin t)) z).
      apply (plane_unitary CC l i a); try assumption; try lia; [apply conj_real | apply conj_real | exact (cos_sin t)]. }
  assert (H1 := Z (RtoC 1) ltac:(rewrite conj_real; ring)).
  assert (H2 := Z Ci ltac:(unfold Ci, Cconj, Cmult, RtoC; cbn; f_equal; ring)).
  assert (H3 : mat F i a = Cconj (mat F a i)) by (apply HF; lia).
  rewrite H3 in H1, H2. rewrite H3. destruct (mat F a i) as [x1 y1]. unfold Re, Cplus, Cmult, Cconj, Ci, RtoC in H1, H2. cbn in H1, H2.
  assert (x1 = 0) by lra. assert (y1 = 0) by lra. subst. split; unfold RtoC, Cconj; cbn; f_equal; lra.
Qed.
