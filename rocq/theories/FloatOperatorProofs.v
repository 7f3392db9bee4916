(** Proofs for the rounding of the time-dependent Hamiltonian. *)
From Coq Require Import List Arith ZArith Reals Permutation Bool Lra Lia.
From Flocq Require Import Core.
From Coquelicot Require Import Coquelicot.
From Verif Require Import Scalar ScalarC Spec GridSpec FloatModel FloatSpec FloatProofs FloatCode FloatGrid FloatTheorems FloatExamples FloatOperator.
Import ListNotations.
Open Scope R_scope.
Local Notation T := underflow.

(** Sums of products with at most one product that is not zero *)
Definition nz (x : R) : bool := if Req_EM_T x 0 then false else true.
Lemma nz_0 x : x = 0 -> nz x = false.
Proof. intros ->. unfold nz. destruct (Req_EM_T 0 0); [reflexivity | contradiction]. Qed.
Definition live (l : list (R * R)) : list R := filter nz (prods l).
Lemma live_app l l' : live (l ++ l') = live l ++ live l'.
Proof. unfold live, prods. rewrite map_app. apply filter_app. Qed.
Lemma filter_perm {X} (f : X -> bool) l l' : Permutation l l' -> Permutation (filter f l) (filter f l').
Proof.
  induction 1; cbn.
  - constructor.
  - destruct (f x); [constructor|]; assumption.
  - destruct (f y), (f x); try constructor; apply Permutation_refl.
  - eapply Permutation_trans; eassumption.
Qed.
Lemma live_perm l l' : Permutation l l' -> Permutation (live l) (live l').
Proof. intros H. apply filter_perm. apply Permutation_map, H. Qed.
Lemma dotted_live l v : dotted l v -> (live l = [] -> v = 0) /\ (forall c, live l = [c] -> v = fl c).
Proof.
  induction 1 as [|x y|l l' x y a Hp D IH|l l1 l2 a b Hp D1 IH1 D2 IH2].
  - split; [reflexivity | intros c E; discriminate E].
  - unfold live. cbn. unfold nz, fmul. destruct (Req_EM_T (x * y) 0) as [E|E].
    + split; [intros _; rewrite E; apply fl_0 | intros c F; discriminate F].
    + split; [intros F; discriminate F | intros c F; injection F as ->; reflexivity].
  - apply live_perm in Hp. change ((x, y) :: l') with ([(x, y)] ++ l') in Hp. rewrite live_app in Hp.
    pose proof (dotted_float _ _ D) as Fa. destruct IH as (I0 & I1).
    unfold live at 2 in Hp. cbn in Hp. unfold nz in Hp at 1. destruct (Req_EM_T (x * y) 0) as [E|E]; cbn in Hp.
    + rewrite E, Rplus_0_l, (fl_id a Fa). split.
      * intros N. rewrite N in Hp. apply Permutation_nil in Hp. exact (I0 Hp).
      * intros c N. rewrite N in Hp. apply Permutation_length_1_inv in Hp. exact (I1 c Hp).
    + split; [intros N; rewrite N in Hp; apply Permutation_nil in Hp; discriminate Hp|].
      intros c N. rewrite N in Hp. apply Permutation_length_1_inv in Hp. injection Hp as Ec El.
      rewrite (I0 El), Rplus_0_r, Ec. reflexivity.
  - apply live_perm in Hp. rewrite live_app in Hp. destruct IH1 as (I0 & I1), IH2 as (J0 & J1).
    split.
    + intros N. rewrite N in Hp. apply Permutation_nil in Hp. apply app_eq_nil in Hp as (A & B).
      rewrite (I0 A), (J0 B). apply fadd_0_r, float_0.
    + intros c N. rewrite N in Hp. apply Permutation_length_1_inv in Hp. apply app_eq_unit in Hp as [(A & B)|(A & B)].
      * rewrite (I0 A), (J1 c B). apply fadd_0_l, fl_float.
      * rewrite (I1 c A), (J0 B). apply fadd_0_r, fl_float.
Qed.
Lemma dotted_only l c v : live l = filter nz [c] -> dotted l v -> v = fl c.
Proof.
  intros E D. destruct (dotted_live l v D) as (H0 & H1). cbn in E. unfold nz in E. destruct (Req_EM_T c 0) as [Z|Z].
  - rewrite Z, fl_0. exact (H0 E).
  - exact (H1 c E).
Qed.

(** A real factor multiplies both parts *)
Lemma cmul_real x w v : cmul (RtoC x) w v -> v = rscale x w.
Proof.
  intros (A & B). apply injective_projections; cbn.
  - apply (dotted_only _ (x * fst w)) in A; [exact A|]. unfold live. cbn. rewrite (nz_0 (- 0 * snd w)) by ring. reflexivity.
  - apply (dotted_only _ (x * snd w)) in B; [exact B|]. unfold live. cbn. rewrite (nz_0 (0 * fst w)) by ring. reflexivity.
Qed.
Lemma cadd_0_r z : cfloat z -> cadd z (RtoC 0) = z.
Proof. intros (A & B). unfold cadd. cbn. rewrite !fadd_0_r by assumption. symmetry. apply surjective_pairing. Qed.
Lemma rscale_0 z : rscale 0 z = RtoC 0.
Proof. unfold rscale, fmul. rewrite !Rmult_0_l, fl_0. reflexivity. Qed.
Lemma rscale_conj x z : rscale x (Cconj z) = Cconj (rscale x z).
Proof. unfold rscale, Cconj, fmul. cbn. rewrite Ropp_mult_distr_r_reverse, fl_opp. reflexivity. Qed.
Lemma cadd_conj z w : cadd (Cconj z) (Cconj w) = Cconj (cadd z w).
Proof. unfold cadd, Cconj, fadd. cbn. rewrite <- Ropp_plus_distr, fl_opp. reflexivity. Qed.

(** A polarization along one axis *)
Lemma live_axis (d : nat -> C) (pol : nat -> C) j x (terms : C * C -> list (R * R)) (c : C -> R) n :
  (forall z, live (terms (RtoC x, z)) = filter nz [c z]) -> (forall z, live (terms (RtoC 0, z)) = []) ->
  (forall i, pol i = if (i =? j)%nat then RtoC x else RtoC 0) ->
  live (flat_map terms (map (fun i => (pol i, d i)) (seq 0 n))) = if (j <? n)%nat then filter nz [c (d j)] else [].
Proof.
  intros H1 H0 P. induction n; [reflexivity|].
  rewrite seq_S, map_app, flat_map_app, live_app, IHn. cbn [map flat_map]. rewrite app_nil_r, P. rewrite Nat.add_0_l.
  destruct (Nat.eqb_spec n j) as [E|E].
  - subst. rewrite H1. assert (F : (j <? j)%nat = false) by (apply Nat.ltb_ge; lia).
    assert (G : (j <? S j)%nat = true) by (apply Nat.ltb_lt; lia). rewrite F, G. reflexivity.
  - rewrite H0, app_nil_r. assert (F : (j <? n)%nat = (j <? S n)%nat).
    { destruct (Nat.ltb_spec j n), (Nat.ltb_spec j (S n)); (reflexivity || lia). }
    rewrite F. reflexivity.
Qed.
Lemma tensordot_axis n (d pol : nat -> C) j x w : (j < n)%nat ->
  (forall i, pol i = if (i =? j)%nat then RtoC x else RtoC 0) ->
  cdotted (map (fun i => (pol i, d i)) (seq 0 n)) w -> w = rscale x (d j).
Proof.
  intros Hj P (A & B). apply Nat.ltb_lt in Hj. apply injective_projections; cbn.
  - apply (dotted_only _ (x * fst (d j))) in A; [exact A|].
    rewrite (live_axis d pol j x re_terms (fun z => x * fst z)); [rewrite Hj; reflexivity | | | exact P]; intros z; unfold live; cbn.
    + rewrite (nz_0 (- 0 * snd z)) by ring. reflexivity.
    + rewrite (nz_0 (- 0 * snd z)), (nz_0 (0 * fst z)) by ring. reflexivity.
  - apply (dotted_only _ (x * snd (d j))) in B; [exact B|].
    rewrite (live_axis d pol j x im_terms (fun z => x * snd z)); [rewrite Hj; reflexivity | | | exact P]; intros z; unfold live; cbn.
    + rewrite (nz_0 (0 * fst z)) by ring. reflexivity.
    + rewrite (nz_0 (0 * snd z)), (nz_0 (0 * fst z)) by ring. reflexivity.
Qed.

(** Accuracy *)
Lemma cgood_float_mul n t s a v m t' s' a' v' z : cmul v v' z -> cgood n t s a v -> cgood m t' s' a' v' ->
  cgood (2 + (n + m)) (a * t' + t * a' + t * t' + 4 * T) (Cmult s s') (a * a') z.
Proof. intros D G G'. eapply mul_good; [exact D|]. apply pgood_intro; assumption. Qed.

Lemma laser_accurate : forall dim h dip pol pulse p q z, laser_h dim h dip pol pulse p q z -> cfloat (h p q) ->
  accurate (2 * dim + 3) (4 * underflow * (size pulse * INR dim + 1))
    (size (h p q) + size pulse * rsum dim (fun i => size (pol i) * size (dip i p q)))
    (Cplus (h p q) (Cmult pulse (sumn (K := CC) dim (fun i => Cmult (pol i) (dip i p q))))) z.
Proof.
  intros dim h dip pol pulse p q z (w & v & D & M & ->) Fh. apply cgood_accurate.
  assert (G : cgood (2 * dim) (4 * INR dim * T) (sumn (K := CC) dim (fun i => Cmult (pol i) (dip i p q)))
    (rsum dim (fun i => size (pol i) * size (dip i p q))) w).
  { pose proof (dot_good dim 0 pol (fun i => dip i p q) (fun i => Cmult (pol i) (dip i p q)) (fun _ => 0)
      (fun i => size (pol i) * size (dip i p q)) w D) as G.
    eapply cgood_mono; [| | |apply G]; [lia | | lra |].
    - assert (Z : rsum dim (fun _ => 0) = 0) by (clear; induction dim; cbn; [reflexivity | rewrite IHdim; ring]). rewrite Z. lra.
    - intros k _. pose proof (pgood_intro _ _ _ _ _ _ _ _ _ _ (cgood_self (pol k)) (cgood_self (dip k p q))) as P.
      cbn [Nat.add] in P. replace (size (pol k) * 0 + 0 * size (dip k p q) + 0 * 0) with 0 in P by ring. exact P. }
  pose proof (cgood_float_mul _ _ _ _ _ _ _ _ _ _ _ M (cgood_self pulse) G) as G2.
  pose proof (cadd_good _ _ _ _ _ _ _ _ _ _ Fh (cmul_float _ _ _ M) (cgood_self (h p q)) G2) as G3.
  eapply cgood_mono; [| | |exact G3]; [lia | | lra].
  lra.
Qed.
Lemma custom_accurate : forall h op weight p q z, custom_h h op weight p q z -> cfloat (h p q) ->
  accurate 3 (4 * underflow) (size (h p q) + size weight * size (op p q)) (Cplus (h p q) (Cmult weight (op p q))) z.
Proof.
  intros h op weight p q z (v & M & ->) Fh. apply cgood_accurate.
  pose proof (cgood_float_mul _ _ _ _ _ _ _ _ _ _ _ M (cgood_self weight) (cgood_self (op p q))) as G2.
  pose proof (cadd_good _ _ _ _ _ _ _ _ _ _ Fh (cmul_float _ _ _ M) (cgood_self (h p q)) G2) as G3.
  eapply cgood_mono; [| | |exact G3]; [lia | | lra]. lra.
Qed.
Lemma switched_accurate : forall u weight p q r s z, switched_u u weight p q r s z ->
  accurate 2 (4 * underflow) (size weight * size (u p q r s)) (Cmult weight (u p q r s)) z.
Proof.
  intros u weight p q r s z M. apply cgood_accurate.
  pose proof (cgood_float_mul _ _ _ _ _ _ _ _ _ _ _ M (cgood_self weight) (cgood_self (u p q r s))) as G2.
  eapply cgood_mono; [| | |exact G2]; [lia | | lra]. lra.
Qed.

(** One axis *)
Lemma laser_axis : forall dim h dip pol j x pulse p q z, laser_h dim h dip pol (RtoC pulse) p q z ->
  (j < dim)%nat -> (forall i, pol i = if (i =? j)%nat then RtoC x else RtoC 0) ->
  z = cadd (h p q) (rscale pulse (rscale x (dip j p q))).
Proof.
  intros dim h dip pol j x pulse p q z (w & v & D & M & ->) Hj P.
  apply cmul_real in M. apply (tensordot_axis dim (fun i => dip i p q) pol j x w Hj P) in D. subst. reflexivity.
Qed.
Lemma laser_default : forall dim h dip pulse p q z, laser_h dim h dip default_polarization (RtoC pulse) p q z ->
  (0 < dim)%nat -> cfloat (dip 0%nat p q) -> z = cadd (h p q) (rscale pulse (dip 0%nat p q)).
Proof.
  intros dim h dip pulse p q z L Hd F. rewrite (laser_axis dim h dip default_polarization 0 1 pulse p q z L Hd).
  - rewrite rscale_1 by exact F. reflexivity.
  - reflexivity.
Qed.
Lemma laser_hermitian : forall dim h dip pol j x pulse p q z z',
  (j < dim)%nat -> (forall i, pol i = if (i =? j)%nat then RtoC x else RtoC 0) ->
  h q p = Cconj (h p q) -> dip j q p = Cconj (dip j p q) ->
  laser_h dim h dip pol (RtoC pulse) p q z -> laser_h dim h dip pol (RtoC pulse) q p z' -> z' = Cconj z.
Proof.
  intros dim h dip pol j x pulse p q z z' Hj P Hh Hd L L'.
  rewrite (laser_axis _ _ _ _ _ _ _ _ _ _ L Hj P), (laser_axis _ _ _ _ _ _ _ _ _ _ L' Hj P), Hh, Hd.
  rewrite !rscale_conj, cadd_conj. reflexivity.
Qed.
Lemma custom_hermitian : forall h op weight p q z z',
  h q p = Cconj (h p q) -> op q p = Cconj (op p q) ->
  custom_h h op (RtoC weight) p q z -> custom_h h op (RtoC weight) q p z' -> z' = Cconj z.
Proof.
  intros h op weight p q z z' Hh Ho (v & M & ->) (v' & M' & ->). apply cmul_real in M, M'. subst.
  rewrite Hh, Ho, rscale_conj, cadd_conj. reflexivity.
Qed.
Lemma switched_symmetric : forall u weight p q r s z, switched_u u (RtoC weight) p q r s z ->
  z = rscale weight (u p q r s) /\
  (forall z', u r s p q = Cconj (u p q r s) -> switched_u u (RtoC weight) r s p q z' -> z' = Cconj z) /\
  (forall z', u p q s r = Copp (u p q r s) -> switched_u u (RtoC weight) p q s r z' -> z' = Copp z) /\
  (forall z', u q p s r = u p q r s -> switched_u u (RtoC weight) q p s r z' -> z' = z).
Proof.
  intros u weight p q r s z M. apply cmul_real in M. split; [exact M|]. split; [|split]; intros z' E M'; apply cmul_real in M'; subst; rewrite E.
  - apply rscale_conj.
  - unfold rscale, Copp, fmul. cbn. rewrite !Ropp_mult_distr_r_reverse, !fl_opp. reflexivity.
  - reflexivity.
Qed.
Lemma switched_off : forall dim (h op : nat -> nat -> C) dip pol (u : nat -> nat -> nat -> nat -> C) p q r s z, cfloat (h p q) -> cfloat (u p q r s) ->
  (laser_h dim h dip pol (RtoC 0) p q z -> z = h p q) /\
  (custom_h h op (RtoC 0) p q z -> z = h p q) /\
  (switched_u u (RtoC 1) p q r s z -> z = u p q r s) /\
  (switched_u u (RtoC 0) p q r s z -> z = RtoC 0).
Proof.
  intros dim h op dip pol u p q r s z Fh Fu. split; [|split; [|split]].
  - intros (w & v & _ & M & ->). apply cmul_real in M. subst. rewrite rscale_0. apply cadd_0_r, Fh.
  - intros (v & M & ->). apply cmul_real in M. subst. rewrite rscale_0. apply cadd_0_r, Fh.
  - intros M. apply cmul_real in M. subst. apply rscale_1, Fu.
  - intros M. apply cmul_real in M. subst. apply rscale_0.
Qed.

(** Real polarization: Hermitian up to twice the error *)
Lemma conj_sumn n (f g : nat -> C) : (forall i, (i < n)%nat -> g i = Cconj (f i)) ->
  sumn (K := CC) n g = Cconj (sumn (K := CC) n f).
Proof.
  intros H. induction n; [apply injective_projections; cbn; ring|]. cbn [sumn]. rewrite IHn by (intros; apply H; lia). rewrite (H n) by lia.
  apply injective_projections; cbn; ring.
Qed.
Lemma size_conj z : size (Cconj z) = size z.
Proof. unfold size. cbn. rewrite Rabs_Ropp. reflexivity. Qed.
Lemma laser_nearly : forall dim h dip (pol : nat -> R) pulse p q z z', cfloat (h p q) ->
  h q p = Cconj (h p q) -> (forall i, (i < dim)%nat -> dip i q p = Cconj (dip i p q)) ->
  laser_h dim h dip (fun i => RtoC (pol i)) (RtoC pulse) p q z -> laser_h dim h dip (fun i => RtoC (pol i)) (RtoC pulse) q p z' ->
  size (Cminus z' (Cconj z)) <=
    2 * ((grow (2 * dim + 3) - 1) * (size (h p q) + Rabs pulse * rsum dim (fun i => Rabs (pol i) * size (dip i p q))) +
         grow (2 * dim + 3) * (4 * underflow * (Rabs pulse * INR dim + 1))).
Proof.
  intros dim h dip pol pulse p q z z' F Hh Hd L L'.
  assert (F' : cfloat (h q p)) by (rewrite Hh; destruct F; split; cbn; [assumption | apply float_opp; assumption]).
  pose proof (laser_accurate _ _ _ _ _ _ _ _ L F) as A. pose proof (laser_accurate _ _ _ _ _ _ _ _ L' F') as A'.
  unfold accurate in A, A'. rewrite !size_R in A, A'.
  assert (E1 : rsum dim (fun i => size (RtoC (pol i)) * size (dip i p q)) = rsum dim (fun i => Rabs (pol i) * size (dip i p q))).
  { apply rsum_ext. intros i _. rewrite size_R. reflexivity. }
  assert (E2 : rsum dim (fun i => size (RtoC (pol i)) * size (dip i q p)) = rsum dim (fun i => Rabs (pol i) * size (dip i p q))).
  { apply rsum_ext. intros i Hi. rewrite size_R, (Hd i Hi), size_conj. reflexivity. }
  rewrite E1 in A. rewrite E2, Hh, size_conj in A'.
  rewrite (conj_sumn dim (fun i => Cmult (RtoC (pol i)) (dip i p q))) in A'.
  2: { intros i Hi. rewrite (Hd i Hi). apply injective_projections; cbn; ring. }
  set (s := sumn (K := CC) dim (fun i => Cmult (RtoC (pol i)) (dip i p q))) in *.
  set (e := Cplus (h p q) (Cmult (RtoC pulse) s)) in *.
  replace (Cplus (Cconj (h p q)) (Cmult (RtoC pulse) (Cconj s))) with (Cconj e) in A'
    by (unfold e; apply injective_projections; cbn; ring).
  replace (Cminus z' (Cconj z)) with (Cplus (Cminus z' (Cconj e)) (Copp (Cconj (Cminus z e)))) by (apply injective_projections; cbn; ring).
  eapply Rle_trans; [apply size_add|]. rewrite size_opp, size_conj. lra.
Qed.

(** Something always comes out *)
Lemma cdotted_exists l : exists w, cdotted l w.
Proof. exists (left_dot (flat_map re_terms l), left_dot (flat_map im_terms l)). split; apply dotted_exists. Qed.
Lemma laser_exists dim h dip pol pulse p q : exists z, laser_h dim h dip pol pulse p q z.
Proof.
  destruct (cdotted_exists (map (fun i => (pol i, dip i p q)) (seq 0 dim))) as (w & W).
  destruct (cdotted_exists [(pulse, w)]) as (v & V). exists (cadd (h p q) v). exists w, v. split; [exact W|]. split; [exact V | reflexivity].
Qed.
Definition ex_dip (i p q : nat) : C := if (p =? q)%nat then RtoC 1 else if (p <? q)%nat then Ci else Copp Ci.
Lemma ex_dip_float i p q : cfloat (ex_dip i p q).
Proof.
  unfold ex_dip. destruct (p =? q)%nat; [split; [apply float_1 | apply float_0]|].
  destruct (p <? q)%nat; split; cbn; rewrite ?Ropp_0; try apply float_opp; (apply float_0 || apply float_1).
Qed.
Lemma ex_dip_hermitian i p q : ex_dip i q p = Cconj (ex_dip i p q).
Proof.
  unfold ex_dip. destruct (Nat.eqb_spec p q) as [E|E].
  - subst. rewrite Nat.eqb_refl. apply injective_projections; cbn; ring.
  - destruct (Nat.eqb_spec q p) as [F|F]; [lia|].
    destruct (Nat.ltb_spec p q), (Nat.ltb_spec q p); try lia; apply injective_projections; cbn; ring.
Qed.
Lemma field_instance :
  (forall p q, cfloat (ex_h p q)) /\ (forall p q, ex_h q p = Cconj (ex_h p q)) /\
  (forall i p q, cfloat (ex_dip i p q)) /\ (forall i p q, ex_dip i q p = Cconj (ex_dip i p q)) /\
  (forall dim pol pulse p q, exists z, laser_h dim ex_h ex_dip pol pulse p q z) /\
  laser_h 2 ex_h ex_dip default_polarization (RtoC tiny) 0 0 (RtoC 1) /\
  Cplus (ex_h 0%nat 0%nat) (Cmult (RtoC tiny) (sumn (K := CC) 2 (fun i => Cmult (default_polarization i) (ex_dip i 0%nat 0%nat)))) = RtoC (1 + tiny) /\
  laser_h 2 ex_h ex_dip default_polarization (RtoC tiny) 0 1 (Cmult (RtoC tiny) Ci) /\ 0 < tiny.
Proof.
  assert (Fh : forall p q, cfloat (ex_h p q)).
  { intros p q. unfold ex_h. destruct (p =? q)%nat; [destruct (p =? 0)%nat|]; [apply cfloat_R, float_1 | apply cfloat_R, float_tiny | apply cfloat_0]. }
  split; [exact Fh|]. split.
  { intros p q. unfold ex_h. destruct (Nat.eqb_spec p q) as [E|E].
    - subst. rewrite Nat.eqb_refl. destruct (q =? 0)%nat; apply injective_projections; cbn; ring.
    - destruct (Nat.eqb_spec q p) as [F|F]; [lia|]. apply injective_projections; cbn; ring. }
  split; [exact ex_dip_float|]. split; [exact ex_dip_hermitian|]. split; [intros; apply laser_exists|].
  split; [|split; [|split]].
  - destruct (laser_exists 2 ex_h ex_dip default_polarization (RtoC tiny) 0 0) as (z & Z).
    replace (RtoC 1) with z; [exact Z|].
    rewrite (laser_default _ _ _ _ _ _ _ Z); [|lia | apply ex_dip_float].
    unfold ex_h, ex_dip, cadd, rscale, fmul, fadd. cbn -[tiny fl]. rewrite Rmult_1_r, Rmult_0_r, fl_0, Rplus_0_r, fl_0, (fl_id tiny float_tiny), (proj1 one_minus_tiny). reflexivity.
  - unfold ex_h, ex_dip, default_polarization. apply injective_projections; cbn; ring.
  - destruct (laser_exists 2 ex_h ex_dip default_polarization (RtoC tiny) 0 1) as (z & Z).
    replace (Cmult (RtoC tiny) Ci) with z; [exact Z|].
    rewrite (laser_default _ _ _ _ _ _ _ Z); [|lia | apply ex_dip_float].
    unfold ex_h, ex_dip, cadd, rscale, fmul, fadd. cbn -[tiny fl]. rewrite Rmult_1_r, Rmult_0_r, fl_0, Rplus_0_r, fl_0, Rplus_0_l, !(fl_id tiny float_tiny).
    apply injective_projections; cbn; ring.
  - apply tiny_bounds.
Qed.
