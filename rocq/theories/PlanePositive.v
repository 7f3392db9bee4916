(** The interactions of the two-dimensional basis sets are positive: the Coulomb element is an
    integral over wave numbers of a product of two transformed densities. *)
From Coq Require Import List Arith ZArith Reals Bool Lra Lia.
From Coquelicot Require Import Coquelicot.
From Verif Require Import Scalar ScalarC Numpy BasisSet Spec BasisSpec GridSpec CoulombSpec OrbitalSpec PlaneSpec.
From Verif Require Import OneDim DotProofs GridProofs TwoDim AngularProofs Gauss Moments Laguerre Coulomb CoulombProofs Orbitals OrbitalProofs CacheExamples PairSpec PairProofs PairTheorems FourierPoly PlaneForm.
From Verif Require Import PositiveSpec PositiveKernel PositiveForms PositiveTheorems.
From Verif Require Import Py FieldProofs Cache MatrixProofs TwoDimBasis PlaneProofs SpinProofs BasisFacts DipoleTheorems EnergyProofs.
Import ListNotations.
Open Scope R_scope.
Local Notation S_ := (sumn (K := CC)).
Local Notation M := PlaneForm.M.

(** ** Two facts about forms *)
Lemma gram_positive l N (f : nat -> nat -> nat -> C) (u : nat -> nat -> nat -> nat -> C) :
  (forall p q r s, (p < l)%nat -> (q < l)%nat -> (r < l)%nat -> (s < l)%nat -> u p q r s = S_ N (fun i => (f p r i * Cconj (f s q i))%C)) -> positive_interaction l u.
Proof.
  intros Hu x. unfold self_energy.
  set (z i := S_ l (fun p => S_ l (fun r => (x p r * f p r i)%C))).
  match goal with |- nonneg ?w => replace w with (S_ N (fun i => (Cconj (z i) * z i)%C)) end; [apply (nonneg_sum N); intros i _; apply GridProofs.nonneg_square|].
  symmetry. transitivity (S_ l (fun p => S_ l (fun q => S_ l (fun r => S_ l (fun s => S_ N (fun i => ((x p r * f p r i) * (Cconj (x s q) * Cconj (f s q i)))%C)))))).
  - apply csum_ext; intros p Hp. apply csum_ext; intros q Hq. apply csum_ext; intros r Hr. apply csum_ext; intros s Hs. rewrite Hu by assumption.
    rewrite csum_scal. apply csum_ext; intros i _. cx. ring.
  - transitivity (S_ N (fun i => S_ l (fun p => S_ l (fun q => S_ l (fun r => S_ l (fun s => ((x p r * f p r i) * (Cconj (x s q) * Cconj (f s q i)))%C)))))).
    { rewrite (sumn_swap CC N l). apply csum_ext; intros p _. rewrite (sumn_swap CC N l). apply csum_ext; intros q _. rewrite (sumn_swap CC N l). apply csum_ext; intros r _. rewrite (sumn_swap CC N l). reflexivity. }
    apply csum_ext; intros i _.
    pose proof (split4 CC l (fun p r => (x p r * f p r i)%C) (fun s q => (Cconj (x s q) * Cconj (f s q i))%C)) as E. cbn beta in E.
    etransitivity; [exact E|]. change (@smul CC) with Cmult. fold (z i).
    assert (Ez : Cconj (z i) = S_ l (fun s => S_ l (fun q => (Cconj (x s q) * Cconj (f s q i))%C))).
    { unfold z. change Cconj with (@sconj CC) at 1. rewrite (sumn_conj CC). apply csum_ext; intros s _. rewrite (sumn_conj CC). apply csum_ext; intros q _.
      change (@sconj CC) with Cconj. apply conj_mul. }
    rewrite Ez. cx. ring.
Qed.
Lemma half_line_rsum4 n (f : nat -> nat -> nat -> nat -> R -> R) v :
  (forall p q r s, (p < n)%nat -> (q < n)%nat -> (r < n)%nat -> (s < n)%nat -> half_line (f p q r s) (v p q r s)) ->
  half_line (fun t => rsum n (fun p => rsum n (fun q => rsum n (fun r => rsum n (fun s => f p q r s t))))) (rsum n (fun p => rsum n (fun q => rsum n (fun r => rsum n (fun s => v p q r s))))).
Proof.
  intros H. apply (half_line_rsum n (fun p t => rsum n (fun q => rsum n (fun r => rsum n (fun s => f p q r s t))))). intros p Hp.
  apply (half_line_rsum n (fun q t => rsum n (fun r => rsum n (fun s => f p q r s t)))). intros q Hq.
  apply (half_line_rsum n (fun r t => rsum n (fun s => f p q r s t))). intros r Hr.
  apply (half_line_rsum n (fun s t => f p q r s t)). intros s Hs. apply H; assumption.
Qed.
Lemma Re_scal (z : C) k : Re (z * RtoC k)%C = Re z * k.
Proof. destruct z. cbn. ring. Qed.
Lemma Im_scal (z : C) k : Im (z * RtoC k)%C = Im z * k.
Proof. destruct z. cbn. ring. Qed.
Lemma Re_self l (k : nat -> nat -> nat -> nat -> R) x : Re (self_energy l (fun p q r s => RtoC (k p q r s)) x) =
  rsum l (fun p => rsum l (fun q => rsum l (fun r => rsum l (fun s => Re (x p r * Cconj (x s q))%C * k p q r s)))).
Proof.
  unfold self_energy. rewrite Re_csum. apply rsum_ext; intros p _. rewrite Re_csum. apply rsum_ext; intros q _. rewrite Re_csum. apply rsum_ext; intros r _. rewrite Re_csum. apply rsum_ext; intros s _. apply Re_scal.
Qed.
Lemma Im_self l (k : nat -> nat -> nat -> nat -> R) x : Im (self_energy l (fun p q r s => RtoC (k p q r s)) x) =
  rsum l (fun p => rsum l (fun q => rsum l (fun r => rsum l (fun s => Im (x p r * Cconj (x s q))%C * k p q r s)))).
Proof.
  unfold self_energy. rewrite Im_csum. apply rsum_ext; intros p _. rewrite Im_csum. apply rsum_ext; intros q _. rewrite Im_csum. apply rsum_ext; intros r _. rewrite Im_csum. apply rsum_ext; intros s _. apply Im_scal.
Qed.
(** A mixture of positive interactions *)
Lemma mixture_positive l (k : R -> nat -> nat -> nat -> nat -> R) v :
  (forall t, 0 < t -> positive_interaction l (fun p q r s => RtoC (k t p q r s))) ->
  (forall p q r s, (p < l)%nat -> (q < l)%nat -> (r < l)%nat -> (s < l)%nat -> half_line (fun t => k t p q r s) (v p q r s)) ->
  positive_interaction l (fun p q r s => RtoC (v p q r s)).
Proof.
  intros P H x. split.
  - rewrite Im_self. eapply half_line_null; [|apply (half_line_rsum4 l (fun p q r s t => Im (x p r * Cconj (x s q))%C * k t p q r s)); intros; apply half_line_scal, H; assumption].
    intros t Ht. cbv beta. rewrite <- Im_self. apply (P t Ht x).
  - rewrite Re_self. eapply half_line_nonneg; [|apply (half_line_rsum4 l (fun p q r s t => Re (x p r * Cconj (x s q))%C * k t p q r s)); intros; apply half_line_scal, H; assumption].
    intros t Ht. cbv beta. rewrite <- Re_self. apply (P t Ht x).
Qed.

(** ** The Coulomb element as an integral over wave numbers *)
Local Notation oc := (ocoef 1 1).
Definition density (n : nat) (m : Z) (n' : nat) (m' : Z) (x : R) : R :=
  rsum (n + 1) (fun j => rsum (n' + 1) (fun j' => oc n m j * oc n' m' j' *
    ((-1) ^ (j + j' + mplus m + mminus m') * hp (j + j' + mplus m' + mminus m) (j + j' + mplus m + mminus m') x))).
Definition same (a b : Z) : R := if Z.eq_dec a b then 1 else 0.
Lemma rsum_split4 n0 n1 n2 n3 (A B : nat -> nat -> R) :
  rsum n0 (fun j0 => rsum n1 (fun j1 => rsum n2 (fun j2 => rsum n3 (fun j3 => A j0 j3 * B j2 j1)))) = rsum n0 (fun j0 => rsum n3 (fun j3 => A j0 j3)) * rsum n2 (fun j2 => rsum n1 (fun j1 => B j2 j1)).
Proof.
  rewrite (rsum_swap n2 n1 (fun j2 j1 => B j2 j1)). rewrite Rmult_comm, <- rsum_scal. apply rsum_ext; intros j0 _.
  rewrite Rmult_comm, <- rsum_scal. apply rsum_ext; intros j1 _. rewrite <- rsum_scal. apply rsum_ext; intros j2 _. rewrite Rmult_comm, <- rsum_scal. apply rsum_ext; intros j3 _. ring.
Qed.
Lemma coulomb_sum n0 m0 n1 m1 n2 m2 n3 m3 : coulomb_ho n0 m0 n1 m1 n3 m3 n2 m2 =
  rsum (n0 + 1) (fun j0 => rsum (n1 + 1) (fun j1 => rsum (n2 + 1) (fun j2 => rsum (n3 + 1) (fun j3 => oc n0 m0 j0 * oc n1 m1 j1 * oc n2 m2 j2 * oc n3 m3 j3 *
    M (j0 + j3 + mplus m0 + mminus m3) (j1 + j2 + mplus m1 + mminus m2) (j1 + j2 + mplus m2 + mminus m1) (j0 + j3 + mplus m3 + mminus m0))))).
Proof.
  set (c := fun j0 j1 j2 j3 => oc n0 m0 j0 * oc n1 m1 j1 * oc n2 m2 j2 * oc n3 m3 j3).
  pose proof (interaction_com _ _ _ _ _ (pair_integral 1 1 Rlt_0_1 Rlt_0_1 n0 m0 n1 m1 n2 m2 n3 m3)) as A.
  assert (B : com_integral (pairs (psi 1 1 n0 m0) (psi 1 1 n1 m1) (psi 1 1 n3 m3) (psi 1 1 n2 m2)) (RtoC (rsum (n0 + 1) (fun j0 => rsum (n1 + 1) (fun j1 => rsum (n2 + 1) (fun j2 => rsum (n3 + 1) (fun j3 => c j0 j1 j2 j3 *
    M (j0 + j3 + mplus m0 + mminus m3) (j1 + j2 + mplus m1 + mminus m2) (j1 + j2 + mplus m2 + mminus m1) (j0 + j3 + mplus m3 + mminus m0)))))))).
  { eapply com_ext; [intros X x; symmetry; apply pair_expand|].
    apply (com_sum4 (n0 + 1) (n1 + 1) (n2 + 1) (n3 + 1)
        (fun j0 j1 j2 j3 X x => (RtoC (c j0 j1 j2 j3) * kmono 1 1 (j0 + j3 + mplus m0 + mminus m3) (j1 + j2 + mplus m1 + mminus m2) (j1 + j2 + mplus m2 + mminus m1) (j0 + j3 + mplus m3 + mminus m0) (X + x / RtoC 2) (X - x / RtoC 2))%C)
        (fun j0 j1 j2 j3 => c j0 j1 j2 j3 * M (j0 + j3 + mplus m0 + mminus m3) (j1 + j2 + mplus m1 + mminus m2) (j1 + j2 + mplus m2 + mminus m1) (j0 + j3 + mplus m3 + mminus m0))).
    intros j0 j1 j2 j3 _ _ _ _. rewrite RtoC_mult. apply com_scal. apply kmono_integral; apply Rlt_0_1. }
  pose proof (com_unique _ _ _ A B) as E. apply RtoC_inj in E. rewrite a_one, Rmult_1_l in E. exact E.
Qed.
Lemma coulomb_fourier n0 m0 n1 m1 n2 m2 n3 m3 :
  half_line (fun x => plane_constant * same (m0 - m3) (m2 - m1) * (density n0 m0 n3 m3 x * density n2 m2 n1 m1 x) * w2 x) (coulomb_ho n0 m0 n1 m1 n3 m3 n2 m2).
Proof.
  rewrite coulomb_sum.
  set (A x j0 j3 := oc n0 m0 j0 * oc n3 m3 j3 * ((-1) ^ (j0 + j3 + mplus m0 + mminus m3) * hp (j0 + j3 + mplus m3 + mminus m0) (j0 + j3 + mplus m0 + mminus m3) x)).
  set (B x j2 j1 := oc n2 m2 j2 * oc n1 m1 j1 * ((-1) ^ (j2 + j1 + mplus m2 + mminus m1) * hp (j2 + j1 + mplus m1 + mminus m2) (j2 + j1 + mplus m2 + mminus m1) x)).
  apply (half_line_ext (fun x => rsum (n0 + 1) (fun j0 => rsum (n1 + 1) (fun j1 => rsum (n2 + 1) (fun j2 => rsum (n3 + 1) (fun j3 =>
    plane_constant * same (m0 - m3) (m2 - m1) * (A x j0 j3 * B x j2 j1) * w2 x)))))).
  { intros x _. change (density n0 m0 n3 m3 x) with (rsum (n0 + 1) (fun j0 => rsum (n3 + 1) (fun j3 => A x j0 j3))). change (density n2 m2 n1 m1 x) with (rsum (n2 + 1) (fun j2 => rsum (n1 + 1) (fun j1 => B x j2 j1))).
    rewrite <- rsum_split4. set (k := plane_constant * same (m0 - m3) (m2 - m1)).
    transitivity (k * w2 x * rsum (n0 + 1) (fun j0 => rsum (n1 + 1) (fun j1 => rsum (n2 + 1) (fun j2 => rsum (n3 + 1) (fun j3 => A x j0 j3 * B x j2 j1))))); [|ring].
    rewrite <- rsum_scal. apply rsum_ext; intros j0 _. rewrite <- rsum_scal. apply rsum_ext; intros j1 _. rewrite <- rsum_scal. apply rsum_ext; intros j2 _. rewrite <- rsum_scal. apply rsum_ext; intros j3 _. ring. }
  set (k := plane_constant * same (m0 - m3) (m2 - m1)).
  apply (half_line_rsum (n0 + 1) (fun j0 x => rsum (n1 + 1) (fun j1 => rsum (n2 + 1) (fun j2 => rsum (n3 + 1) (fun j3 => k * (A x j0 j3 * B x j2 j1) * w2 x))))). intros j0 _.
  apply (half_line_rsum (n1 + 1) (fun j1 x => rsum (n2 + 1) (fun j2 => rsum (n3 + 1) (fun j3 => k * (A x j0 j3 * B x j2 j1) * w2 x)))). intros j1 _.
  apply (half_line_rsum (n2 + 1) (fun j2 x => rsum (n3 + 1) (fun j3 => k * (A x j0 j3 * B x j2 j1) * w2 x))). intros j2 _.
  apply (half_line_rsum (n3 + 1) (fun j3 x => k * (A x j0 j3 * B x j2 j1) * w2 x)). intros j3 _.
  rewrite M_fourier. set (g0 := (j0 + j3 + mplus m0 + mminus m3)%nat). set (g1 := (j1 + j2 + mplus m1 + mminus m2)%nat). set (g2 := (j1 + j2 + mplus m2 + mminus m1)%nat). set (g3 := (j0 + j3 + mplus m3 + mminus m0)%nat).
  pose proof (pair_line g3 g0 g2 g1) as I. set (v := int2 _) in I.
  destruct (m_split m0) as [T0 _], (m_split m1) as [T1 _], (m_split m2) as [T2 _], (m_split m3) as [T3 _].
  apply (half_line_val _ (k * (oc n0 m0 j0 * oc n1 m1 j1 * oc n2 m2 j2 * oc n3 m3 j3) * (-1) ^ (g0 + g2) * v)).
  - eapply half_line_ext; [|apply (half_line_scal (k * (oc n0 m0 j0 * oc n1 m1 j1 * oc n2 m2 j2 * oc n3 m3 j3) * (-1) ^ (g0 + g2))), I].
    intros x _. cbv beta. unfold A, B. fold g0 g3. replace (j2 + j1 + mplus m2 + mminus m1)%nat with g2 by (unfold g2; lia). replace (j2 + j1 + mplus m1 + mminus m2)%nat with g1 by (unfold g1; lia).
    rewrite (hp_sym g1 g2), pow_add. ring.
  - unfold k, same. destruct (Z.eq_dec _ _) as [E|E].
    + rewrite fourier_on by (unfold g0, g1, g2, g3; lia). unfold v. ring.
    + rewrite fourier_off by (unfold g0, g1, g2, g3; lia). ring.
Qed.

(** ** All elements of a basis *)
Lemma bounded_states l (m : nat -> Z) : exists B : nat, forall p, (p < l)%nat -> (Z.abs_nat (m p) <= B)%nat.
Proof.
  induction l as [|l (B & H)]; [exists O; lia|]. exists (B + Z.abs_nat (m l))%nat. intros p Hp. destruct (Nat.eq_dec p l) as [->|N]; [lia|]. specialize (H p ltac:(lia)). lia.
Qed.
Lemma same_sum N a b : (Z.abs_nat a <= N)%nat ->
  rsum (2 * N + 1) (fun e => same a (Z.of_nat e - Z.of_nat N) * same b (Z.of_nat e - Z.of_nat N)) = same a b.
Proof.
  intros H. rewrite (rsum_pick _ (Z.to_nat (a + Z.of_nat N))).
  - unfold same. replace (Z.of_nat (Z.to_nat (a + Z.of_nat N)) - Z.of_nat N)%Z with a by lia. destruct (Z.eq_dec a a) as [_|F]; [|contradiction].
    destruct (Z.eq_dec b a), (Z.eq_dec a b); try congruence; ring.
  - lia.
  - intros e He Ne. unfold same at 1. destruct (Z.eq_dec _ _) as [E|E]; [exfalso; apply Ne; lia | ring].
Qed.
Lemma coulomb_positive l (n : nat -> nat) (m : nat -> Z) : positive_interaction l (fun p q r s => RtoC (coulomb_ho (n p) (m p) (n q) (m q) (n r) (m r) (n s) (m s))).
Proof.
  destruct (bounded_states l m) as (B & HB).
  set (D p r x := density (n p) (m p) (n r) (m r) x).
  apply (mixture_positive l (fun x p q r s => plane_constant * same (m p - m r) (m s - m q) * (D p r x * D s q x) * w2 x)).
  2:{ intros p q r s _ _ _ _. apply coulomb_fourier. }
  intros x _.
  apply (gram_positive l (2 * (2 * B) + 1) (fun p r e => RtoC (sqrt (plane_constant * w2 x) * same (m p - m r) (Z.of_nat e - Z.of_nat (2 * B)) * D p r x))).
  intros p q r s Hp Hq Hr Hs. pose proof (HB p Hp). pose proof (HB r Hr).
  transitivity (RtoC (rsum (2 * (2 * B) + 1) (fun e => plane_constant * w2 x * (D p r x * D s q x) * (same (m p - m r) (Z.of_nat e - Z.of_nat (2 * B)) * same (m s - m q) (Z.of_nat e - Z.of_nat (2 * B)))))).
  - f_equal. rewrite rsum_scal, same_sum by lia. ring.
  - rewrite <- csum_rsum. apply csum_ext. intros e _. rewrite conj_R, <- RtoC_mult. f_equal.
    assert (Q : sqrt (plane_constant * w2 x) * sqrt (plane_constant * w2 x) = plane_constant * w2 x).
    { apply sqrt_sqrt. left. apply Rmult_lt_0_compat; [apply plane_constant_pos | apply w2_pos]. }
    set (k := sqrt _) in *. rewrite <- Q. ring.
Qed.
Lemma positive_scal l c u : 0 <= c -> positive_interaction l u -> positive_interaction l (fun p q r s => (RtoC c * u p q r s)%C).
Proof.
  intros Hc P x. replace (self_energy l (fun p q r s => (RtoC c * u p q r s)%C) x) with (RtoC c * self_energy l u x)%C; [apply GridProofs.nonneg_scal; [exact Hc | apply P]|].
  unfold self_energy. rewrite csum_scal. apply csum_ext; intros p _. rewrite csum_scal. apply csum_ext; intros q _. rewrite csum_scal. apply csum_ext; intros r _. rewrite csum_scal. apply csum_ext; intros s _. cx. ring.
Qed.
Lemma plane_positive l N L mass larmor scale V state phi (b : basis CC) : plane_basis l N L mass larmor scale V state phi b -> 0 <= scale ->
  exists u, b_arr b F_u = Some u /\ shape u = [l; l; l; l] /\ positive_interaction l (ten u).
Proof.
  intros B Hs. destruct (pb_arrays _ _ _ _ _ _ _ _ _ _ B) as (h & s' & u & d & spf & _ & _ & Eu & _ & _ & _ & _ & Su & _ & _ & _ & _ & _ & _ & _ & Ht & _).
  exists u. split; [exact Eu|]. split; [exact Su|].
  pose proof (positive_scal l scale _ Hs (coulomb_positive l (fun p => Z.to_nat (fst (state p))) (fun p => snd (state p)))) as P.
  refine (positive_interaction_ext l _ _ _ P).
  intros p q r s Hp Hq Hr Hs'. cbv beta. rewrite (Ht half_gamma p q r s half_gamma_ok Hp Hq Hr Hs'), <- (formula half_gamma _ _ _ _ _ _ _ _ half_gamma_ok), RtoC_mult. reflexivity.
Qed.

(** ** The constructors *)
Lemma holds_positive npm spin anti l N L mass w nm he (b : basis CC) : holds npm spin anti l N L mass w nm he b ->
  exists u, b_arr b F_u = Some u /\ shape u = [l; l; l; l] /\ positive_interaction l (ten u).
Proof.
  intros H. destruct (ho_u _ _ _ _ _ _ _ _ _ _ _ H) as (u & Eu & Su & Gu). exists u. split; [exact Eu|]. split; [exact Su|].
  pose proof (positive_scal l (sqrt w) _ (sqrt_pos w) (coulomb_positive l (fun p => qn (nm p)) (fun p => qm (nm p)))) as P.
  refine (positive_interaction_ext l _ _ _ P). intros p q r s Hp Hq Hr Hs. cbv beta. unfold ten. rewrite (Gu p q r s Hp Hq Hr Hs), RtoC_mult. reflexivity.
Qed.
Lemma oscillator_positive npm spin anti l L N omega mass e (files : fs) b files' :
  (forall d n f, files d n = Some f -> f = image n) -> oscillator npm spin anti l L N omega mass e files = (Ok b, files') ->
  exists u, b_arr b F_u = Some u /\ shape u = [l; l; l; l] /\ positive_interaction l (ten u).
Proof. intros Hf E. eapply holds_positive, oscillator_holds; eassumption. Qed.
Lemma double_well_positive npm spin anti l L N omega mass e barrier axis (files : fs) b files' :
  (forall d n f, files d n = Some f -> f = image n) -> double_well npm spin anti l L N omega mass e barrier axis files = (Ok b, files') ->
  exists u, b_arr b F_u = Some u /\ shape u = [l; l; l; l] /\ positive_interaction l (ten u).
Proof. intros Hf E. eapply holds_positive, double_well_holds; eassumption. Qed.
Lemma field_positive npm spin anti l L N omega_0 mass omega_c b :
  field_oscillator npm spin anti l L N omega_0 mass omega_c = (Ok tt, b) ->
  exists u, b_arr b F_u = Some u /\ shape u = [l; l; l; l] /\ positive_interaction l (ten u).
Proof.
  intros E. destruct (field_states l omega_0 omega_c) as [rows|x] eqn:F.
  - eapply holds_positive, field_holds; eassumption.
  - apply (field_raises npm spin anti l L N omega_0 mass omega_c x) in F. rewrite E in F. discriminate F.
Qed.

(** ** Spin *)
Lemma doubled_positive l u : positive_interaction l u -> positive_interaction (2 * l) (dbl2 (K := CC) u).
Proof.
  intros P x. specialize (P (fun p r => (x (2 * p)%nat (2 * r)%nat + x (2 * p + 1)%nat (2 * r + 1)%nat)%C)).
  match goal with |- nonneg ?w => match type of P with nonneg ?w' => replace w with w' end end; [exact P|].
  unfold self_energy. rewrite (sumn_double CC). apply csum_ext; intros p _. rewrite !(sumn_double CC), <- (sumn_add CC). apply csum_ext; intros q _.
  rewrite !(sumn_double CC), <- !(sumn_add CC). apply csum_ext; intros r _. rewrite !(sumn_double CC), <- !(sumn_add CC). apply csum_ext; intros s _.
  unfold dbl2, same_parity. rewrite ?(even_2k), ?(even_2k1), ?(div_2k), ?(div_2k1). cbn [Bool.eqb andb]. change (@s0 CC) with (RtoC 0). change (@sadd CC) with Cplus. rewrite !conj_add. cx. ring.
Qed.
Lemma general_positive (ab : option (list CC * list CC)) (b : basis CC) l (s u : arr CC) :
  (b_cls b = SincDVR -> ab = None) ->
  let va := match ab with Some p => fst p | None => default_a CC end in
  let vb := match ab with Some p => snd p | None => default_b CC end in
  orthonormal_pair va vb -> ready b l -> b_spin b = false -> b_arr b F_s = Some s -> b_arr b F_u = Some u -> positive_interaction l (ten u) ->
  exists b' u', change_to_general ab false b = (Ok true, b') /\ b_arr b' F_u = Some u' /\ shape u' = [2 * l; 2 * l; 2 * l; 2 * l]%nat /\ positive_interaction (2 * l) (ten u').
Proof.
  intros Hc va vb Hab Hr Hs Es Eu P. destruct (doubling_formula CC ab false b l s Hc Hab Hr Hs Es) as (b' & E & _ & _ & _ & _ & _ & _ & D & _).
  unfold doubled2 in D. rewrite Eu in D. destruct (b_arr b' F_u) as [u'|] eqn:Eu'; [|contradiction]. destruct D as [Su Gu]. exists b', u'. split; [exact E|]. split; [exact Eu'|]. split; [exact Su|].
  refine (positive_interaction_ext (2 * l) _ _ _ (doubled_positive l _ P)). intros p q r t Hp Hq Hr' Ht. symmetry. exact (Gu p q r t Hp Hq Hr' Ht).
Qed.
