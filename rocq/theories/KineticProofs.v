(** The kinetic energy of the sinc-DVR basis sets. *)
From Coq Require Import List Arith ZArith Reals Lra Lia Bool.
From Coquelicot Require Import Coquelicot.
From Verif Require Import Scalar ScalarC Py Numpy BasisSet Spec OneDim OneDimSpec OneDimProofs DotProofs GridSpec GridProofs SincDvr SincSpec SincProofs.
From Verif Require Import AngularProofs PositiveKernel PositiveForms KineticSpec.
Import ListNotations.
Open Scope R_scope.

Lemma int_rsum n (f : nat -> R -> R) u a b : (forall i, (i < n)%nat -> is_RInt (f i) a b (u i)) -> is_RInt (fun t => rsum n (fun i => f i t)) a b (rsum n u).
Proof.
  induction n as [|n IH]; intros H; cbn [rsum]; [apply int_zero|].
  apply (is_RInt_plus (V := R_NormedModule) (fun t => rsum n (fun i => f i t)) (f n)); [apply IH; intros; apply H; lia | apply H; lia].
Qed.
Lemma int_scal c (f : R -> R) a b u : is_RInt f a b u -> is_RInt (fun t => c * f t) a b (c * u).
Proof. exact (is_RInt_scal (V := R_NormedModule) f a b c u). Qed.

Section Spectrum.
  Variables (n : nat) (c : nat -> R).
  (** The square of the Fourier sum *)
  Definition power (t : R) : R := rsum n (fun i => c i * cos (PI * INR i * t)) ^ 2 + rsum n (fun i => c i * sin (PI * INR i * t)) ^ 2.
  Lemma power_nonneg t : 0 <= power t.
  Proof. apply Rplus_le_le_0_compat; apply pow2_ge_0. Qed.
  Lemma power_form t : power t = qform n (fun i j => cos (PI * IZR (diff_grid i j) * t)) c.
  Proof.
    unfold power. rewrite <- !(qform_rank1 n). unfold qform. rewrite <- rsum_add. apply rsum_ext. intros i _. rewrite <- rsum_add. apply rsum_ext. intros j _.
    unfold diff_grid. rewrite minus_IZR, <- !INR_IZR_INZ. replace (PI * (INR i - INR j) * t) with (PI * INR i * t - PI * INR j * t) by ring. rewrite cos_minus. ring.
  Qed.
  Lemma cos_int_RInt y : is_RInt (fun t => cos (PI * y * t)) 0 1 (cardinal y).
  Proof. apply (RInt_correct (V := R_CompleteNormedModule)). apply (ex_RInt_continuous (V := R_CompleteNormedModule)). intros t _. apply (ex_derive_continuous (fun t => cos (PI * y * t))). auto_derive. trivial. Qed.
  Lemma cos2_int_RInt y : is_RInt (fun t => t ^ 2 * cos (PI * y * t)) 0 1 (- card2 y / PI ^ 2).
  Proof.
    pose proof PI_RGT_0 as Hpi. assert (H : is_RInt (fun t => - (PI * t) ^ 2 * cos (PI * y * t)) 0 1 (card2 y)).
    { apply (RInt_correct (V := R_CompleteNormedModule)). apply (ex_RInt_continuous (V := R_CompleteNormedModule)). intros t _. apply (ex_derive_continuous (fun t => - (PI * t) ^ 2 * cos (PI * y * t))). auto_derive. trivial. }
    apply (int_scal (- / PI ^ 2)) in H. eapply is_RInt_val; [eapply is_RInt_ext; [|exact H]|].
    - intros t _. cbv beta. rr. field. lra.
    - unfold Rdiv. ring.
  Qed.
  Lemma int_qform (f : nat -> nat -> R -> R) (k : nat -> nat -> R) : (forall i j, is_RInt (f i j) 0 1 (k i j)) -> is_RInt (fun t => qform n (fun i j => f i j t) c) 0 1 (qform n k c).
  Proof.
    intros H. unfold qform. apply (int_rsum n (fun i t => rsum n (fun j => c i * c j * f i j t))). intros i _. apply (int_rsum n (fun j t => c i * c j * f i j t)). intros j _.
    apply int_scal, H.
  Qed.
  Lemma diff_zero i j : diff_grid i j = 0%Z <-> i = j.
  Proof. unfold diff_grid. lia. Qed.
  Lemma norm_int : is_RInt power 0 1 (rsum n (fun i => c i ^ 2)).
  Proof.
    eapply is_RInt_val; [eapply is_RInt_ext; [|apply (int_qform (fun i j t => cos (PI * IZR (diff_grid i j) * t)) (fun i j => cardinal (IZR (diff_grid i j)))); intros; apply cos_int_RInt]|].
    - intros t _. cbv beta. symmetry. apply power_form.
    - unfold qform. apply rsum_ext. intros i Hi. rewrite (rsum_pick n i); [|exact Hi|].
      + rewrite cardinal_value, sinc_int. destruct (Z.eq_dec (diff_grid i i) 0) as [_|N]; [ring|]. exfalso. apply N, diff_zero. reflexivity.
      + intros k _ Nk. rewrite cardinal_value, sinc_int. destruct (Z.eq_dec (diff_grid i k) 0) as [E|_]; [|ring]. apply diff_zero in E. congruence.
  Qed.
  Lemma kinetic_int : is_RInt (fun t => t ^ 2 * power t) 0 1 (qform n (fun i j => - card2 (IZR (diff_grid i j)) / PI ^ 2) c).
  Proof.
    eapply is_RInt_ext; [|apply (int_qform (fun i j t => t ^ 2 * cos (PI * IZR (diff_grid i j) * t))); intros; apply cos2_int_RInt].
    intros t _. cbv beta. rewrite power_form. unfold qform. rr. rewrite <- rsum_scal. apply rsum_ext. intros i _. rewrite <- rsum_scal. apply rsum_ext. intros j _. ring.
  Qed.
  Lemma kinetic_bounds : 0 <= qform n (fun i j => - card2 (IZR (diff_grid i j)) / PI ^ 2) c <= rsum n (fun i => c i ^ 2).
  Proof.
    split.
    - apply (is_RInt_le (fun _ => 0) (fun t => t ^ 2 * power t) 0 1); [lra | apply int_zero | apply kinetic_int|]. intros t _. apply Rmult_le_pos; [apply pow2_ge_0 | apply power_nonneg].
    - apply (is_RInt_le (fun t => t ^ 2 * power t) power 0 1); [lra | apply kinetic_int | apply norm_int|]. intros t Ht.
      rewrite <- (Rmult_1_l (power t)) at 2. apply Rmult_le_compat_r; [apply power_nonneg|]. replace 1 with (1 ^ 2) by ring. apply pow_incr. lra.
  Qed.
End Spectrum.

Section Matrix.
  Variables (l : nat) (L : R) (V : R -> R).
  Hypothesis HL : 0 < L.
  Hypothesis Hl : (2 <= l)%nat.
  Notation dx := (linspace L l 1 - linspace L l 0).
  Notation h := (dvr_h l L V).
  Lemma dx_pos : 0 < dx.
  Proof. rewrite linspace_spacing. unfold spacing. apply Rdiv_lt_0_compat; [lra|]. apply lt_0_INR. lia. Qed.
  Lemma h_split i j : h i j = PI ^ 2 / (2 * dx ^ 2) * (- card2 (IZR (diff_grid i j)) / PI ^ 2) + (if (i =? j)%nat then V (linspace L l i) else 0).
  Proof.
    pose proof dx_pos as D. pose proof PI_RGT_0 as Hpi. unfold dvr_h. rewrite card2_int. destruct (Nat.eqb_spec i j) as [E|E].
    - destruct (Z.eq_dec (diff_grid i j) 0) as [_|N]; [field; lra|]. exfalso. apply N, diff_zero, E.
    - destruct (Z.eq_dec (diff_grid i j) 0) as [Z|N]; [apply diff_zero in Z; contradiction|]. assert (IZR (diff_grid i j) <> 0) by (intros Q; apply eq_IZR in Q; contradiction).
      field. repeat split; lra.
  Qed.
  Lemma real_form c : qform l (fun i j => h i j) c = PI ^ 2 / (2 * dx ^ 2) * qform l (fun i j => - card2 (IZR (diff_grid i j)) / PI ^ 2) c + rsum l (fun i => V (linspace L l i) * c i ^ 2).
  Proof.
    unfold qform. rewrite <- rsum_scal, <- rsum_add. apply rsum_ext. intros i Hi. rewrite <- rsum_scal.
    rewrite (rsum_ext l _ (fun j => PI ^ 2 / (2 * dx ^ 2) * (c i * c j * (- card2 (IZR (diff_grid i j)) / PI ^ 2)) + c i * c j * (if (i =? j)%nat then V (linspace L l i) else 0))).
    - rewrite rsum_add. f_equal. rewrite (rsum_pick l i); [|exact Hi|].
      + rewrite Nat.eqb_refl. ring.
      + intros k _ Nk. rewrite (proj2 (Nat.eqb_neq i k)) by congruence. ring.
    - intros j _. rewrite h_split. ring.
  Qed.
  Lemma real_bounds m M c : (forall i, (i < l)%nat -> m <= V (linspace L l i) <= M) ->
    m * rsum l (fun i => c i ^ 2) <= qform l (fun i j => h i j) c <= (M + PI ^ 2 / (2 * dx ^ 2)) * rsum l (fun i => c i ^ 2).
  Proof.
    intros H. pose proof dx_pos as D. rewrite real_form. pose proof (kinetic_bounds l c) as [K0 K1]. set (T := qform l _ c) in *. set (q := rsum l (fun i => c i ^ 2)) in *.
    assert (A : 0 < PI ^ 2 / (2 * dx ^ 2)). { apply Rdiv_lt_0_compat; [apply pow_lt, PI_RGT_0|]. assert (0 < dx ^ 2) by (apply pow_lt, D). lra. }
    set (A0 := PI ^ 2 / (2 * dx ^ 2)) in *.
    assert (P : m * q <= rsum l (fun i => V (linspace L l i) * c i ^ 2) <= M * q).
    { unfold q. rewrite <- !rsum_scal. split; apply rsum_le; intros i Hi; apply Rmult_le_compat_r; try apply pow2_ge_0; apply H, Hi. }
    assert (0 <= A0 * T <= A0 * q). { split; [apply Rmult_le_pos; lra | apply Rmult_le_compat_l; lra]. }
    lra.
  Qed.
  Lemma h_sym i j : h i j = h j i.
  Proof.
    rewrite !h_split. f_equal.
    - rewrite !card2_int. replace (diff_grid j i) with (- diff_grid i j)%Z by (unfold diff_grid; lia). destruct (Z.eq_dec (diff_grid i j) 0) as [Z|N], (Z.eq_dec (- diff_grid i j) 0) as [Z'|N']; try lia; [reflexivity|].
      rewrite opp_IZR, <- !cos_int, opp_IZR. replace (PI * - IZR (diff_grid i j)) with (- (PI * IZR (diff_grid i j))) by ring. rewrite cos_neg. replace ((- IZR (diff_grid i j)) ^ 2) with (IZR (diff_grid i j) ^ 2) by ring. reflexivity.
    - rewrite (Nat.eqb_sym j i). destruct (Nat.eqb_spec i j) as [->|]; reflexivity.
  Qed.
  Lemma cmod_sq (z : C) : Cmod z ^ 2 = Re z ^ 2 + Im z ^ 2.
  Proof. destruct z as [x y]. unfold Cmod. cbn [fst snd Re Im]. change (sqrt (x ^ 2 + y ^ 2) ^ 2) with (sqrt (x ^ 2 + y ^ 2) * (sqrt (x ^ 2 + y ^ 2) * 1)). rewrite Rmult_1_r. apply sqrt_sqrt. pose proof (pow2_ge_0 x). pose proof (pow2_ge_0 y). lra. Qed.
  Lemma matrix_between m M : (forall i, (i < l)%nat -> m <= V (linspace L l i) <= M) -> form_between l (fun i j => RtoC (h i j)) m (M + PI ^ 2 / (2 * dx ^ 2)).
  Proof.
    intros H x. unfold expectation, sqnorm. split.
    - rewrite Im_csum. rewrite (rsum_ext l _ (fun i => rsum l (fun j => (Re (x i) * Im (x j) - Im (x i) * Re (x j)) * h i j))).
      2: { intros i _. rewrite Im_csum. apply rsum_ext. intros j _. destruct (x i), (x j). cbn. ring. }
      set (X := rsum l _). assert (E : X = -1 * X).
      { unfold X at 2. rewrite rsum_swap, <- rsum_scal. unfold X. apply rsum_ext. intros i _. rewrite <- rsum_scal. apply rsum_ext. intros j _. rewrite (h_sym j i). ring. }
      lra.
    - rewrite Re_csum. rewrite (rsum_ext l (fun k => Re _) (fun i => rsum l (fun j => Re (x i) * Re (x j) * h i j) + rsum l (fun j => Im (x i) * Im (x j) * h i j))).
      2: { intros i _. rewrite Re_csum, <- rsum_add. apply rsum_ext. intros j _. destruct (x i), (x j). cbn. ring. }
      rewrite rsum_add. rewrite (rsum_ext l (fun i => Cmod (x i) ^ 2) (fun i => Re (x i) ^ 2 + Im (x i) ^ 2)) by (intros; apply cmod_sq). rewrite rsum_add.
      pose proof (real_bounds m M (fun i => Re (x i)) H) as B1. pose proof (real_bounds m M (fun i => Im (x i)) H) as B2. unfold qform in B1, B2. cbv beta in B1, B2. lra.
  Qed.
End Matrix.

(** ** Eigenvalues *)
Lemma between_eigenvalue l h lo hi E : form_between l h lo hi -> eigenvalue l h E -> Im E = 0 /\ lo <= Re E <= hi.
Proof.
  intros H (x & (i0 & Hi0 & Nx) & Hx). destruct (H x) as [HI HR].
  assert (Q : expectation l h x = (E * RtoC (sqnorm l x))%C).
  { unfold expectation, sqnorm. rewrite <- csum_rsum, csum_scal. apply csum_ext; intros i Hi.
    transitivity (Cconj (x i) * sumn (K := CC) l (fun j => (h i j * x j)%C))%C; [rewrite csum_scal; apply csum_ext; intros j _; cx; ring|].
    rewrite (Hx i Hi), cmod_sq. destruct E, (x i). unfold Cconj, Cmult, RtoC. cbn. f_equal; ring. }
  assert (P : 0 < sqnorm l x).
  { unfold sqnorm. assert (G : 0 <= rsum l (fun i => Cmod (x i) ^ 2)) by (apply rsum_nonneg; intros; apply pow2_ge_0). destruct (Rle_lt_or_eq_dec _ _ G) as [|Z]; [assumption|]. exfalso. apply Nx, Cmod_eq_0.
    pose proof (rsum_null l (fun i => Cmod (x i) ^ 2) (fun k _ => pow2_ge_0 _) (eq_sym Z) i0 Hi0) as Z0. cbv beta in Z0. apply Rsqr_0_uniq. unfold Rsqr. cbn in Z0. lra. }
  rewrite Q in HI, HR. destruct E as [e f]. cbn in *. split.
  - apply Rmult_eq_reg_r with (sqnorm l x); lra.
  - split; apply Rmult_le_reg_r with (sqnorm l x); lra.
Qed.
Lemma dvr_between npm spin anti l L a alpha beta V repr b m M :
  odsincdvr npm spin anti l L a alpha beta V repr = (Ok tt, b) -> 0 < L -> (forall i, (i < l)%nat -> m <= V (point L l i) <= M) ->
  exists h, b_arr b F_h = Some h /\ shape h = [l; l] /\ form_between l (mat h) m (M + PI ^ 2 / (2 * spacing L l ^ 2)) /\
    forall E, eigenvalue l (mat h) E -> Im E = 0 /\ m <= Re E <= M + PI ^ 2 / (2 * spacing L l ^ 2).
Proof.
  intros Hb HL H. destruct (dvr_result _ _ _ _ _ _ _ _ _ _ _ Hb) as ([_ _ _ _ _ _ A _] & _ & Hl). rewrite A. eexists. split; [reflexivity|]. split; [reflexivity|].
  assert (B : form_between l (mat (arr2 l l Complex128 (fun i j => RtoC (dvr_h l L V i j)))) m (M + PI ^ 2 / (2 * spacing L l ^ 2))).
  { rewrite <- linspace_spacing. apply (matrix_between l L V HL Hl). intros i Hi. rewrite linspace_point. apply H, Hi. }
  split; [exact B|]. intros E HE. apply (between_eigenvalue l _ _ _ _ B HE).
Qed.
