(** The shielded Coulomb interaction between points of a line is positive definite. *)
From Coq Require Import List Arith ZArith Reals Lra Lia.
From Coquelicot Require Import Coquelicot.
From Verif Require Import Scalar ScalarC OneDim DotProofs GridSpec GridProofs Gauss Coulomb Moments PairTheorems PositiveSpec.
Open Scope R_scope.

Definition qform (n : nat) (k : nat -> nat -> R) (c : nat -> R) : R := rsum n (fun i => rsum n (fun j => c i * c j * k i j)).
Lemma qform_ext n k k' c : (forall i j, k i j = k' i j) -> qform n k c = qform n k' c.
Proof. intros H. unfold qform. apply rsum_ext. intros i _. apply rsum_ext. intros j _. rewrite H. reflexivity. Qed.
(** A rank-one form *)
Lemma qform_rank1 n (a c : nat -> R) : qform n (fun i j => a i * a j) c = (rsum n (fun i => c i * a i)) ^ 2.
Proof.
  unfold qform. transitivity (rsum n (fun i => c i * a i * rsum n (fun j => c j * a j))).
  - apply rsum_ext. intros i _. rewrite <- rsum_scal. apply rsum_ext. intros j _. ring.
  - rewrite (rsum_ext n _ (fun i => rsum n (fun j => c j * a j) * (c i * a i))) by (intros; ring). rewrite rsum_scal. ring.
Qed.
(** Sums of limits *)
Lemma series_rsum n (f : nat -> nat -> R) s : (forall i, (i < n)%nat -> is_series (f i) (s i)) -> is_series (fun m => rsum n (fun i => f i m)) (rsum n s).
Proof.
  induction n as [|n IH]; intros H; cbn [rsum].
  - change (is_lim_seq (sum_n (fun _ : nat => 0)) 0). apply (is_lim_seq_ext (fun _ => 0)); [|apply is_lim_seq_const]. intros m. rewrite sum_n_const. ring.
  - apply (is_series_plus (V := R_NormedModule) (fun m => rsum n (fun i => f i m)) (f n)); [apply IH; intros; apply H; lia | apply H; lia].
Qed.
Lemma series_nonneg (f : nat -> R) s : (forall n, 0 <= f n) -> is_series f s -> 0 <= s.
Proof.
  intros H S. apply (is_lim_seq_le (fun _ => 0) (sum_n f) 0 s); [|apply is_lim_seq_const | exact S].
  intros n. induction n as [|n IH]; [rewrite sum_O; apply H | rewrite sum_Sn; apply Rplus_le_le_0_compat; [exact IH | apply H]].
Qed.
Lemma half_line_rsum n (f : nat -> R -> R) u : (forall i, (i < n)%nat -> half_line (f i) (u i)) -> half_line (fun x => rsum n (fun i => f i x)) (rsum n u).
Proof. induction n as [|n IH]; intros H; cbn [rsum]; [apply half_line_zero|]. apply half_line_plus; [apply IH; intros; apply H; lia | apply H; lia]. Qed.

(** ** exp(x y) *)
Lemma exp_positive n (y c : nat -> R) : 0 <= qform n (fun i j => exp (y i * y j)) c.
Proof.
  apply (series_nonneg (fun m => / INR (fact m) * qform n (fun i j => y i ^ m * y j ^ m) c)).
  - intros m. rewrite (qform_rank1 n (fun i => y i ^ m)). apply Rmult_le_pos; [left; apply Rinv_0_lt_compat, INR_fact_lt_0 | apply pow2_ge_0].
  - unfold qform. apply is_series_ext with (fun m => rsum n (fun i => rsum n (fun j => c i * c j * ((y i * y j) ^ m * / INR (fact m))))).
    + intros m. rewrite <- rsum_scal. apply rsum_ext. intros i _. rewrite <- rsum_scal. apply rsum_ext. intros j _. rewrite Rpow_mult_distr. ring.
    + apply (series_rsum n (fun i m => rsum n (fun j => c i * c j * ((y i * y j) ^ m * / INR (fact m))))). intros i _.
      apply (series_rsum n (fun j m => c i * c j * ((y i * y j) ^ m * / INR (fact m)))). intros j _.
      apply (is_series_scal (V := R_NormedModule) (c i * c j)). pose proof (is_exp_Reals (y i * y j)) as E. unfold is_pseries in E.
      eapply is_series_ext; [|exact E]. intros m. cbn beta. rewrite pow_n_pow. reflexivity.
Qed.
(** ** Gaussians *)
Lemma gauss_positive n (y c : nat -> R) t : 0 <= qform n (fun i j => exp (- ((y i - y j) ^ 2 * t ^ 2))) c.
Proof.
  assert (Q : 0 <= sqrt 2) by apply sqrt_pos. assert (Q2 : sqrt 2 * sqrt 2 = 2) by (apply sqrt_sqrt; lra).
  pose proof (exp_positive n (fun i => sqrt 2 * t * y i) (fun i => c i * exp (- (y i ^ 2 * t ^ 2)))) as H.
  replace (qform n (fun i j => exp (- ((y i - y j) ^ 2 * t ^ 2))) c) with
    (qform n (fun i j => exp (sqrt 2 * t * y i * (sqrt 2 * t * y j))) (fun i => c i * exp (- (y i ^ 2 * t ^ 2)))); [exact H|].
  unfold qform. apply rsum_ext. intros i _. apply rsum_ext. intros j _.
  replace (- ((y i - y j) ^ 2 * t ^ 2)) with (- (y i ^ 2 * t ^ 2) + (- (y j ^ 2 * t ^ 2) + sqrt 2 * t * y i * (sqrt 2 * t * y j))).
  - rewrite !exp_plus. ring.
  - replace (sqrt 2 * t * y i * (sqrt 2 * t * y j)) with (sqrt 2 * sqrt 2 * (t * t * y i * y j)) by ring. rewrite Q2. ring.
Qed.
(** ** 1 / sqrt(d^2 + a^2) is a mixture of them *)
Lemma inverse_sqrt_mixture s : 0 < s -> half_line (fun t => exp (- (s * t ^ 2))) (sqrt PI / 2 * / sqrt s).
Proof.
  intros Hs. assert (Q : 0 < sqrt s) by (apply sqrt_lt_R0, Hs). assert (Q2 : sqrt s ^ 2 = s) by (cbn; rewrite Rmult_1_r; apply sqrt_sqrt; lra).
  apply (half_line_val _ (moment (sqrt s) 0)).
  - apply (half_line_ext (fun r => r ^ 0 * exp (- (sqrt s ^ 2 * r ^ 2)))); [|apply moment_ok, Q]. intros x _. rewrite Q2. cbn [pow]. ring.
  - unfold moment. cbn [gamma2 pow]. field. lra.
Qed.
Section Kernel.
  Variables (y : nat -> R) (alpha a : R).
  Hypothesis Halpha : 0 <= alpha.
  Hypothesis Ha : a <> 0.
  Notation v i j := (shielded_coulomb (y i) (y j) alpha a).
  Lemma shielded_positive n c : 0 <= qform n (fun i j => v i j) c.
  Proof.
    assert (A2 : 0 < a ^ 2) by (apply pow2_gt_0, Ha). assert (P : 0 < sqrt PI / 2) by (pose proof (sqrt_lt_R0 _ PI_RGT_0); lra).
    assert (H : half_line (fun t => alpha * (exp (- (a ^ 2 * t ^ 2)) * qform n (fun i j => exp (- ((y i - y j) ^ 2 * t ^ 2))) c)) (sqrt PI / 2 * qform n (fun i j => v i j) c)).
    { eapply half_line_ext with (f := fun t => rsum n (fun i => rsum n (fun j => alpha * c i * c j * exp (- (((y i - y j) ^ 2 + a ^ 2) * t ^ 2))))).
      - intros t _. cbv beta. unfold qform. rewrite <- !rsum_scal. apply rsum_ext. intros i _. rewrite <- !rsum_scal. apply rsum_ext. intros j _.
        replace (- (((y i - y j) ^ 2 + a ^ 2) * t ^ 2)) with (- (a ^ 2 * t ^ 2) + - ((y i - y j) ^ 2 * t ^ 2)) by ring. rewrite exp_plus. ring.
      - unfold qform. rewrite <- rsum_scal. apply (half_line_rsum n (fun i t => rsum n (fun j => alpha * c i * c j * exp (- (((y i - y j) ^ 2 + a ^ 2) * t ^ 2))))). intros i _.
        rewrite <- rsum_scal. apply (half_line_rsum n (fun j t => alpha * c i * c j * exp (- (((y i - y j) ^ 2 + a ^ 2) * t ^ 2)))). intros j _.
        apply (half_line_val _ (alpha * c i * c j * (sqrt PI / 2 * / sqrt ((y i - y j) ^ 2 + a ^ 2)))).
        + apply half_line_scal. apply inverse_sqrt_mixture. pose proof (pow2_ge_0 (y i - y j)). lra.
        + unfold shielded_coulomb, Rdiv. ring. }
    apply half_line_nonneg in H.
    - apply Rmult_le_reg_l with (sqrt PI / 2); [exact P|]. rewrite Rmult_0_r. exact H.
    - intros t _. apply Rmult_le_pos; [exact Halpha|]. apply Rmult_le_pos; [left; apply exp_pos | apply gauss_positive].
  Qed.
  Lemma shielded_sym i j : v i j = v j i.
  Proof. unfold shielded_coulomb. replace ((y i - y j) ^ 2) with ((y j - y i) ^ 2) by ring. reflexivity. Qed.
  Lemma shielded_matrix n : positive_matrix n (fun i j => RtoC (v i j)).
  Proof.
    intros z. split.
    - rewrite Im_csum. rewrite (rsum_ext n _ (fun i => rsum n (fun j => (Im (z i) * Re (z j) - Re (z i) * Im (z j)) * v i j))).
      2: { intros i _. rewrite Im_csum. apply rsum_ext. intros j _. destruct (z i), (z j). cbn. ring. }
      set (X := rsum n _). assert (E : X = - X).
      { unfold X at 2. rewrite rsum_swap. replace (- rsum n (fun j => rsum n (fun i => (Im (z i) * Re (z j) - Re (z i) * Im (z j)) * v i j))) with
          (-1 * rsum n (fun j => rsum n (fun i => (Im (z i) * Re (z j) - Re (z i) * Im (z j)) * v i j))) by ring.
        rewrite <- rsum_scal. unfold X. apply rsum_ext. intros i _. rewrite <- rsum_scal. apply rsum_ext. intros j _. rewrite (shielded_sym j i). ring. }
      lra.
    - rewrite Re_csum. rewrite (rsum_ext n _ (fun i => rsum n (fun j => Re (z i) * Re (z j) * v i j) + rsum n (fun j => Im (z i) * Im (z j) * v i j))).
      2: { intros i _. rewrite Re_csum, <- rsum_add. apply rsum_ext. intros j _. destruct (z i), (z j). cbn. ring. }
      rewrite rsum_add. apply Rplus_le_le_0_compat; [apply (shielded_positive n (fun i => Re (z i))) | apply (shielded_positive n (fun i => Im (z i)))].
  Qed.
End Kernel.
