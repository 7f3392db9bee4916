(** Rounding in the one-dimensional grids: points, kernel, energies, trapezoidal rule, integrals, densities. *)
From Coq Require Import List Arith ZArith Reals Permutation Lra Lia Bool.
From Flocq Require Import Core Relative Plus_error Mult_error.
From Coquelicot Require Import Coquelicot.
From Verif Require Import Scalar ScalarC Spec GridSpec DensitySpec OneDim FloatModel FloatSpec FloatProofs FloatCode.
From Verif Require OneDimProofs.
Import ListNotations.
Open Scope R_scope.

Local Notation U := unit_roundoff.
Local Notation T := underflow.
Local Instance prec_pos2 : Prec_gt_0 53 := eq_refl.

(** Positive numbers within a factor *)
Definition close (k : nat) (x y : R) : Prop := x <= y * grow k /\ y <= x * grow k.
Lemma close_sym k x y : close k x y -> close k y x.
Proof. intros (A & B). split; assumption. Qed.
Lemma close_mono j k x y : (j <= k)%nat -> 0 <= x -> 0 <= y -> close j x y -> close k x y.
Proof.
  intros H X Y (A & B). pose proof (grow_le j k H). split.
  - eapply Rle_trans; [exact A|]. apply Rmult_le_compat_l; assumption.
  - eapply Rle_trans; [exact B|]. apply Rmult_le_compat_l; assumption.
Qed.
Lemma close_trans j k x y z : close j x y -> close k y z -> close (j + k) x z.
Proof.
  intros (A & B) (A' & B'). unfold close. rewrite grow_add. pose proof (grow_ge_1 j). pose proof (grow_ge_1 k). split.
  - eapply Rle_trans; [exact A|]. replace (z * (grow j * grow k)) with (z * grow k * grow j) by ring.
    apply Rmult_le_compat_r; lra.
  - eapply Rle_trans; [exact B'|]. rewrite <- Rmult_assoc. apply Rmult_le_compat_r; lra.
Qed.
Lemma close_add k x y x' y' : close k x y -> close k x' y' -> close k (x + x') (y + y').
Proof. intros (A & B) (A' & B'). split; lra. Qed.
Lemma close_mul j k x y x' y' : 0 <= x -> 0 <= y -> 0 <= x' -> 0 <= y' -> close j x y -> close k x' y' -> close (j + k) (x * x') (y * y').
Proof.
  intros X Y X' Y' (A & B) (A' & B'). unfold close. rewrite grow_add. split.
  - replace (y * y' * (grow j * grow k)) with ((y * grow j) * (y' * grow k)) by ring. apply Rmult_le_compat; assumption.
  - replace (x * x' * (grow j * grow k)) with ((x * grow j) * (x' * grow k)) by ring. apply Rmult_le_compat; assumption.
Qed.
Lemma close_div k a x y : 0 <= a -> 0 < x -> 0 < y -> close k x y -> close k (a / x) (a / y).
Proof.
  intros A X Y (H & H'). pose proof (grow_ge_1 k). unfold Rdiv.
  assert (Ix : 0 < / x) by (apply Rinv_0_lt_compat; exact X). assert (Iy : 0 < / y) by (apply Rinv_0_lt_compat; exact Y).
  assert (/ x <= / y * grow k).
  { apply (Rmult_le_reg_l (x * y)); [apply Rmult_lt_0_compat; assumption|].
    replace (x * y * / x) with y by (field; lra). replace (x * y * (/ y * grow k)) with (x * grow k) by (field; lra). exact H'. }
  assert (/ y <= / x * grow k).
  { apply (Rmult_le_reg_l (x * y)); [apply Rmult_lt_0_compat; assumption|].
    replace (x * y * / y) with x by (field; lra). replace (x * y * (/ x * grow k)) with (y * grow k) by (field; lra). exact H. }
  split; rewrite Rmult_assoc; apply Rmult_le_compat_l; assumption.
Qed.
Lemma close_sqrt k x y : 0 <= x -> 0 <= y -> close (k + k) x y -> close k (sqrt x) (sqrt y).
Proof.
  intros X Y (A & B). rewrite grow_add in *. pose proof (grow_ge_1 k).
  assert (Q : sqrt (grow k * grow k) = grow k) by (apply sqrt_square; lra).
  split.
  - rewrite <- Q, <- sqrt_mult_alt by assumption. apply sqrt_le_1_alt. exact A.
  - rewrite <- Q, <- sqrt_mult_alt by assumption. apply sqrt_le_1_alt. exact B.
Qed.
Lemma close_rel k x y : 0 <= x -> close k x y -> Rabs (y - x) <= (grow k - 1) * x.
Proof.
  intros X (A & B). pose proof (grow_ge_1 k). apply Rabs_le. split; [|lra].
  assert (x * (2 - grow k) <= y); [|lra].
  apply (Rmult_le_reg_r (grow k)); [lra|]. eapply Rle_trans; [|exact A].
  assert ((2 - grow k) * grow k <= 1) by (pose proof (pow2_ge_0 (grow k - 1)); lra). nra.
Qed.

Lemma U_factor e x : Rabs e <= u_ro radix2 53 / (1 + u_ro radix2 53) -> 0 <= x -> close 1 x (x * (1 + e)).
Proof.
  intros He X. assert (EU : u_ro radix2 53 = U).
  { unfold u_ro. rewrite U_bpow. change (/ 2) with (bpow radix2 (-1)). rewrite <- bpow_plus. f_equal. }
  rewrite EU in He. pose proof U_pos. unfold close. rewrite grow_S, grow_0, Rmult_1_r.
  apply Rabs_le_inv in He. destruct He as (A & B).
  assert (V : U / (1 + U) = 1 - / (1 + U)) by (field; lra). rewrite V in *.
  assert (I : / (1 + U) * (1 + U) = 1) by (field; lra).
  assert (0 < / (1 + U)) by (apply Rinv_0_lt_compat; lra).
  split.
  - rewrite Rmult_assoc. rewrite <- (Rmult_1_r x) at 1. apply Rmult_le_compat_l; [exact X|].
    apply Rle_trans with (/ (1 + U) * (1 + U)); [lra | apply Rmult_le_compat_r; lra].
  - apply Rmult_le_compat_l; [exact X|].
    assert (1 - / (1 + U) <= U); [|lra].
    assert (E1 : (1 - / (1 + U)) = U * / (1 + U)) by (field; lra). rewrite E1.
    apply Rle_trans with (U * 1); [|lra]. apply Rmult_le_compat_l; [lra|]. rewrite <- Rinv_1. apply Rinv_le_contravar; lra.
Qed.
Lemma fl_close x : bpow radix2 (-1022) <= x -> close 1 x (fl x).
Proof.
  intros H. assert (X : 0 <= x) by (pose proof (bpow_gt_0 radix2 (-1022)); lra).
  destruct (relative_error_N_FLX'_ex radix2 53 eq_refl (fun t => negb (Z.even t)) x) as (e & He & E).
  assert (F : fl x = x * (1 + e)).
  { rewrite <- E. unfold fl, f64. apply round_FLT_FLX. rewrite Rabs_right by lra. exact H. }
  rewrite F. apply U_factor; assumption.
Qed.
Lemma fadd_close x y : float x -> float y -> 0 <= x + y -> close 1 (x + y) (fadd x y).
Proof.
  intros Fx Fy H. destruct (FLT_plus_error_N_ex radix2 (-1074) 53 (fun t => negb (Z.even t)) x y Fx Fy) as (e & He & E).
  change (fadd x y = (x + y) * (1 + e)) in E. rewrite E. apply U_factor; assumption.
Qed.
Lemma fsub_abs x y : Rabs (fsub x y) = fl (Rabs (x - y)).
Proof. unfold fsub. apply fl_abs. Qed.
Lemma fsub_close x y : float x -> float y -> close 1 (Rabs (x - y)) (Rabs (fsub x y)).
Proof.
  intros Fx Fy. rewrite fsub_abs. destruct (Rle_dec 0 (x - y)) as [H|H].
  - rewrite Rabs_right by lra. apply (fadd_close x (- y)); [exact Fx | apply float_opp; exact Fy | lra].
  - rewrite Rabs_left by lra. replace (- (x - y)) with (y + - x) by ring.
    apply (fadd_close y (- x)); [exact Fy | apply float_opp; exact Fx | lra].
Qed.
Lemma float_bpow e : (-1074 <= e)%Z -> float (bpow radix2 e).
Proof. intros H. apply generic_format_bpow. unfold f64, FLT_exp. lia. Qed.

(** The kernel *)
Lemma coulomb_sym x y alpha a : fcoulomb x y alpha a = fcoulomb y x alpha a.
Proof.
  unfold fcoulomb. assert (E : fmul (fsub x y) (fsub x y) = fmul (fsub y x) (fsub y x)).
  { unfold fmul, fsub. replace (y - x) with (- (x - y)) by ring. rewrite fl_opp. f_equal. ring. }
  cbv beta zeta. rewrite E. reflexivity.
Qed.
Section Kernel.
  Variables (x1 x2 alpha a : R).
  Hypotheses (F1 : float x1) (F2 : float x2) (A0 : 0 < alpha) (Ha : bpow radix2 (-450) <= Rabs a).
  Let d := fsub x1 x2.
  Let S := fadd (fmul d d) (fmul a a).

  Lemma a_square : bpow radix2 (-900) <= a * a.
  Proof.
    replace (a * a) with (Rabs a * Rabs a) by (rewrite <- Rabs_mult; apply Rabs_right, Rle_ge, (Rle_0_sqr a)).
    replace (bpow radix2 (-900)) with (bpow radix2 (-450) * bpow radix2 (-450)) by (rewrite <- bpow_plus; reflexivity).
    apply Rmult_le_compat; try assumption; apply bpow_ge_0.
  Qed.
  Lemma square_nonneg x : 0 <= x * x. Proof. apply (Rle_0_sqr x). Qed.
  Lemma sum_close : close 3 ((x1 - x2) * (x1 - x2) + a * a) (fmul d d + fmul a a).
  Proof.
    assert (SQ : forall x, x * x = Rabs x * Rabs x).
    { intros x. rewrite <- Rabs_mult. symmetry. apply Rabs_right, Rle_ge, square_nonneg. }
    pose proof a_square as HA.
    assert (Le : bpow radix2 (-1022) <= bpow radix2 (-900)) by (apply bpow_le; lia).
    assert (Ca : close 1 (a * a) (fmul a a)) by (apply fl_close; lra).
    assert (Cd : close 2 ((x1 - x2) * (x1 - x2)) (d * d)).
    { rewrite (SQ (x1 - x2)), (SQ d). apply (close_mul 1 1); try apply Rabs_pos; apply fsub_close; assumption. }
    pose proof (square_nonneg d). pose proof (square_nonneg a). pose proof (square_nonneg (x1 - x2)).
    destruct (Rle_dec (bpow radix2 (-1022)) (d * d)) as [N|N].
    - apply close_add.
      + apply (close_trans 2 1 _ (d * d)); [exact Cd | apply fl_close; exact N].
      + apply (close_mono 1); [lia | lra | apply fl_nonneg; lra | exact Ca].
    - assert (Small : bpow radix2 (-1022) * grow 2 <= U * (a * a)).
      { apply Rle_trans with (bpow radix2 (-1022) * 2).
        - apply Rmult_le_compat_l; [apply bpow_ge_0|]. unfold grow. pose proof U_small. pose proof U_pos. cbn. nra.
        - apply Rle_trans with (U * bpow radix2 (-900)); [|apply Rmult_le_compat_l; [pose proof U_pos; lra | exact HA]].
          rewrite U_bpow. change 2 with (bpow radix2 1). rewrite <- !bpow_plus. apply bpow_le. lia. }
      pose proof U_pos. pose proof (bpow_gt_0 radix2 (-1022)).
      assert (G2 : grow 2 = (1 + U) * (1 + U)) by (unfold grow; ring).
      assert (B0 : bpow radix2 (-1022) <= U * (a * a)).
      { eapply Rle_trans; [|exact Small]. rewrite <- (Rmult_1_r (bpow _ _)) at 1. apply Rmult_le_compat_l; [lra | apply grow_ge_1]. }
      assert (Fd : fmul d d <= U * (a * a)).
      { eapply Rle_trans; [|exact B0]. unfold fmul. rewrite <- (fl_id (bpow radix2 (-1022))) by (apply float_bpow; lia).
        apply fl_le. lra. }
      assert (Xd : (x1 - x2) * (x1 - x2) <= U * (a * a)).
      { destruct Cd as (Cd & _). eapply Rle_trans; [exact Cd|]. eapply Rle_trans; [|exact Small].
        apply Rmult_le_compat_r; [pose proof (grow_ge_1 2); lra | lra]. }
      assert (Fd0 : 0 <= fmul d d) by (apply fl_nonneg; assumption).
      apply (close_mono 2); [lia | lra | pose proof (fl_nonneg (a * a)); unfold fmul in *; lra |].
      destruct Ca as (Ca & Ca'). change (grow 1) with ((1 + U) * 1) in *. rewrite Rmult_1_r in *.
      split; rewrite G2.
      + apply Rle_trans with ((a * a) * (1 + U)); [lra|]. rewrite <- Rmult_assoc. apply Rmult_le_compat_r; [lra|].
        eapply Rle_trans; [exact Ca|]. apply Rmult_le_compat_r; lra.
      + apply Rle_trans with ((a * a) * (1 + U) + U * (a * a)); [lra|].
        apply Rle_trans with ((a * a) * ((1 + U) * (1 + U))); [|apply Rmult_le_compat_r; nra].
        assert (0 <= U * U * (a * a)) by (apply Rmult_le_pos; [apply Rmult_le_pos; lra | assumption]). lra.
  Qed.
  Lemma root_close : close 3 (sqrt ((x1 - x2) ^ 2 + a ^ 2)) (fsqrt S).
  Proof.
    replace ((x1 - x2) ^ 2 + a ^ 2) with ((x1 - x2) * (x1 - x2) + a * a) by ring.
    pose proof (square_nonneg d). pose proof (square_nonneg a). pose proof (square_nonneg (x1 - x2)).
    assert (P1 : 0 <= fmul d d) by (apply fl_nonneg; assumption).
    assert (P2 : 0 <= fmul a a) by (apply fl_nonneg; assumption).
    assert (C4 : close (2 + 2) ((x1 - x2) * (x1 - x2) + a * a) S).
    { apply (close_trans 3 1 _ (fmul d d + fmul a a)); [apply sum_close|]. apply fadd_close; [apply fl_float | apply fl_float | lra]. }
    assert (S0 : 0 <= S) by (apply fl_nonneg; lra).
    apply (close_trans 2 1 _ (sqrt S)); [apply close_sqrt; [lra | exact S0 | exact C4]|].
    apply fl_close.
    assert (HS : bpow radix2 (-902) <= S).
    { destruct C4 as (C4 & _). pose proof a_square. pose proof (grow_ge_1 (2 + 2)).
      assert (G4 : grow (2 + 2) <= 4).
      { rewrite grow_add. assert (grow 2 <= 2) by (unfold grow; pose proof U_small; pose proof U_pos; cbn; nra).
        pose proof (grow_ge_1 2). nra. }
      assert (bpow radix2 (-900) <= S * 4) by nra.
      replace (bpow radix2 (-902)) with (bpow radix2 (-900) * bpow radix2 (-2)) by (rewrite <- bpow_plus; reflexivity).
      change (bpow radix2 (-2)) with (/ 4). lra. }
    apply Rle_trans with (sqrt (bpow radix2 (-902))); [|apply sqrt_le_1_alt; exact HS].
    replace (bpow radix2 (-902)) with (bpow radix2 (-451) * bpow radix2 (-451)) by (rewrite <- bpow_plus; reflexivity).
    rewrite sqrt_square by apply bpow_ge_0. apply bpow_le. lia.
  Qed.
  Lemma root_pos : 0 < sqrt ((x1 - x2) ^ 2 + a ^ 2).
  Proof.
    apply sqrt_lt_R0. pose proof a_square. pose proof (bpow_gt_0 radix2 (-900)). pose proof (square_nonneg (x1 - x2)). cbn. lra.
  Qed.
  Lemma fsqrt_pos : 0 < fsqrt S.
  Proof.
    destruct root_close as (C & _). pose proof root_pos. pose proof (grow_ge_1 3).
    destruct (Rle_dec (fsqrt S) 0) as [N|N]; [|lra]. nra.
  Qed.
  Lemma coulomb_close : bpow radix2 (-1021) <= shielded_coulomb x1 x2 alpha a ->
    close 4 (shielded_coulomb x1 x2 alpha a) (fcoulomb x1 x2 alpha a).
  Proof.
    intros HV. unfold fcoulomb. cbv zeta. fold d S.
    pose proof root_pos. pose proof fsqrt_pos. assert (A' : 0 <= alpha) by lra.
    pose proof (close_div 3 alpha _ _ A' root_pos fsqrt_pos root_close) as C.
    change (alpha / sqrt ((x1 - x2) ^ 2 + a ^ 2)) with (shielded_coulomb x1 x2 alpha a) in C.
    apply (close_trans 3 1 _ (alpha / fsqrt S)); [exact C|].
    apply fl_close. destruct C as (C & _).
    assert (G3 : grow 3 <= 2) by (unfold grow; pose proof U_small; pose proof U_pos; cbn; nra).
    pose proof (grow_ge_1 3). replace (bpow radix2 (-1021)) with (bpow radix2 (-1022) * 2) in HV.
    2: { change 2 with (bpow radix2 1). rewrite <- bpow_plus. reflexivity. }
    assert (0 < alpha / fsqrt S) by (apply Rdiv_lt_0_compat; assumption). nra.
  Qed.
  (** Never larger than on the diagonal *)
  Lemma coulomb_diagonal : fcoulomb x1 x2 alpha a <= fcoulomb x1 x1 alpha a.
  Proof.
    unfold fcoulomb. cbv zeta. fold d S. unfold fsub at 1 2. rewrite Rminus_eq_0, fl_0.
    unfold fdiv. apply fl_le. unfold Rdiv. apply Rmult_le_compat_l; [lra|].
    assert (P : 0 < fsqrt (fadd (fmul 0 0) (fmul a a))).
    { pose proof a_square. assert (Q : bpow radix2 (-900) <= fmul a a).
      { unfold fmul. rewrite <- (fl_id (bpow radix2 (-900))) by (apply float_bpow; lia). apply fl_le. exact H. }
      unfold fmul at 1. rewrite Rmult_0_l, fl_0, fadd_0_l by apply fl_float. unfold fsqrt.
      apply Rlt_le_trans with (bpow radix2 (-450)); [apply bpow_gt_0|].
      rewrite <- (fl_id (bpow radix2 (-450))) by (apply float_bpow; lia). apply fl_le.
      apply Rle_trans with (sqrt (bpow radix2 (-900))); [|apply sqrt_le_1_alt; exact Q].
      replace (bpow radix2 (-900)) with (bpow radix2 (-450) * bpow radix2 (-450)) by (rewrite <- bpow_plus; reflexivity).
      rewrite sqrt_square by apply bpow_ge_0. lra. }
    apply Rinv_le_contravar; [exact P|]. unfold fsqrt. apply fl_le. apply sqrt_le_1_alt. unfold S, fadd. apply fl_le.
    apply Rplus_le_compat_r. unfold fmul at 1. rewrite Rmult_0_l, fl_0. apply fl_nonneg, square_nonneg.
  Qed.
End Kernel.

(** Natural numbers and halves *)
Lemma float_IZR m : (Z.abs m < 2 ^ 53)%Z -> float (IZR m).
Proof.
  intros H. apply generic_format_FLT. exists (Float radix2 m 0); [unfold F2R; cbn; lra | exact H | cbn; lia].
Qed.
Lemma float_half m : (Z.abs m < 2 ^ 53)%Z -> float (IZR m / 2).
Proof.
  intros H. apply generic_format_FLT. exists (Float radix2 m (-1)); [unfold F2R; cbn; lra | exact H | cbn; lia].
Qed.
Lemma float_nat n : (Z.of_nat n < 2 ^ 53)%Z -> float (INR n).
Proof. intros H. rewrite INR_IZR_INZ. apply float_IZR. lia. Qed.
Lemma float_double x : float x -> float (x * 2).
Proof.
  intros H. change 2 with (bpow radix2 1). apply (mult_bpow_pos_exact_FLT radix2 (-1074) 53); [exact H | lia].
Qed.

(** Energies of the harmonic oscillator *)
Section Energies.
  Variable omega : R.
  Hypothesis Hw : bpow radix2 (-1000) <= omega.

  Lemma level_exact p : (Z.of_nat p < 2 ^ 51)%Z -> fadd (INR p) (1 / 2) = INR p + 1 / 2.
  Proof.
    intros H. unfold fadd. apply fl_id. replace (INR p + 1 / 2) with (IZR (2 * Z.of_nat p + 1) / 2).
    - apply float_half. lia.
    - rewrite plus_IZR, mult_IZR, <- INR_IZR_INZ. lra.
  Qed.
  Lemma level_close p : (Z.of_nat p < 2 ^ 51)%Z -> close 1 (omega * (INR p + 1 / 2)) (fenergy omega p).
  Proof.
    intros H. unfold fenergy. rewrite level_exact by exact H. apply fl_close.
    apply Rle_trans with (bpow radix2 (-1000) * (1 / 2)).
    - replace (1 / 2) with (bpow radix2 (-1)) by (cbn; lra). rewrite <- bpow_plus. apply bpow_le. lia.
    - pose proof (pos_INR p). pose proof (bpow_gt_0 radix2 (-1000)). apply Rmult_le_compat; lra.
  Qed.
  Lemma level_error p : (Z.of_nat p < 2 ^ 51)%Z -> within U (omega * (INR p + 1 / 2)) (fenergy omega p).
  Proof.
    intros H. pose proof (pos_INR p). pose proof (bpow_gt_0 radix2 (-1000)).
    assert (P : 0 <= omega * (INR p + 1 / 2)) by (apply Rmult_le_pos; lra).
    unfold within. rewrite (Rabs_right (omega * _)) by lra.
    eapply Rle_trans; [apply (close_rel 1); [exact P | apply level_close; exact H]|].
    rewrite grow_S, grow_0. apply Req_le. ring.
  Qed.
  Lemma level_increasing p q : (p < q)%nat -> (Z.of_nat q < 2 ^ 51)%Z -> fenergy omega p < fenergy omega q.
  Proof.
    intros L H. destruct (level_close p ltac:(lia)) as (_ & A). destruct (level_close q H) as (B & _).
    rewrite grow_S, grow_0, Rmult_1_r in *.
    pose proof U_pos. pose proof (bpow_gt_0 radix2 (-1000)). pose proof (pos_INR p).
    assert (Q : INR p + 1 <= INR q) by (rewrite <- S_INR; apply le_INR; lia).
    assert (P51 : INR p <= 2251799813685248).
    { rewrite INR_IZR_INZ. apply IZR_le. lia. }
    assert (US : U = / 9007199254740992) by (unfold unit_roundoff; f_equal; lra).
    assert (K : (INR p + 1 / 2) * (1 + U) * (1 + U) < INR q + 1 / 2).
    { apply Rlt_le_trans with (INR p + 3 / 2); [|lra].
      assert ((INR p + 1 / 2) * (2 * U + U * U) < 1); [|lra].
      apply Rle_lt_trans with (2251799813685249 * (2 * U + U * U)).
      - apply Rmult_le_compat_r; [nra | lra].
      - rewrite US. lra. }
    apply (Rmult_lt_reg_r (1 + U)); [lra|].
    apply Rle_lt_trans with (omega * (INR p + 1 / 2) * (1 + U) * (1 + U)); [apply Rmult_le_compat_r; lra|].
    eapply Rlt_le_trans; [|exact B].
    replace (omega * (INR p + 1 / 2) * (1 + U) * (1 + U)) with (omega * ((INR p + 1 / 2) * (1 + U) * (1 + U))) by ring.
    apply Rmult_lt_compat_l; lra.
  Qed.
End Energies.

(** Grid points *)
Section Grid.
  Variables (L : R) (N : nat).
  Hypotheses (FL : float L) (HL : bpow radix2 (-900) <= L) (HN : (2 <= N)%nat) (HN' : (Z.of_nat N <= 2 ^ 50)%Z).
  Let step := fdiv (fsub L (- L)) (INR (N - 1)).
  Let s := 2 * L / INR (N - 1).

  Lemma L_pos : 0 < L.
  Proof. pose proof (bpow_gt_0 radix2 (-900)). lra. Qed.
  Lemma N_pos : 1 <= INR (N - 1).
  Proof. change 1 with (INR 1). apply le_INR. lia. Qed.
  Lemma N_big : INR (N - 1) <= 1125899906842624.
  Proof. rewrite INR_IZR_INZ. apply IZR_le. lia. Qed.
  Lemma two_L : fsub L (- L) = 2 * L.
  Proof. unfold fsub. replace (L - - L) with (L * 2) by ring. rewrite fl_id by (apply float_double; exact FL). ring. Qed.
  Lemma s_pos : 0 < s.
  Proof. pose proof L_pos. pose proof N_pos. unfold s. apply Rdiv_lt_0_compat; lra. Qed.
  Lemma s_le : s <= 2 * L.
  Proof.
    pose proof L_pos. pose proof N_pos. unfold s, Rdiv. rewrite <- (Rmult_1_r (2 * L)) at 2.
    apply Rmult_le_compat_l; [lra|]. rewrite <- Rinv_1. apply Rinv_le_contravar; lra.
  Qed.
  Lemma s_normal : bpow radix2 (-950) <= s.
  Proof.
    pose proof N_pos. pose proof N_big. pose proof L_pos. unfold s.
    apply Rle_trans with (bpow radix2 (-900) * / 1125899906842624).
    - change (/ 1125899906842624) with (bpow radix2 (-50)). rewrite <- bpow_plus. apply bpow_le. lia.
    - unfold Rdiv. apply Rmult_le_compat; [apply bpow_ge_0 | lra | lra | apply Rinv_le_contravar; lra].
  Qed.
  Lemma step_close : close 1 s step.
  Proof.
    unfold step. rewrite two_L. unfold fdiv. apply fl_close. eapply Rle_trans; [|apply s_normal]. apply bpow_le. lia.
  Qed.
  Lemma step_pos : 0 < step.
  Proof.
    destruct step_close as (A & _). pose proof s_pos. pose proof (grow_ge_1 1).
    destruct (Rle_dec step 0) as [H1|H1]; [|lra]. nra.
  Qed.
  Lemma offset_close i : (i < N)%nat -> close 2 (INR i * s) (fmul (INR i) step).
  Proof.
    intros Hi. pose proof s_pos. pose proof step_pos. pose proof (pos_INR i).
    destruct i as [|i].
    { unfold fmul. change (INR 0) with 0. rewrite !Rmult_0_l, fl_0. split; lra. }
    assert (1 <= INR (S i)) by (change 1 with (INR 1); apply le_INR; lia).
    apply (close_trans 1 1 _ (INR (S i) * step)).
    - destruct step_close as (A & B). split; rewrite Rmult_assoc; apply Rmult_le_compat_l; lra.
    - apply fl_close. destruct step_close as (A & _). pose proof s_normal.
      assert (grow 1 <= 2) by (rewrite grow_S, grow_0; pose proof U_small; lra).
      assert (s <= INR (S i) * step * 2) by nra.
      apply Rle_trans with (bpow radix2 (-950) * / 2); [|lra].
      change (/ 2) with (bpow radix2 (-1)). rewrite <- bpow_plus. apply bpow_le. lia.
  Qed.
  Lemma offset_le i : (i < N)%nat -> INR i * s <= 2 * L.
  Proof.
    intros Hi. pose proof L_pos. pose proof N_pos. unfold s.
    replace (INR i * (2 * L / INR (N - 1))) with (2 * L * (INR i / INR (N - 1))) by (field; lra).
    rewrite <- (Rmult_1_r (2 * L)) at 2. apply Rmult_le_compat_l; [lra|].
    apply (Rmult_le_reg_r (INR (N - 1))); [lra|]. unfold Rdiv. rewrite Rmult_assoc, Rinv_l, Rmult_1_r, Rmult_1_l by lra.
    apply le_INR. lia.
  Qed.
  Lemma point_error i : (i < N)%nat -> Rabs (flinspace L N i - linspace L N i) <= 6 * U * L.
  Proof.
    intros Hi. pose proof L_pos. pose proof N_pos. pose proof U_pos. unfold flinspace, linspace.
    destruct (Nat.eqb_spec i (N - 1)) as [->|Ne].
    - replace (L - (- L + INR (N - 1) * (2 * L / INR (N - 1)))) with 0 by (field; lra). rewrite Rabs_R0.
      assert (0 <= U * L) by (apply Rmult_le_pos; lra). lra.
    - fold step. fold s. set (y := fmul (INR i) step).
      assert (Py : 0 <= INR i * s) by (apply Rmult_le_pos; [apply pos_INR | pose proof s_pos; lra]).
      pose proof (close_rel 2 _ _ Py (offset_close i Hi)) as A. fold y in A. pose proof (offset_le i Hi) as B.
      assert (G2 : grow 2 - 1 = 2 * U + U * U) by (unfold grow; ring). rewrite G2 in A.
      assert (A' : Rabs (y - INR i * s) <= (2 * U + U * U) * (2 * L)).
      { eapply Rle_trans; [exact A|]. apply Rmult_le_compat_l; [nra | exact B]. }
      pose proof (fl_add_err y (- L) (fl_float _) (float_opp _ FL)) as D. fold (fadd y (- L)) in D.
      replace (fadd y (- L) - (- L + INR i * s)) with (fadd y (- L) - (y + - L) + (y - INR i * s)) by ring.
      eapply Rle_trans; [apply Rabs_triang|].
      assert (E : Rabs (y + - L) <= L + (2 * U + U * U) * (2 * L)).
      { replace (y + - L) with ((y - INR i * s) + (INR i * s - L)) by ring. eapply Rle_trans; [apply Rabs_triang|].
        assert (Rabs (INR i * s - L) <= L) by (apply Rabs_le; lra). lra. }
      assert (U * Rabs (y + - L) <= U * (L + (2 * U + U * U) * (2 * L))) by (apply Rmult_le_compat_l; lra).
      assert (US : U <= / 100) by (pose proof U_small; lra).
      assert (UL : 0 <= U * L) by (apply Rmult_le_pos; lra).
      assert (UUL : U * (U * L) <= / 100 * (U * L)) by (apply Rmult_le_compat_r; lra).
      assert (0 <= U * (U * L)) by (apply Rmult_le_pos; lra).
      assert (U * (U * (U * L)) <= / 100 * (U * (U * L))) by (apply Rmult_le_compat_r; lra).
      lra.
  Qed.
  Lemma point_first : flinspace L N 0 = - L.
  Proof.
    unfold flinspace. destruct (Nat.eqb_spec 0 (N - 1)); [lia|]. fold step. unfold fmul. change (INR 0) with 0.
    rewrite Rmult_0_l, fl_0. apply fadd_0_l, float_opp, FL.
  Qed.
  Lemma point_last : flinspace L N (N - 1) = L.
  Proof. unfold flinspace. rewrite Nat.eqb_refl. reflexivity. Qed.
  Lemma point_float i : float (flinspace L N i).
  Proof. unfold flinspace. destruct (i =? N - 1)%nat; [exact FL | apply fl_float]. Qed.
  Lemma gap_wide : 12 * U * L < s.
  Proof.
    pose proof L_pos. pose proof N_pos. pose proof N_big.
    assert (US : U = / 9007199254740992) by (unfold unit_roundoff; f_equal; lra).
    apply Rlt_le_trans with (2 * L * / 1125899906842624).
    - rewrite US. lra.
    - unfold s, Rdiv. apply Rmult_le_compat_l; [lra|]. apply Rinv_le_contravar; lra.
  Qed.
  Lemma point_increasing i j : (i < j)%nat -> (j < N)%nat -> flinspace L N i < flinspace L N j.
  Proof.
    intros Hi Hj. pose proof (Rabs_le_inv _ _ (point_error i ltac:(lia))) as A.
    pose proof (Rabs_le_inv _ _ (point_error j Hj)) as B. pose proof gap_wide. pose proof s_pos.
    assert (D : linspace L N i + s <= linspace L N j).
    { unfold linspace. fold s. assert (INR i + 1 <= INR j) by (rewrite <- S_INR; apply le_INR; lia).
      assert ((INR i + 1) * s <= INR j * s) by (apply Rmult_le_compat_r; lra). lra. }
    lra.
  Qed.
  Lemma spacing_error : within (5 * INR (N - 1) * U) s (fsub (flinspace L N 1) (flinspace L N 0)).
  Proof.
    pose proof L_pos. pose proof N_pos. pose proof U_pos. pose proof s_pos. pose proof s_le.
    unfold within. rewrite (Rabs_right s) by lra.
    replace (5 * INR (N - 1) * U * s) with (10 * U * L) by (unfold s; field; lra).
    pose proof (fl_add_err (flinspace L N 1) (- flinspace L N 0) (point_float 1) (float_opp _ (point_float 0))) as D.
    change (fl (flinspace L N 1 + - flinspace L N 0)) with (fsub (flinspace L N 1) (flinspace L N 0)) in D.
    rewrite point_first in *. rewrite Ropp_involutive in D.
    pose proof (point_error 1 ltac:(lia)) as A. unfold linspace in A. fold s in A. change (INR 1) with 1 in A.
    set (g := flinspace L N 1) in *. set (w := fsub g (- L)) in *.
    assert (A' : Rabs (g + L - s) <= 6 * U * L) by (replace (g + L - s) with (g - (- L + 1 * s)) by ring; exact A).
    replace (w - s) with (w - (g + L) + (g + L - s)) by ring. eapply Rle_trans; [apply Rabs_triang|].
    assert (E : Rabs (g + L) <= 2 * L + 6 * U * L).
    { replace (g + L) with ((g + L - s) + s) by ring. eapply Rle_trans; [apply Rabs_triang|]. rewrite (Rabs_right s) by lra. lra. }
    assert (U * Rabs (g + L) <= U * (2 * L + 6 * U * L)) by (apply Rmult_le_compat_l; lra).
    assert (US : U <= / 100) by (pose proof U_small; lra).
    assert (UL : 0 <= U * L) by (apply Rmult_le_pos; lra).
    assert (UUL : U * (U * L) <= / 100 * (U * L)) by (apply Rmult_le_compat_r; lra).
    lra.
  Qed.
End Grid.

(** The trapezoidal rule *)
Lemma loop_good n m (f s : nat -> C) (t a : nat -> R) :
  (forall k, (k < n)%nat -> cfloat (f k)) -> (forall k, (k < n)%nat -> cgood m (t k) (s k) (a k) (f k)) ->
  cgood (m + n + 1) (rsum (n - 1) (fun i => t i + t (S i))) (sumn (K := CC) (n - 1) (fun i => Cplus (s i) (s (S i))))
    (rsum (n - 1) (fun i => a i + a (S i))) (trapz_loop n f) /\ cfloat (trapz_loop n f).
Proof.
  intros F H. unfold trapz_loop.
  assert (G : forall j, (j <= n - 1)%nat ->
    cgood (m + j + 1) (rsum j (fun i => t i + t (S i))) (sumn (K := CC) j (fun i => Cplus (s i) (s (S i))))
      (rsum j (fun i => a i + a (S i)))
      (fold_left (fun val i => cadd val (cadd (f (i - 1)%nat) (f i))) (seq 1 j) (RtoC 0)) /\
    cfloat (fold_left (fun val i => cadd val (cadd (f (i - 1)%nat) (f i))) (seq 1 j) (RtoC 0))).
  { induction j; intros Hj.
    - split; [|apply cfloat_0]. cbn [rsum sumn seq fold_left]. cc.
      eapply cgood_mono; [| | |eapply cgood_eq; [reflexivity|reflexivity|reflexivity|exact size_0|exact (cgood_self (RtoC 0))]]; [lia|lra|lra].
    - destruct (IHj ltac:(lia)) as (G & Fl). rewrite seq_S, fold_left_app. cbn [fold_left rsum sumn Nat.add]. cc.
      replace (S j - 1)%nat with j by lia. split; [|apply cadd_float].
      set (z := fold_left _ _ _) in *.
      pose proof (cadd_good _ _ _ _ _ _ _ _ _ _ (F j ltac:(lia)) (F (S j) ltac:(lia)) (H j ltac:(lia)) (H (S j) ltac:(lia))) as G1.
      pose proof (cadd_good _ _ _ _ _ _ _ _ _ _ Fl (cadd_float _ _) G G1) as G2.
      eapply cgood_mono; [| | |exact G2]; [lia|lra|lra]. }
  destruct (G (n - 1)%nat ltac:(lia)) as (A & B). split; [|exact B].
  eapply cgood_mono; [| | |exact A]; [lia|lra|lra].
Qed.
Lemma trapz_good n m (f s : nat -> C) (t a : nat -> R) x :
  float (x 0%nat) -> float (x 1%nat) ->
  (forall k, (k < n)%nat -> cfloat (f k)) -> (forall k, (k < n)%nat -> cgood m (t k) (s k) (a k) (f k)) ->
  let w := Rabs (x 1%nat - x 0%nat) in
  cgood (m + n + 4) (trap n w t + 2 * T * (w + 1)) (trapz n s x) (trap n w a) (ftrapz n f x).
Proof.
  intros F0 F1 F H w. destruct (loop_good n m f s t a F H) as (G & Fl).
  pose proof (scale_good _ _ _ _ _ (1 / 2) G) as G1. rewrite Rabs_right in G1 by lra.
  assert (D : cgood 1 0 (RtoC (x 1%nat - x 0%nat)) w (RtoC (fsub (x 1%nat) (x 0%nat)))).
  { split; [rewrite size_R; unfold w; lra|]. split; [lra|]. rewrite <- RtoC_minus, size_R.
    pose proof (fl_add_err (x 1%nat) (- x 0%nat) F1 (float_opp _ F0)) as E. unfold fsub. rewrite grow_S, grow_0. unfold Rminus in *.
    fold w in E. lra. }
  pose proof (rscale_good _ _ _ _ _ _ (pgood_intro _ _ _ _ _ _ _ _ _ _ D G1)) as G2.
  unfold ftrapz. cbv zeta.
  eapply cgood_eq; [| | | |exact G2].
  - lia.
  - unfold trap. field.
  - rewrite OneDimProofs.trapz_sum. rewrite Cmult_assoc, <- RtoC_mult. f_equal. f_equal. lra.
  - unfold trap. field.
Qed.

(** Particle density *)
Lemma density_good l bra ket rho z : fdensity l bra ket rho z ->
  cgood (l * l + 4) (rsum2 l l (fun p q => 4 * T * (size (ket q) + 1))) (density_at (K := CC) l rho bra ket)
    (rsum2 l l (fun p q => size (bra p) * size (rho q p) * size (ket q))) z.
Proof.
  intros D. unfold fdensity in D.
  set (g := fun pq : nat * nat => Cmult (Cmult (bra (fst pq)) (rho (snd pq) (fst pq))) (ket (snd pq))).
  set (ga := fun pq : nat * nat => size (bra (fst pq)) * size (rho (snd pq) (fst pq)) * size (ket (snd pq))).
  set (gt := fun pq : nat * nat => 4 * T * (size (ket (snd pq)) + 1)).
  assert (G : forall pqs z0 z1, density_loop bra ket rho pqs z0 z1 -> forall k t s a, (4 <= k)%nat -> cfloat z0 -> cgood k t s a z0 ->
    cgood (k + length pqs) (t + lsum (map gt pqs)) (Cplus s (csum (map g pqs))) (a + lsum (map ga pqs)) z1).
  { intros pqs z0 z1 Lp. induction Lp as [z0|pq pqs z0 w v St Lp IH]; intros k t s a Hk Fz Gz.
    - cbn [map length]. change (csum []) with (RtoC 0). rewrite lsum_nil. rewrite !Rplus_0_r, Nat.add_0_r, Cplus_0_r. exact Gz.
    - destruct St as [v1 v2 M1 M2 ->].
      pose proof (mul_good _ _ _ _ _ _ _ M1 (pgood_intro _ _ _ _ _ _ _ _ _ _ (cgood_self (bra (fst pq))) (cgood_self (rho (snd pq) (fst pq))))) as P1.
      rewrite !Rmult_0_l, !Rmult_0_r, !Rplus_0_l in P1.
      pose proof (mul_good _ _ _ _ _ _ _ M2 (pgood_intro _ _ _ _ _ _ _ _ _ _ P1 (cgood_self (ket (snd pq))))) as P2.
      rewrite !Rmult_0_r, Rplus_0_l, Rplus_0_r in P2.
      assert (Fv : cfloat v2) by (destruct M2; split; eapply dotted_float; eassumption).
      pose proof (cadd_good _ _ _ _ _ _ _ _ _ _ Fz Fv Gz P2) as G1.
      assert (G2 : cgood (S k) (t + gt pq) (Cplus s (g pq)) (a + ga pq) (cadd z0 v2)).
      { eapply cgood_mono; [| | |exact G1]; [cbn; lia | unfold gt; lra | unfold ga; lra]. }
      pose proof (IH (S k) _ _ _ ltac:(lia) (cadd_float _ _) G2) as G3.
      cbn [map length]. rewrite !lsum_cons, csum_cons.
      eapply cgood_eq; [| | | |exact G3]; [lia | lra | symmetry; apply Cplus_assoc | lra]. }
  pose proof (G _ _ _ D 4%nat 0 (RtoC 0) 0 (le_n 4) cfloat_0) as Q4.
  assert (Z : cgood 4 0 (RtoC 0) 0 (RtoC 0)).
  { pose proof (cgood_self (RtoC 0)) as Q. rewrite size_0 in Q. eapply cgood_mono; [| | |exact Q]; [lia|lra|lra]. }
  specialize (Q4 Z). rewrite !Rplus_0_l, Cplus_0_l in Q4.
  assert (LP : forall (h : nat * nat -> R) m, lsum (map h (list_prod (seq 0 m) (seq 0 l))) = rsum2 m l (fun p q => h (p, q))).
  { intros h. induction m; [reflexivity|]. unfold rsum2 in *. rewrite seq_S. cbn [Nat.add].
    assert (Ap : forall (l1 l2 l3 : list nat), list_prod (l1 ++ l2) l3 = list_prod l1 l3 ++ list_prod l2 l3).
    { clear. intros l1 l2 l3. induction l1; cbn; [reflexivity|]. rewrite IHl1, app_assoc. reflexivity. }
    rewrite Ap, map_app, lsum_app, IHm. cbn [list_prod rsum]. rewrite app_nil_r, map_map, lsum_seq. reflexivity. }
  assert (LC : forall (h : nat * nat -> C) m, csum (map h (list_prod (seq 0 m) (seq 0 l))) = sumn (K := CC) m (fun p => sumn (K := CC) l (fun q => h (p, q)))).
  { intros h. induction m; [reflexivity|]. rewrite seq_S. cbn [Nat.add].
    assert (Ap : forall (l1 l2 l3 : list nat), list_prod (l1 ++ l2) l3 = list_prod l1 l3 ++ list_prod l2 l3).
    { clear. intros l1 l2 l3. induction l1; cbn; [reflexivity|]. rewrite IHl1, app_assoc. reflexivity. }
    rewrite Ap, map_app, csum_app, IHm. cbn [list_prod sumn]. rewrite app_nil_r, map_map, csum_seq. reflexivity. }
  rewrite !LP, LC, prod_length, seq_length in Q4.
  eapply cgood_mono; [| | |exact Q4]; [lia | apply Rle_refl | apply Rle_refl].
Qed.

(** The two-body integrals *)
Lemma trapz_ext n f g x : (forall k, (k < n)%nat -> f k = g k) -> trapz n f x = trapz n g x.
Proof.
  intros H. rewrite !OneDimProofs.trapz_sum. f_equal. apply csumn_ext. intros k Hk. rewrite !H by lia. reflexivity.
Qed.
Lemma trap_ext n w f g : (forall k, (k < n)%nat -> f k = g k) -> trap n w f = trap n w g.
Proof. intros H. unfold trap. f_equal. apply rsum_ext. intros k Hk. rewrite !H by lia. reflexivity. Qed.
Lemma cmul_float z w v : cmul z w v -> cfloat v.
Proof. intros (A & B). split; eapply dotted_float; eassumption. Qed.
Lemma twice_good m t s a v z0 w0 v1 v2 : cgood m t s a v -> cmul (Cconj z0) v v1 -> cmul v1 w0 v2 ->
  cgood (m + 4) ((size z0 * t + 4 * T) * size w0 + 4 * T) (Cmult (Cmult (Cconj z0) s) w0) (size z0 * a * size w0) v2.
Proof.
  intros G M1 M2.
  pose proof (mul_good _ _ _ _ _ _ _ M1 (pgood_intro _ _ _ _ _ _ _ _ _ _ (cgood_self (Cconj z0)) G)) as P1.
  rewrite size_conj in P1. rewrite !Rmult_0_l, !Rplus_0_r in P1.
  pose proof (mul_good _ _ _ _ _ _ _ M2 (pgood_intro _ _ _ _ _ _ _ _ _ _ P1 (cgood_self w0))) as P2.
  rewrite !Rmult_0_r, Rplus_0_l, Rplus_0_r in P2.
  eapply cgood_eq; [| | | |exact P2]; [lia | reflexivity | reflexivity | reflexivity].
Qed.
Section Integrals.
  Variables (l : nat) (spf : nat -> nat -> C) (N : nat) (grid : nat -> R) (alpha a : R).
  Hypotheses (HN : (2 <= N)%nat) (Fg : forall i, (i < N)%nat -> float (grid i)) (A0 : 0 < alpha) (Ha : bpow radix2 (-450) <= Rabs a).
  Let V i j := shielded_coulomb (grid i) (grid j) alpha a.
  Hypothesis HV : forall i j, (i < N)%nat -> (j < N)%nat -> bpow radix2 (-1021) <= V i j.
  Let w := Rabs (grid 1%nat - grid 0%nat).

  Lemma kernel_good i j : (i < N)%nat -> (j < N)%nat -> cgood 4 0 (RtoC (V i j)) (V i j) (RtoC (fcoulomb (grid i) (grid j) alpha a)).
  Proof.
    intros Hi Hj. pose proof (coulomb_close (grid i) (grid j) alpha a (Fg i Hi) (Fg j Hj) A0 Ha (HV i j Hi Hj)) as C.
    assert (P : 0 <= V i j) by (pose proof (HV i j Hi Hj); pose proof (bpow_gt_0 radix2 (-1021)); lra).
    split; [rewrite size_R, Rabs_right by lra; lra|]. split; [lra|]. rewrite <- RtoC_minus, size_R.
    eapply Rle_trans; [apply close_rel; [exact P | exact C]|]. unfold V. lra.
  Qed.
  Lemma inner_good q s i z : (i < N)%nat -> finner spf N grid alpha a q s i z ->
    cgood (N + 12) (inner_underflow N w (spf s)) (inner_integral spf N grid alpha a q s i) (inner_size N w V (spf q) (spf s) i) z.
  Proof.
    intros Hi (f & Hf & ->).
    assert (G := trapz_good N 8 f (fun j => (Cconj (spf q j) * RtoC (V i j) * spf s j)%C)
      (fun j => 4 * T * (size (spf s j) + 1)) (fun j => size (spf q j) * V i j * size (spf s j)) grid (Fg 0%nat ltac:(lia)) (Fg 1%nat ltac:(lia))).
    cbv zeta in G. fold w in G.
    eapply cgood_eq; [| | | |apply G]; [lia | reflexivity | reflexivity | reflexivity | |].
    - intros j Hj. destruct (Hf j Hj) as (v & _ & M). eapply cmul_float. exact M.
    - intros j Hj. destruct (Hf j Hj) as (v & M1 & M2).
      pose proof (twice_good _ _ _ _ _ _ _ _ _ (kernel_good i j Hi Hj) M1 M2) as P.
      eapply cgood_eq; [| | | |exact P]; [lia | ring | reflexivity | reflexivity].
  Qed.
  Lemma integrals_good u p q r s : fintegrals l spf N grid alpha a u -> (p < l)%nat -> (q < l)%nat -> (r < l)%nat -> (s < l)%nat ->
    cgood (2 * N + 20) (integral_underflow N w (spf p) (spf r) (spf s)) (orbital_integral spf N grid alpha a p q r s)
      (integral_size N w V (spf p) (spf q) (spf r) (spf s)) (u p q r s).
  Proof.
    intros (inner & Hi & Hu) Hp Hq Hr Hs. destruct (Hu p q r s Hp Hq Hr Hs) as (f & Hf & ->).
    assert (G := trapz_good N (N + 16) f (fun j => (Cconj (spf p j) * inner_integral spf N grid alpha a q s j * spf r j)%C)
      (fun j => (size (spf p j) * inner_underflow N w (spf s) + 4 * T) * size (spf r j) + 4 * T)
      (fun j => size (spf p j) * inner_size N w V (spf q) (spf s) j * size (spf r j)) grid (Fg 0%nat ltac:(lia)) (Fg 1%nat ltac:(lia))).
    cbv zeta in G. fold w in G.
    eapply cgood_eq; [| | | |apply G]; [lia | reflexivity | reflexivity | reflexivity | |].
    - intros j Hj. destruct (Hf j Hj) as (v & _ & M). eapply cmul_float. exact M.
    - intros j Hj. destruct (Hf j Hj) as (v & M1 & M2).
      pose proof (twice_good _ _ _ _ _ _ _ _ _ (inner_good q s j _ Hj (Hi q s j Hq Hs Hj)) M1 M2) as P.
      eapply cgood_eq; [| | | |exact P]; [lia | reflexivity | reflexivity | reflexivity].
  Qed.
End Integrals.
