(** The normalization where it does not overflow. *)
From Coq Require Import List Arith ZArith Reals Lra Lia Bool Factorial.
From Flocq Require Import Core BinarySingleNaN Relative.
From Verif Require Import FloatOverflow OverflowSpec OverflowProofs.
Open Scope R_scope.

Local Instance prec64' : Prec_gt_0 53 := eq_refl.
Local Instance emax64' : Prec_lt_emax 53 1024 := eq_refl.
Local Notation bp := (bpow radix2).
Lemma bp_double e : bp (e + 1) = 2 * bp e.
Proof. rewrite bpow_plus. change (bp 1) with 2. ring. Qed.
Lemma round_near y : bp (-1000) <= y -> near (bp (-53)) y (r64 y).
Proof.
  intros H. pose proof (bpow_gt_0 radix2 (-1000)) as P. pose proof (relative_error_N_FLT radix2 (SpecFloat.emin 53 1024) 53 ltac:(reflexivity) (fun x => negb (Z.even x)) y) as Q.
  rewrite (Rabs_pos_eq y) in Q by lra.
  assert (L : bp (SpecFloat.emin 53 1024 + 53 - 1) <= y) by (apply Rle_trans with (2 := H); apply bpow_le; unfold SpecFloat.emin; lia).
  specialize (Q L). change (/ 2) with (bp (-1)) in Q. rewrite <- bpow_plus in Q. change (-1 + (- (53) + 1))%Z with (-53)%Z in Q. apply Rabs_le_inv in Q. unfold near.
  match type of Q with _ <= ?r - y <= _ => change r with (r64 y) in Q end. lra.
Qed.
Lemma near_step d u x y z : 0 < x -> 0 <= d <= / 2 -> 0 <= u <= d / 4 -> near d x y -> near u y z -> near (2 * d) x z.
Proof.
  intros Hx Hd Hu [A B] [D E]. assert (Hy : 0 <= y) by (apply Rle_trans with (2 := A); apply Rmult_le_pos; lra). unfold near. split.
  - apply Rle_trans with (2 := D). apply Rle_trans with ((1 - u) * ((1 - d) * x)); [|apply Rmult_le_compat_l; lra]. rewrite <- Rmult_assoc. apply Rmult_le_compat_r; [lra|].
    assert (0 <= u * d) by (apply Rmult_le_pos; lra). lra.
  - apply Rle_trans with (1 := E). apply Rle_trans with ((1 + u) * ((1 + d) * x)); [apply Rmult_le_compat_l; lra|]. rewrite <- Rmult_assoc. apply Rmult_le_compat_r; [lra|].
    assert (u * d <= d / 4 * / 2) by (apply Rmult_le_compat; lra). lra.
Qed.
Lemma near_scale d c x y : 0 <= c -> near d x y -> near d (c * x) (c * y).
Proof. intros Hc [A B]. unfold near. apply (Rmult_le_compat_l c) in A, B; try assumption. split; lra. Qed.
Lemma near_sqrt d x y : 0 < x -> 0 <= d <= / 2 -> near d x y -> near d (sqrt x) (sqrt y).
Proof.
  intros Hx Hd [A B]. unfold near. split.
  - apply Rle_trans with (sqrt ((1 - d) * x)); [|apply sqrt_le_1_alt, A]. rewrite sqrt_mult by lra. apply Rmult_le_compat_r; [apply sqrt_pos|].
    rewrite <- (sqrt_Rsqr (1 - d)) at 1 by lra. apply sqrt_le_1_alt. unfold Rsqr. assert (0 <= d * (1 - d)) by (apply Rmult_le_pos; lra). lra.
  - apply Rle_trans with (sqrt ((1 + d) * x)); [apply sqrt_le_1_alt, B|]. rewrite sqrt_mult by lra. apply Rmult_le_compat_r; [apply sqrt_pos|].
    rewrite <- (sqrt_Rsqr (1 + d)) at 2 by lra. apply sqrt_le_1_alt. unfold Rsqr. assert (0 <= d * d) by (apply Rmult_le_pos; lra). lra.
Qed.
Lemma near_inv d x y : 0 < x -> 0 <= d <= / 2 -> near d x y -> near (2 * d) (/ x) (/ y).
Proof.
  intros Hx Hd [A B]. assert (Hy : 0 < y) by (apply Rlt_le_trans with (2 := A); apply Rmult_lt_0_compat; lra). unfold near. split.
  - apply Rmult_le_reg_r with y; [exact Hy|]. rewrite Rinv_l by lra. apply Rmult_le_reg_r with x; [exact Hx|]. replace ((1 - 2 * d) * / x * y * x) with ((1 - 2 * d) * y) by (field; lra). rewrite Rmult_1_l.
    apply Rle_trans with ((1 - 2 * d) * ((1 + d) * x)); [apply Rmult_le_compat_l; lra|]. rewrite <- Rmult_assoc. rewrite <- (Rmult_1_l x) at 2. apply Rmult_le_compat_r; [lra|]. assert (0 <= d * d) by (apply Rmult_le_pos; lra). lra.
  - apply Rmult_le_reg_r with y; [exact Hy|]. rewrite Rinv_l by lra. apply Rmult_le_reg_r with x; [exact Hx|]. replace ((1 + 2 * d) * / x * y * x) with ((1 + 2 * d) * y) by (field; lra). rewrite Rmult_1_l.
    apply Rle_trans with ((1 + 2 * d) * ((1 - d) * x)); [|apply Rmult_le_compat_l; lra]. rewrite <- Rmult_assoc. rewrite <- (Rmult_1_l x) at 1. apply Rmult_le_compat_r; [lra|]. assert (d * d <= d * / 2) by (apply Rmult_le_compat; lra). lra.
Qed.
Section Accuracy.
  Variables (f : nat -> b64) (w : b64).
  Hypothesis Hf : factorial_function f.
  Lemma small_e e : (e <= -1)%Z -> 0 <= bp e <= / 2.
  Proof. intros H. split; [apply bpow_ge_0|]. change (/ 2) with (bp (-1)). apply bpow_le, H. Qed.
  Lemma quarter_e e : (-51 <= e)%Z -> 0 <= bp (-53) <= bp e / 4.
  Proof. intros H. split; [apply bpow_ge_0|]. replace (bp e / 4) with (bp (e + -2)) by (rewrite bpow_plus; change (bp (-2)) with (/ 4); field). apply bpow_le. lia. Qed.
  Lemma norm_accurate n : (n <= 150)%nat -> is_finite w = true -> bp (-200) <= B2R w <= bp 200 ->
    exists v, normalization64 f w n = Some v /\ is_positive v /\ near (bp (-35)) (/ sqrt (2 ^ n * INR (fact n)) * B2R w) (B2R v).
  Proof.
    intros Hn Fw W. destruct (norm_positive f w Hf n Hn Fw W) as (v0 & Ev & Pv). exists v0. split; [exact Ev|]. split; [exact Pv|].
    rewrite norm_value in Ev by lia. injection Ev as <-. destruct (pow2_value n ltac:(lia)) as [V2 F2]. destruct (f_bounds f Hf n ltac:(lia)) as [[Ff _] FB]. pose proof (product_small f Hf n Hn) as [P1 P2].
    assert (E2 : bp (Z.of_nat n) = 2 ^ n) by (rewrite bpow_IZR by lia; rewrite pow_IZR; f_equal; rewrite Zpower_nat_Z; reflexivity).
    set (x := 2 ^ n * INR (fact n)).
    assert (Hx : 1 <= x). { unfold x. rewrite <- E2, bpow_IZR by lia. rewrite <- zfact_fact. rewrite <- mult_IZR. apply IZR_le. assert (0 < 2 ^ Z.of_nat n)%Z by (apply Z.pow_pos_nonneg; lia). pose proof (zfact_pos n). nia. }
    (** the product *)
    assert (N1 : near (bp (-40)) x (bp (Z.of_nat n) * B2R (f n))).
    { unfold x. rewrite <- E2. apply near_scale; [apply bpow_ge_0|]. rewrite <- zfact_fact. unfold near. lra. }
    assert (Q1 : bp (-1) <= r64 (bp (Z.of_nat n) * B2R (f n))) by (apply round_ge_bpow; [lia | apply Rle_trans with (2 := P1); change (bp (-1)) with (/ 2); lra]).
    assert (Q2 : r64 (bp (Z.of_nat n) * B2R (f n)) <= bp 1023) by (apply round_le_bpow; [lia | exact P2]).
    destruct (mul_finite (int64 (2 ^ Z.of_nat n)) (f n) F2 Ff) as [M1 M2].
    { rewrite V2, Rabs_pos_eq; [apply Rle_lt_trans with (1 := Q2); apply bpow_lt; lia|]. apply Rle_trans with (2 := Q1). apply bpow_ge_0. }
    rewrite V2 in M1. unfold root_part. set (y := mul64 (int64 _) _) in *. set (t := r64 (bp (Z.of_nat n) * B2R (f n))) in *.
    assert (Ht : 0 < t) by (apply Rlt_le_trans with (2 := Q1); apply bpow_gt_0).
    assert (N2 : near (bp (-39)) x t).
    { change (-39)%Z with (-40 + 1)%Z. rewrite bp_double. apply (near_step _ (bp (-53)) x (bp (Z.of_nat n) * B2R (f n))); [lra | apply small_e; lia | apply quarter_e; lia | exact N1|].
      apply round_near. apply Rle_trans with (2 := P1). apply Rle_trans with (bp (-1)); [apply bpow_le; lia | change (bp (-1)) with (/ 2); lra]. }
    (** the root *)
    pose proof (Bsqrt_correct 53 1024 eq_refl eq_refl mode_NE y) as (S1 & _ & _). fold (sqrt64 y) in S1. cbn [round_mode] in S1. rewrite M1 in S1.
    assert (L : bp (-1) <= sqrt t).
    { rewrite <- (sqrt_Rsqr (bp (-1))) by apply bpow_ge_0. apply sqrt_le_1_alt. unfold Rsqr. rewrite <- bpow_plus. apply Rle_trans with (2 := Q1). apply bpow_le. lia. }
    assert (U : sqrt t <= bp 512).
    { rewrite <- (sqrt_Rsqr (bp 512)) by apply bpow_ge_0. apply sqrt_le_1_alt. unfold Rsqr. rewrite <- bpow_plus. apply Rle_trans with (1 := Q2). apply bpow_le. lia. }
    assert (R1 : bp (-1) <= r64 (sqrt t)) by (apply round_ge_bpow; [lia | exact L]). assert (R2 : r64 (sqrt t) <= bp 512) by (apply round_le_bpow; [lia | exact U]).
    assert (Hsx : 0 < sqrt x) by (apply sqrt_lt_R0; lra).
    assert (N3 : near (bp (-38)) (sqrt x) (r64 (sqrt t))).
    { change (-38)%Z with (-39 + 1)%Z. rewrite bp_double. apply (near_step _ (bp (-53)) (sqrt x) (sqrt t)); [exact Hsx | apply small_e; lia | apply quarter_e; lia | apply near_sqrt; [lra | apply small_e; lia | exact N2]|].
      apply round_near. apply Rle_trans with (2 := L). apply bpow_le. lia. }
    (** the quotient *)
    set (s := sqrt64 y) in *. assert (Ps : 0 < B2R s) by (rewrite S1; apply Rlt_le_trans with (2 := R1); apply bpow_gt_0).
    destruct one_value as [O1 O2].
    pose proof (Bdiv_correct 53 1024 eq_refl eq_refl mode_NE one64 s ltac:(lra)) as D. fold (div64 one64 s) in D. cbn [round_mode] in D. rewrite O1, O2, S1 in D. unfold Rdiv in D. rewrite Rmult_1_l in D.
    assert (I1 : bp (-512) <= / r64 (sqrt t)) by (change (-512)%Z with (- (512))%Z; rewrite bpow_opp; apply Rinv_le; [apply Rlt_le_trans with (2 := R1); apply bpow_gt_0 | exact R2]).
    assert (I2 : / r64 (sqrt t) <= bp 1) by (change (bp 1) with (bp (- (-1))); rewrite bpow_opp; apply Rinv_le; [apply bpow_gt_0 | exact R1]).
    assert (D1 : bp (-512) <= r64 (/ r64 (sqrt t))) by (apply round_ge_bpow; [lia | exact I1]). assert (D2 : r64 (/ r64 (sqrt t)) <= bp 1) by (apply round_le_bpow; [lia | exact I2]).
    rewrite Rlt_bool_true in D. 2: { rewrite Rabs_pos_eq; [apply Rle_lt_trans with (1 := D2); apply bpow_lt; lia | apply Rle_trans with (2 := D1); apply bpow_ge_0]. }
    destruct D as (D3 & D4 & _).
    assert (Hix : 0 < / sqrt x) by (apply Rinv_0_lt_compat, Hsx).
    assert (N4 : near (bp (-36)) (/ sqrt x) (r64 (/ r64 (sqrt t)))).
    { change (-36)%Z with (-37 + 1)%Z. rewrite bp_double. apply (near_step _ (bp (-53)) (/ sqrt x) (/ r64 (sqrt t))); [exact Hix | apply small_e; lia | apply quarter_e; lia | |].
      - change (-37)%Z with (-38 + 1)%Z. rewrite bp_double. apply near_inv; [exact Hsx | apply small_e; lia | exact N3].
      - apply round_near. apply Rle_trans with (2 := I1). apply bpow_le. lia. }
    (** the last product *)
    set (r := div64 one64 s) in *. destruct W as [W1 W2]. assert (Hw : 0 < B2R w) by (apply Rlt_le_trans with (2 := W1); apply bpow_gt_0).
    assert (X1 : bp (-712) <= B2R r * B2R w) by (rewrite D3; change (-712)%Z with (-512 + -200)%Z; rewrite bpow_plus; apply Rmult_le_compat; try assumption; apply bpow_ge_0).
    assert (X2 : B2R r * B2R w <= bp 201).
    { rewrite D3. change 201%Z with (1 + 200)%Z. rewrite bpow_plus. apply Rmult_le_compat; try assumption; [apply Rle_trans with (2 := D1); apply bpow_ge_0 | lra]. }
    destruct (mul_finite r w D4 Fw) as [Y1 _].
    { rewrite Rabs_pos_eq; [apply Rle_lt_trans with (bp 201); [apply round_le_bpow; [lia | exact X2] | apply bpow_lt; lia]|]. apply Rle_trans with (bp (-712)); [apply bpow_ge_0 | apply round_ge_bpow; [lia | exact X1]]. }
    rewrite Y1. change (-35)%Z with (-36 + 1)%Z. rewrite bp_double. apply (near_step _ (bp (-53)) (/ sqrt x * B2R w) (B2R r * B2R w)); [apply Rmult_lt_0_compat; assumption | apply small_e; lia | apply quarter_e; lia | |].
    - rewrite D3, (Rmult_comm (/ sqrt x)), (Rmult_comm (r64 _)). apply near_scale; [lra | exact N4].
    - apply round_near. apply Rle_trans with (2 := X1). apply bpow_le. lia.
  Qed.
End Accuracy.
