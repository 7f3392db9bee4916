(** Overflow in the normalization of the oscillator functions. *)
From Coq Require Import List Arith ZArith Reals Lra Lia Bool Factorial.
From Flocq Require Import Core BinarySingleNaN Relative.
From Verif Require Import FloatOverflow OverflowSpec.
Open Scope R_scope.

Notation r64 := (round radix2 (SpecFloat.fexp 53 1024) ZnearestE).
Local Instance prec64 : Prec_gt_0 53 := eq_refl.
Local Instance emax64 : Prec_lt_emax 53 1024 := eq_refl.
Local Instance valid64 : Valid_exp (SpecFloat.fexp 53 1024) := FLT_exp_valid (SpecFloat.emin 53 1024) 53.
Local Instance mono64 : Monotone_exp (SpecFloat.fexp 53 1024) := FLT_exp_monotone (SpecFloat.emin 53 1024) 53.

(** ** Factorials as integers *)
Fixpoint zfact (n : nat) : Z := match n with O => 1%Z | S k => (Z.of_nat (S k) * zfact k)%Z end.
Lemma zfact_fact n : IZR (zfact n) = INR (fact n).
Proof. induction n as [|n IH]; [reflexivity|]. cbn [zfact]. change (fact (S n)) with (S n * fact n)%nat. rewrite mult_INR, mult_IZR, IH, <- INR_IZR_INZ. reflexivity. Qed.
Lemma zfact_pos n : (1 <= zfact n)%Z.
Proof. induction n as [|n IH]; [reflexivity|]. cbn [zfact]. nia. Qed.
Lemma zfact_mono n m : (n <= m)%nat -> (zfact n <= zfact m)%Z.
Proof. intros H. induction H as [|m H IH]; [lia|]. cbn [zfact]. pose proof (zfact_pos m). nia. Qed.
(** ** Bounds on the argument of the square root *)
Definition arg (n : nat) : Z := (2 ^ Z.of_nat n * zfact n)%Z.
Lemma arg_mono n m : (n <= m)%nat -> (arg n <= arg m)%Z.
Proof. intros H. unfold arg. apply Z.mul_le_mono_nonneg; [apply Z.pow_nonneg; lia | apply Z.pow_le_mono_r; lia | pose proof (zfact_pos n); lia | apply zfact_mono, H]. Qed.
Lemma arg_150 : (arg 150 * (2 ^ 40 + 1) < 2 ^ 1063)%Z.
Proof. vm_compute. reflexivity. Qed.
Lemma arg_151 : (2 ^ 1024 * 2 ^ 40 <= arg 151 * (2 ^ 40 - 1))%Z.
Proof. vm_compute. discriminate. Qed.
Lemma bpow_IZR e : (0 <= e)%Z -> bpow radix2 e = IZR (2 ^ e).
Proof. intros H. symmetry. apply (IZR_Zpower radix2 e H). Qed.

(** ** Conversion of integers *)
Lemma round_bpow e : (-1000 <= e <= 1023)%Z -> r64 (bpow radix2 e) = bpow radix2 e.
Proof. intros H. apply round_generic; [typeclasses eauto|]. apply generic_format_bpow. unfold SpecFloat.fexp, SpecFloat.emin. lia. Qed.
Lemma pow2_value n : (n < 1024)%nat -> B2R (int64 (2 ^ Z.of_nat n)) = bpow radix2 (Z.of_nat n) /\ is_finite (int64 (2 ^ Z.of_nat n)) = true.
Proof.
  intros H. unfold int64. pose proof (binary_normalize_correct 53 1024 eq_refl eq_refl mode_NE (2 ^ Z.of_nat n) 0 false) as Q. cbv zeta in Q.
  assert (E : F2R (Float radix2 (2 ^ Z.of_nat n) 0) = bpow radix2 (Z.of_nat n)) by (unfold F2R; cbn [Fnum Fexp bpow]; rewrite Rmult_1_r, bpow_IZR by lia; reflexivity).
  rewrite E in Q. cbn [round_mode] in Q. rewrite round_bpow in Q by lia. rewrite Rlt_bool_true in Q.
  - destruct Q as (Q1 & Q2 & _). auto.
  - rewrite Rabs_pos_eq by apply bpow_ge_0. apply bpow_lt. lia.
Qed.
Lemma one_value : B2R one64 = 1 /\ is_finite one64 = true.
Proof. exact (pow2_value 0 ltac:(lia)). Qed.

(** ** Operations on finite numbers *)
Lemma mul_finite x y : is_finite x = true -> is_finite y = true -> Rabs (r64 (B2R x * B2R y)) < bpow radix2 1024 ->
  B2R (mul64 x y) = r64 (B2R x * B2R y) /\ is_finite (mul64 x y) = true.
Proof.
  intros Fx Fy H. unfold mul64. pose proof (Bmult_correct 53 1024 eq_refl eq_refl mode_NE x y) as Q. cbn [round_mode] in Q. rewrite (Rlt_bool_true _ _ H), Fx, Fy in Q. destruct Q as (Q1 & Q2 & _). auto.
Qed.
Lemma finite_sign (x : b64) : is_finite x = true -> 0 < B2R x -> Bsign x = false.
Proof. destruct x as [s|s| |s m e He]; cbn; try reflexivity; try lra. intros _. destruct s; [|reflexivity]. intros H. exfalso. pose proof (F2R_lt_0 radix2 (Float radix2 (Z.neg m) e) eq_refl). cbn in *. lra. Qed.
Lemma overflow_inf x y : is_positive x -> is_positive y -> bpow radix2 1024 <= r64 (B2R x * B2R y) -> mul64 x y = B754_infinity false.
Proof.
  intros [Fx Px] [Fy Py] H. unfold mul64. pose proof (Bmult_correct 53 1024 eq_refl eq_refl mode_NE x y) as Q. cbn [round_mode] in Q.
  rewrite Rlt_bool_false in Q. 2: { rewrite Rabs_pos_eq; [exact H|]. apply Rle_trans with (2 := H). apply bpow_ge_0. }
  rewrite (finite_sign x Fx Px), (finite_sign y Fy Py) in Q. cbn in Q. destruct (Bmult mode_NE x y) as [s|s| |s m e He]; cbn in Q; try discriminate Q. injection Q as ->. reflexivity.
Qed.
Lemma round_le_bpow x e : (-1000 <= e <= 1023)%Z -> x <= bpow radix2 e -> r64 x <= bpow radix2 e.
Proof. intros He H. rewrite <- (round_bpow e He). apply round_le; [typeclasses eauto | typeclasses eauto | exact H]. Qed.
Lemma round_ge_bpow x e : (-1000 <= e <= 1023)%Z -> bpow radix2 e <= x -> bpow radix2 e <= r64 x.
Proof. intros He H. rewrite <- (round_bpow e He). apply round_le; [typeclasses eauto | typeclasses eauto | exact H]. Qed.
Lemma round_ge_top x : bpow radix2 1024 <= x -> bpow radix2 1024 <= r64 x.
Proof.
  intros H. rewrite <- (round_generic radix2 (SpecFloat.fexp 53 1024) ZnearestE (bpow radix2 1024)).
  - apply round_le; [typeclasses eauto | typeclasses eauto | exact H].
  - apply generic_format_bpow. unfold SpecFloat.fexp, SpecFloat.emin. lia.
Qed.

Section Norm.
  Variables (f : nat -> b64) (w : b64).
  Hypothesis Hf : factorial_function f.
  Lemma f_bounds n : (n <= 170)%nat -> is_positive (f n) /\
    IZR (zfact n) * (1 - bpow radix2 (-40)) <= B2R (f n) <= IZR (zfact n) * (1 + bpow radix2 (-40)).
  Proof.
    intros Hn. destruct (proj1 Hf n Hn) as [F A]. rewrite <- zfact_fact in A. pose proof (IZR_le _ _ (zfact_pos n)) as P.
    assert (S : 0 < bpow radix2 (-40) < 1) by (split; [apply bpow_gt_0 | change 1 with (bpow radix2 0); apply bpow_lt; lia]).
    apply Rabs_le_inv in A. assert (B : IZR (zfact n) * (1 - bpow radix2 (-40)) <= B2R (f n) <= IZR (zfact n) * (1 + bpow radix2 (-40))) by lra.
    split; [|exact B]. split; [exact F|]. apply Rlt_le_trans with (2 := proj1 B). apply Rmult_lt_0_compat; lra.
  Qed.
  Lemma e40 : bpow radix2 (-40) * IZR (2 ^ 40) = 1.
  Proof. rewrite <- bpow_IZR by lia. rewrite <- bpow_plus. reflexivity. Qed.
  Lemma product_small n : (n <= 150)%nat -> 1 / 2 <= bpow radix2 (Z.of_nat n) * B2R (f n) <= bpow radix2 1023.
  Proof.
    intros Hn. destruct (f_bounds n ltac:(lia)) as [_ [B1 B2]]. rewrite (bpow_IZR (Z.of_nat n)) by lia. pose proof e40 as E.
    assert (S : 0 < bpow radix2 (-40) <= 1 / 2) by (split; [apply bpow_gt_0 | change (1 / 2) with (1 * / 2); rewrite Rmult_1_l; change (/ 2) with (bpow radix2 (-1)); apply bpow_le; lia]).
    pose proof (IZR_le _ _ (zfact_pos n)) as P. assert (T : 1 <= IZR (2 ^ Z.of_nat n)) by (apply IZR_le; assert (0 < 2 ^ Z.of_nat n)%Z by (apply Z.pow_pos_nonneg; lia); lia). split.
    - apply Rle_trans with (1 * (1 / 2)); [lra|]. apply Rmult_le_compat; try lra. apply Rle_trans with (2 := B1). apply Rle_trans with (1 * (1 - bpow radix2 (-40))); [lra|]. apply Rmult_le_compat_r; lra.
    - apply Rle_trans with (IZR (2 ^ Z.of_nat n) * (IZR (zfact n) * (1 + bpow radix2 (-40)))); [apply Rmult_le_compat_l; lra|].
      rewrite <- Rmult_assoc, <- mult_IZR. fold (arg n).
      apply Rle_trans with (IZR (arg 150) * (1 + bpow radix2 (-40))); [apply Rmult_le_compat_r; [lra | apply IZR_le, arg_mono, Hn]|].
      apply Rmult_le_reg_r with (IZR (2 ^ 40)); [apply IZR_lt; reflexivity|]. rewrite (bpow_IZR 1023) by lia.
      replace (IZR (arg 150) * (1 + bpow radix2 (-40)) * IZR (2 ^ 40)) with (IZR (arg 150) * (IZR (2 ^ 40) + bpow radix2 (-40) * IZR (2 ^ 40))) by ring. rewrite E.
      rewrite <- mult_IZR, <- Z.pow_add_r by lia. change 1 with (IZR 1). rewrite <- plus_IZR, <- mult_IZR. apply IZR_le. apply Z.lt_le_incl. exact arg_150.
  Qed.
  Lemma product_large n : (151 <= n <= 170)%nat -> bpow radix2 1024 <= bpow radix2 (Z.of_nat n) * B2R (f n).
  Proof.
    intros Hn. destruct (f_bounds n ltac:(lia)) as [_ [B1 B2]]. rewrite (bpow_IZR 1024), (bpow_IZR (Z.of_nat n)) by lia. pose proof e40 as E.
    assert (S : 0 < bpow radix2 (-40) < 1) by (split; [apply bpow_gt_0 | change 1 with (bpow radix2 0); apply bpow_lt; lia]).
    assert (T : 0 <= IZR (2 ^ Z.of_nat n)) by (apply IZR_le; apply Z.pow_nonneg; lia).
    apply Rle_trans with (IZR (2 ^ Z.of_nat n) * (IZR (zfact n) * (1 - bpow radix2 (-40)))); [|apply Rmult_le_compat_l; lra].
    rewrite <- Rmult_assoc, <- mult_IZR. fold (arg n). apply Rle_trans with (IZR (arg 151) * (1 - bpow radix2 (-40))); [|apply Rmult_le_compat_r; [lra | apply IZR_le, arg_mono; lia]].
    apply Rmult_le_reg_r with (IZR (2 ^ 40)); [apply IZR_lt; reflexivity|].
    replace (IZR (arg 151) * (1 - bpow radix2 (-40)) * IZR (2 ^ 40)) with (IZR (arg 151) * (IZR (2 ^ 40) - bpow radix2 (-40) * IZR (2 ^ 40))) by ring. rewrite E.
    change 1 with (IZR 1). rewrite <- minus_IZR, <- !mult_IZR. apply IZR_le. exact arg_151.
  Qed.
  (** The part that does not depend on omega *)
  Definition root_part (n : nat) : b64 := div64 one64 (sqrt64 (mul64 (int64 (2 ^ Z.of_nat n)) (f n))).
  Lemma root_small n : (n <= 150)%nat -> is_finite (root_part n) = true /\ bpow radix2 (-512) <= B2R (root_part n) <= 2.
  Proof.
    intros Hn. destruct (pow2_value n ltac:(lia)) as [V2 F2]. destruct (f_bounds n ltac:(lia)) as [[Ff _] _]. pose proof (product_small n Hn) as [P1 P2].
    assert (Q1 : bpow radix2 (-1) <= r64 (bpow radix2 (Z.of_nat n) * B2R (f n))) by (apply round_ge_bpow; [lia | apply Rle_trans with (2 := P1); change (bpow radix2 (-1)) with (/ 2); lra]).
    assert (Q2 : r64 (bpow radix2 (Z.of_nat n) * B2R (f n)) <= bpow radix2 1023) by (apply round_le_bpow; [lia | exact P2]).
    destruct (mul_finite (int64 (2 ^ Z.of_nat n)) (f n) F2 Ff) as [M1 M2].
    { rewrite V2, Rabs_pos_eq; [apply Rle_lt_trans with (1 := Q2); apply bpow_lt; lia|]. apply Rle_trans with (2 := Q1). apply bpow_ge_0. }
    rewrite V2 in M1. unfold root_part. set (y := mul64 _ _) in *. set (v := r64 _) in *.
    assert (Hv : 0 < v) by (apply Rlt_le_trans with (2 := Q1); apply bpow_gt_0).
    pose proof (Bsqrt_correct 53 1024 eq_refl eq_refl mode_NE y) as (S1 & S2 & _). fold (sqrt64 y) in S1, S2. cbn [round_mode] in S1. rewrite M1 in S1.
    assert (Sf : is_finite (sqrt64 y) = true).
    { rewrite S2. destruct y as [s|s| |s m e He]; try discriminate M2; [reflexivity|]. pose proof (finite_sign (B754_finite s m e He) eq_refl ltac:(rewrite M1; exact Hv)) as Sg. cbn in Sg. rewrite Sg. reflexivity. }
    assert (R1 : bpow radix2 (-1) <= r64 (sqrt v)).
    { apply round_ge_bpow; [lia|]. rewrite <- (sqrt_Rsqr (bpow radix2 (-1))) by apply bpow_ge_0. apply sqrt_le_1_alt. unfold Rsqr. rewrite <- bpow_plus. apply Rle_trans with (2 := Q1). apply bpow_le. lia. }
    assert (R2 : r64 (sqrt v) <= bpow radix2 512).
    { apply round_le_bpow; [lia|]. rewrite <- (sqrt_Rsqr (bpow radix2 512)) by apply bpow_ge_0. apply sqrt_le_1_alt. unfold Rsqr. rewrite <- bpow_plus. apply Rle_trans with (1 := Q2). apply bpow_le. lia. }
    set (s := sqrt64 y) in *. assert (Ps : 0 < B2R s) by (rewrite S1; apply Rlt_le_trans with (2 := R1); apply bpow_gt_0).
    destruct one_value as [O1 O2].
    pose proof (Bdiv_correct 53 1024 eq_refl eq_refl mode_NE one64 s ltac:(lra)) as D. fold (div64 one64 s) in D. cbn [round_mode] in D. rewrite O1, O2, S1 in D.
    assert (D1 : bpow radix2 (-512) <= r64 (1 / r64 (sqrt v))).
    { apply round_ge_bpow; [lia|]. unfold Rdiv. rewrite Rmult_1_l. change (-512)%Z with (- (512))%Z. rewrite bpow_opp. apply Rinv_le; [apply Rlt_le_trans with (2 := R1); apply bpow_gt_0 | exact R2]. }
    assert (D2 : r64 (1 / r64 (sqrt v)) <= bpow radix2 1).
    { apply round_le_bpow; [lia|]. unfold Rdiv. rewrite Rmult_1_l. change (bpow radix2 1) with (bpow radix2 (- (-1))). rewrite bpow_opp. apply Rinv_le; [apply bpow_gt_0 | exact R1]. }
    rewrite Rlt_bool_true in D. 2: { rewrite Rabs_pos_eq; [apply Rle_lt_trans with (1 := D2); apply bpow_lt; lia | apply Rle_trans with (2 := D1); apply bpow_ge_0]. }
    destruct D as (D3 & D4 & _). split; [exact D4|]. rewrite D3. change (bpow radix2 1) with 2 in D2. split; assumption.
  Qed.
  Lemma root_large n : (151 <= n < 1024)%nat -> root_part n = B754_zero false.
  Proof.
    intros Hn. destruct (pow2_value n ltac:(lia)) as [V2 F2]. assert (P : is_positive (int64 (2 ^ Z.of_nat n))) by (split; [exact F2 | rewrite V2; apply bpow_gt_0]).
    assert (I : mul64 (int64 (2 ^ Z.of_nat n)) (f n) = B754_infinity false).
    { destruct (le_lt_dec n 170) as [H|H].
      - destruct (f_bounds n H) as [Pf _]. apply overflow_inf; [exact P | exact Pf|]. rewrite V2. apply round_ge_top, product_large. lia.
      - rewrite (proj2 Hf n H). pose proof (finite_sign _ (proj1 P) (proj2 P)) as Sg. unfold mul64. destruct (int64 (2 ^ Z.of_nat n)) as [s|s| |s m e He]; cbn in P; [destruct P as [_ P]; cbn in P; lra | destruct P; discriminate | destruct P; discriminate|].
        cbn in Sg. subst s. reflexivity. }
    unfold root_part. rewrite I. change (sqrt64 (B754_infinity false)) with (B754_infinity false : b64).
    destruct one_value as [O1 O2]. pose proof (finite_sign one64 O2 ltac:(rewrite O1; lra)) as Sg. unfold div64. destruct one64 as [s|s| |s m e He]; try discriminate O2; [cbn in O1; lra|]. cbn in Sg. subst s. reflexivity.
  Qed.
  Lemma norm_value n : (n < 1024)%nat -> normalization64 f w n = Some (mul64 (root_part n) w).
  Proof. intros H. unfold normalization64, pow2_64. rewrite (proj2 (Nat.ltb_lt n 1024) H). reflexivity. Qed.
  Lemma norm_positive n : (n <= 150)%nat -> is_finite w = true -> bpow radix2 (-200) <= B2R w <= bpow radix2 200 -> exists v, normalization64 f w n = Some v /\ is_positive v.
  Proof.
    intros Hn Fw [W1 W2]. rewrite norm_value by lia. eexists. split; [reflexivity|]. destruct (root_small n Hn) as [Fr [R1 R2]].
    assert (P1 : bpow radix2 (-712) <= r64 (B2R (root_part n) * B2R w)).
    { apply round_ge_bpow; [lia|]. change (-712)%Z with (-512 + -200)%Z. rewrite bpow_plus. apply Rmult_le_compat; try assumption; apply bpow_ge_0. }
    assert (P2 : r64 (B2R (root_part n) * B2R w) <= bpow radix2 201).
    { apply round_le_bpow; [lia|]. change 201%Z with (1 + 200)%Z. rewrite bpow_plus. apply Rmult_le_compat; try assumption; [apply Rle_trans with (2 := R1) | apply Rle_trans with (2 := W1)]; apply bpow_ge_0. }
    destruct (mul_finite (root_part n) w Fr Fw) as [M1 M2].
    { rewrite Rabs_pos_eq; [apply Rle_lt_trans with (1 := P2); apply bpow_lt; lia | apply Rle_trans with (2 := P1); apply bpow_ge_0]. }
    split; [exact M2|]. rewrite M1. apply Rlt_le_trans with (2 := P1). apply bpow_gt_0.
  Qed.
  Lemma mul_zero s (x : b64) : useless (mul64 (B754_zero s) x).
  Proof. unfold mul64. destruct x; cbn; [right; auto | left; reflexivity | left; reflexivity | right; auto]. Qed.
  Lemma mul_useless (x y : b64) : useless x -> useless (mul64 x y).
  Proof.
    intros [H|[F Z]]; [left; destruct x; try discriminate H; reflexivity|].
    destruct x as [s|s| |s m e He]; try discriminate F; [apply mul_zero|]. exfalso. cbn in Z. destruct s; cbn in Z.
    - pose proof (F2R_lt_0 radix2 (Float radix2 (Z.neg m) e) eq_refl). lra.
    - pose proof (F2R_gt_0 radix2 (Float radix2 (Z.pos m) e) eq_refl). lra.
  Qed.
  Lemma mul_useless_r (x y : b64) : useless y -> useless (mul64 x y).
  Proof.
    intros [H|[F Z]]; [left; destruct y; try discriminate H; destruct x; reflexivity|].
    destruct y as [s|s| |s m e He]; try discriminate F; [unfold mul64; destruct x; cbn; [right; auto | left; reflexivity | left; reflexivity | right; auto]|]. exfalso. cbn in Z. destruct s; cbn in Z.
    - pose proof (F2R_lt_0 radix2 (Float radix2 (Z.neg m) e) eq_refl). lra.
    - pose proof (F2R_gt_0 radix2 (Float radix2 (Z.pos m) e) eq_refl). lra.
  Qed.
  Lemma div_useless (x y : b64) : useless x -> useless (div64 x y).
  Proof.
    intros [H|[F Z]]; [left; destruct x; try discriminate H; reflexivity|].
    destruct x as [s|s| |s m e He]; try discriminate F.
    - unfold div64. destruct y; cbn; [left; reflexivity | right; auto | left; reflexivity | right; auto].
    - exfalso. cbn in Z. destruct s; cbn in Z; [pose proof (F2R_lt_0 radix2 (Float radix2 (Z.neg m) e) eq_refl) | pose proof (F2R_gt_0 radix2 (Float radix2 (Z.pos m) e) eq_refl)]; lra.
  Qed.
  Lemma norm_useless n : (151 <= n < 1024)%nat -> exists v, normalization64 f w n = Some v /\ useless v.
  Proof. intros Hn. rewrite norm_value by lia. eexists. split; [reflexivity|]. rewrite root_large by exact Hn. apply mul_zero. Qed.
  Lemma norm_zero n : (151 <= n < 1024)%nat -> is_positive w -> normalization64 f w n = Some (B754_zero false).
  Proof.
    intros Hn [F P]. rewrite norm_value by lia. rewrite root_large by exact Hn. f_equal. pose proof (finite_sign w F P) as Sg. unfold mul64. destruct w as [s|s| |s m e He]; try discriminate F; cbn in Sg; subst s; reflexivity.
  Qed.
  Lemma norm_raises n : (1024 <= n)%nat -> normalization64 f w n = None.
  Proof. intros H. unfold normalization64, pow2_64. rewrite (proj2 (Nat.ltb_ge n 1024) H). reflexivity. Qed.
  Lemma function_useless n e p : (151 <= n < 1024)%nat -> exists v, ho_function64 f w n e p = Some v /\ useless v.
  Proof.
    intros Hn. destruct (norm_useless n Hn) as (v & E & U). unfold ho_function64. rewrite E. eexists. split; [reflexivity|]. apply mul_useless, mul_useless, U.
  Qed.
  Lemma dipole_useless sp om n : (150 <= n)%nat -> (S n < 1024)%nat -> exists v, dipole64 f w sp om n = Some v /\ useless v.
  Proof.
    intros Hn Hn'. destruct (norm_useless (S n) ltac:(lia)) as (v & E & U). unfold dipole64. rewrite E. rewrite norm_value by lia. unfold pow2_64. rewrite (proj2 (Nat.ltb_lt n 1024)) by lia.
    eexists. split; [reflexivity|]. apply div_useless. do 4 apply mul_useless. apply mul_useless_r, U.
  Qed.
End Norm.

(** ** A factorial function *)
Definition rounded_fact (n : nat) : b64 := int64 (zfact n).
Lemma top_170 : (zfact 170 < 2 ^ 1023)%Z.
Proof. vm_compute. reflexivity. Qed.
Lemma top_171 : (2 ^ 1024 <= zfact 171)%Z.
Proof. vm_compute. discriminate. Qed.
Lemma rounded_ok : factorial_function rounded_fact.
Proof.
  assert (E : forall n, F2R (Float radix2 (zfact n) 0) = IZR (zfact n)) by (intros n; unfold F2R; cbn [Fnum Fexp bpow]; ring).
  split; intros n Hn; unfold rounded_fact, int64; pose proof (binary_normalize_correct 53 1024 eq_refl eq_refl mode_NE (zfact n) 0 false) as Q; cbv zeta in Q; rewrite E in Q; cbn [round_mode] in Q; pose proof (IZR_le _ _ (zfact_pos n)) as P.
  - assert (U : r64 (IZR (zfact n)) <= bpow radix2 1023).
    { apply round_le_bpow; [lia|]. rewrite bpow_IZR by lia. apply IZR_le. apply Z.le_trans with (zfact 170); [apply zfact_mono, Hn | apply Z.lt_le_incl, top_170]. }
    rewrite Rlt_bool_true in Q.
    2: { rewrite Rabs_pos_eq; [apply Rle_lt_trans with (1 := U); apply bpow_lt; lia|]. apply Rle_trans with (bpow radix2 0); [apply bpow_ge_0|]. apply round_ge_bpow; [lia | exact P]. }
    destruct Q as (Q1 & Q2 & _). split; [exact Q2|]. rewrite Q1, <- zfact_fact.
    apply Rle_trans with (/ 2 * bpow radix2 (-53 + 1) * Rabs (IZR (zfact n))).
    + apply (relative_error_N_FLT radix2 (SpecFloat.emin 53 1024) 53 ltac:(reflexivity) (fun x => negb (Z.even x)) (IZR (zfact n))).
      rewrite Rabs_pos_eq by lra. apply Rle_trans with (2 := P). change 1 with (bpow radix2 0). apply bpow_le. unfold SpecFloat.emin. lia.
    + rewrite Rabs_pos_eq by lra. apply Rmult_le_compat_r; [lra|]. change (/ 2) with (bpow radix2 (-1)). rewrite <- bpow_plus. apply bpow_le. lia.
  - assert (U : bpow radix2 1024 <= IZR (zfact n)).
    { rewrite bpow_IZR by lia. apply IZR_le. apply Z.le_trans with (zfact 171); [exact top_171 | apply zfact_mono; lia]. }
    rewrite Rlt_bool_false in Q. 2: { rewrite Rabs_pos_eq; [apply round_ge_top, U|]. apply Rle_trans with (2 := round_ge_top _ U). apply bpow_ge_0. }
    rewrite Rlt_bool_false in Q by lra. cbn in Q. destruct (binary_normalize _ _ _ _ _ _ _ _) as [s|s| |s m e He]; cbn in Q; try discriminate Q. injection Q as ->. reflexivity.
Qed.
