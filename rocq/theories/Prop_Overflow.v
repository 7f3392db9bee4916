(** C124: overflow in the one-dimensional oscillator functions. *)
From Coq Require Import Arith ZArith Reals Lra Lia Factorial.
From Flocq Require Import Core BinarySingleNaN.
From Verif Require Import FloatOverflow OverflowSpec OverflowProofs OverflowAccuracy.
Open Scope R_scope.

(** C124. False from orbital 151 on. *)
Definition C124_claim : Prop :=
  forall (factorial : nat -> b64) quarter, factorial_function factorial -> is_finite quarter = true -> bpow radix2 (-200) <= B2R quarter <= bpow radix2 200 ->
  forall n, (n < 1024)%nat -> exists v, normalization64 factorial quarter n = Some v /\ is_positive v.
Theorem C124_refuted : ~ C124_claim.
Proof.
  intros H. destruct one_value as [O1 O2].
  assert (B : bpow radix2 (-200) <= B2R one64 <= bpow radix2 200) by (rewrite O1; change 1 with (bpow radix2 0); split; apply bpow_le; lia).
  destruct (H rounded_fact one64 rounded_ok O2 B 151%nat ltac:(lia)) as (v & E & _ & P).
  rewrite (norm_zero rounded_fact one64 rounded_ok 151 ltac:(lia)) in E by (split; [exact O2 | rewrite O1; lra]). injection E as <-. cbn in P. lra.
Qed.
Print Assumptions C124_refuted.
(** Up to orbital 150 the factor has ten correct digits, ... *)
Theorem C124_normal_partial :
  forall (factorial : nat -> b64) quarter, factorial_function factorial -> forall n, (n <= 150)%nat ->
  is_finite quarter = true -> bpow radix2 (-200) <= B2R quarter <= bpow radix2 200 ->
  exists v, normalization64 factorial quarter n = Some v /\ is_positive v /\
    near (bpow radix2 (-35)) (/ sqrt (2 ^ n * INR (fact n)) * B2R quarter) (B2R v).
Proof. exact norm_accurate. Qed.
Print Assumptions C124_normal_partial.
(** ... after that it is zero, ... *)
Theorem C124_zero :
  forall (factorial : nat -> b64) quarter, factorial_function factorial -> forall n, (151 <= n < 1024)%nat -> is_positive quarter ->
  normalization64 factorial quarter n = Some (B754_zero false).
Proof. exact norm_zero. Qed.
Print Assumptions C124_zero.
(** ... so that every value of those orbitals is zero or not a number, ... *)
Theorem C124_functions :
  forall (factorial : nat -> b64) quarter, factorial_function factorial -> forall n e p, (151 <= n < 1024)%nat ->
  exists v, ho_function64 factorial quarter n e p = Some v /\ useless v.
Proof. exact function_useless. Qed.
Print Assumptions C124_functions.
(** ... and so are the dipole matrix elements from the one between 150 and 151 on. *)
Theorem C124_dipole :
  forall (factorial : nat -> b64) quarter, factorial_function factorial -> forall sqrt_pi omega n, (150 <= n)%nat -> (S n < 1024)%nat ->
  exists v, dipole64 factorial quarter sqrt_pi omega n = Some v /\ useless v.
Proof. exact dipole_useless. Qed.
Print Assumptions C124_dipole.
Theorem C124_raises : forall (factorial : nat -> b64) quarter n, (1024 <= n)%nat -> normalization64 factorial quarter n = None.
Proof. exact norm_raises. Qed.
Print Assumptions C124_raises.
Example C124_instance : factorial_function rounded_fact /\ is_positive one64 /\ bpow radix2 (-200) <= B2R one64 <= bpow radix2 200.
Proof.
  destruct one_value as [O1 O2]. split; [exact rounded_ok|]. split; [split; [exact O2 | rewrite O1; lra]|].
  rewrite O1. change 1 with (bpow radix2 0). split; apply bpow_le; lia.
Qed.
