(** Vocabulary for overflow. *)
From Coq Require Import Arith ZArith Reals Factorial.
From Flocq Require Import Core BinarySingleNaN.
Open Scope R_scope.

Notation float64 := (binary_float 53 1024).
Definition is_positive (x : float64) : Prop := is_finite x = true /\ 0 < B2R x.
(** Zero of either sign, or not a number *)
Definition useless (x : float64) : Prop := is_nan x = true \/ (is_finite x = true /\ B2R x = 0).
(** A factorial function with twelve correct digits that gives infinity where the result
    exceeds the largest float *)
Definition factorial_function (f : nat -> float64) : Prop :=
  (forall n, (n <= 170)%nat -> is_finite (f n) = true /\ Rabs (B2R (f n) - INR (fact n)) <= bpow radix2 (-40) * INR (fact n)) /\
  (forall n, (170 < n)%nat -> f n = B754_infinity false).
(** Relative error at most d *)
Definition near (d x y : R) : Prop := (1 - d) * x <= y <= (1 + d) * x.
