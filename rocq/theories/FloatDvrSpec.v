(** What is asked of the squares computed by the C library. *)
From Coq Require Import Reals.
From Flocq Require Import Core.
From Verif Require Import FloatModel FloatSpec.
Open Scope R_scope.
(** A float64 that misses the square by at most two units of roundoff, away from underflow *)
Definition good_square (sq : R -> R) : Prop :=
  forall x, float x -> bpow radix2 (-1000) <= x ^ 2 -> float (sq x) /\ within (2 * unit_roundoff) (x ^ 2) (sq x).
