(** Real sums and non-negative complex numbers. *)
From Coq Require Import Reals Arith.
From Coquelicot Require Import Coquelicot.
Open Scope R_scope.

Fixpoint rsum (n : nat) (f : nat -> R) : R := match n with O => 0 | S k => rsum k f + f k end.
(** A real number that is not negative *)
Definition nonneg (z : C) : Prop := Im z = 0 /\ 0 <= Re z.
(** Two electrons repel each other, with unequal spins and with equal spins. *)
Definition repulsive (n : nat) (u : nat -> nat -> nat -> nat -> C) : Prop :=
  forall p q, (p < n)%nat -> (q < n)%nat -> nonneg (u p q p q) /\ nonneg (u p q p q - u p q q p)%C.
