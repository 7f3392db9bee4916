(** Positive interactions. *)
From Coq Require Import Arith Reals.
From Coquelicot Require Import Coquelicot.
From Verif Require Import Scalar ScalarC GridSpec.
Open Scope R_scope.

(** u[p,q,r,s] is the interaction of the products conj(p) r and conj(q) s.  The distribution
    sum x_pr conj(p) r has the complex conjugate sum conj(x_sq) conj(q) s, and the energy of
    any distribution interacting with its own complex conjugate is not negative. *)
Definition self_energy (l : nat) (u : nat -> nat -> nat -> nat -> C) (x : nat -> nat -> C) : C :=
  sumn (K := CC) l (fun p => sumn (K := CC) l (fun q => sumn (K := CC) l (fun r => sumn (K := CC) l (fun s =>
    (x p r * Cconj (x s q) * u p q r s)%C)))).
Definition positive_interaction (l : nat) (u : nat -> nat -> nat -> nat -> C) : Prop :=
  forall x : nat -> nat -> C, nonneg (self_energy l u x).
(** The same for a two-index interaction between points *)
Definition positive_matrix (l : nat) (v : nat -> nat -> C) : Prop :=
  forall z : nat -> C, nonneg (sumn (K := CC) l (fun i => sumn (K := CC) l (fun j => (z i * Cconj (z j) * v i j)%C))).
