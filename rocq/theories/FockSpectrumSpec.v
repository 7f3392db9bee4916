(** The spectrum of an operator on the states of N particles. *)
From Coq Require Import Arith Reals.
From Coquelicot Require Import Coquelicot.
From Verif Require Import Scalar ScalarC OneDimSpec FockSpec InnerSpec.
Open Scope R_scope.

(** States Psi 0, ..., Psi (d - 1): an orthonormal basis of the space of N particles, made of
    eigenstates of X; the eigenvalues E ascend. *)
Record spectrum (l : nat) (X : state CC -> state CC) (N d : nat) (E : nat -> R) (Psi : nat -> state CC) : Prop := Spectrum {
  sp_state : forall p, (p < d)%nat -> particle_state l N (Psi p) /\ eigenstate (K := CC) l X (RtoC (E p)) (Psi p);
  sp_orthonormal : forall p q, (p < d)%nat -> (q < d)%nat -> inner l (Psi p) (Psi q) = kronecker p q;
  sp_ascending : forall p q, (p <= q)%nat -> (q < d)%nat -> E p <= E q;
  sp_complete : forall f, particle_state l N f -> forall o, among l o ->
    f o = sumn (K := CC) d (fun p => (inner l (Psi p) f * Psi p o)%C)
}.
(** The number of ways to choose k of n things *)
Fixpoint choose (n k : nat) : nat :=
  match n, k with
  | _, O => 1
  | O, S _ => 0
  | S n', S k' => choose n' k' + choose n' k
  end.
