(** Eigenvalue decompositions of Hermitian matrices. *)
From Coq Require Import Arith Reals.
From Coquelicot Require Import Coquelicot.
From Verif Require Import Scalar ScalarC Spec OneDimSpec.
Open Scope R_scope.

(** Numbers w and columns v: an orthonormal basis of eigenvectors of the complex n x n matrix
    h, eigenvalues real and ascending *)
Record eigensystem (n : nat) (h : nat -> nat -> C) (w : nat -> R) (v : nat -> nat -> C) : Prop := Eigensystem {
  es_orthonormal : forall p q, (p < n)%nat -> (q < n)%nat ->
    sumn (K := CC) n (fun i => (Cconj (v i p) * v i q)%C) = kronecker p q;
  es_eigen : forall i p, (i < n)%nat -> (p < n)%nat ->
    sumn (K := CC) n (fun j => (h i j * v j p)%C) = (RtoC (w p) * v i p)%C;
  es_ascending : forall p q, (p <= q)%nat -> (q < n)%nat -> w p <= w q
}.

(** The columns of the l x l matrix M are orthonormal. *)
Definition unitary (l : nat) (M : nat -> nat -> C) : Prop := forall p q, (p < l)%nat -> (q < l)%nat -> mmul (K := CC) l (adj (K := CC) M) M p q = delta (K := CC) p q.
