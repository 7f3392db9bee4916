(** What is meant by orthonormal orbitals, the finite-difference Hamiltonian and an
    eigenvalue decomposition. *)
From Coq Require Import Reals Arith.
From Coquelicot Require Import Coquelicot.
From Verif Require Import Scalar ScalarC.
Open Scope R_scope.

Definition kronecker (p q : nat) : C := if (p =? q)%nat then RtoC 1 else RtoC 0.
(** The trapezoidal rule for samples [f] at the points [x], term by term *)
Fixpoint trapezoid (n : nat) (f : nat -> C) (x : nat -> R) : C :=
  match n with
  | O => RtoC 0
  | S k => match k with O => RtoC 0 | S j => (trapezoid k f x + RtoC ((x k - x j) / 2) * (f j + f k))%C end
  end.
(** Numbers w and columns v: an orthonormal eigenbasis of the real matrix h, eigenvalues
    in ascending order (what numpy documents for eigh) *)
Record eigenbasis (n : nat) (h : nat -> nat -> R) (w : nat -> R) (v : nat -> nat -> R) : Prop := Eigenbasis {
  eb_orthonormal : forall p q, (p < n)%nat -> (q < n)%nat ->
    sumn (K := CC) n (fun i => (RtoC (v i p) * RtoC (v i q))%C) = kronecker p q;
  eb_eigen : forall i p, (i < n)%nat -> (p < n)%nat ->
    sumn (K := CC) n (fun j => (RtoC (h i j) * RtoC (v j p))%C) = (RtoC (w p) * RtoC (v i p))%C;
  eb_ascending : forall p q, (p <= q)%nat -> (q < n)%nat -> w p <= w q
}.
(** (-1/2 d^2/dx^2 + V) f at grid point i, second-order central differences *)
Definition difference_hamiltonian (dx : R) (V : R -> R) (x : nat -> R) (f : nat -> C) (i : nat) : C :=
  (RtoC (- / (2 * dx ^ 2))%R * (f (i + 1)%nat - RtoC 2 * f i + f (i - 1)%nat) + RtoC (V (x i)) * f i)%C.

(** The integral over the whole line *)
Definition whole_line (f : R -> R) (v : R) : Prop := is_RInt_gen f (Rbar_locally m_infty) (Rbar_locally p_infty) v.
(** g = (-1/2 d^2/dx^2 + V) f *)
Definition line_hamiltonian (V f g : R -> R) : Prop :=
  exists f' f'', (forall x, is_derive f x (f' x)) /\ (forall x, is_derive f' x (f'' x)) /\ forall x, g x = - f'' x / 2 + V x * f x.
(** Point i of N equally spaced ones from -L to L, and their distance *)
Definition point (L : R) (N i : nat) : R := - L + 2 * L * INR i / INR (N - 1).
Definition spacing (L : R) (N : nat) : R := 2 * L / INR (N - 1).
