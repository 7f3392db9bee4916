(** Basis sets whose orbitals are in turn even and odd about the middle of the grid. *)
From Coq Require Import List Arith Reals.
From Coquelicot Require Import Coquelicot.
From Verif Require Import Scalar ScalarC Numpy Spec BasisSet NodeSpec OneDim OneDimSpec Potentials.
Import ListNotations.
Open Scope R_scope.

Definition alternates (l N : nat) (b : basis CC) : Prop :=
  exists spf, b_arr b F_spf = Some spf /\ shape spf = [l; N] /\
    forall p i, (p < l)%nat -> (i < N)%nat -> get spf [p; mirror N i] = (RtoC (sign p) * get spf [p; i])%C.
(** The interaction only connects pairs of orbitals of the same total parity. *)
Definition interaction_rule (l : nat) (b : basis CC) : Prop :=
  exists u, b_arr b F_u = Some u /\ forall p q r s, (p < l)%nat -> (q < l)%nat -> (r < l)%nat -> (s < l)%nat ->
    Nat.odd (p + q + r + s) = true -> ten u p q r s = RtoC 0.
(** A matrix that does not couple even and odd orbitals *)
Definition odd_zero (l : nat) (m : nat -> nat -> C) : Prop := forall p q, (p < l)%nat -> (q < l)%nat -> Nat.odd (p + q) = true -> m p q = RtoC 0.
(** What numpy documents for the one call of eigh made by the constructor *)
Definition solves (L : R) (N : nat) (V : R -> R) (eigh : nat -> (nat -> nat -> R) -> (nat -> R) * (nat -> nat -> R)) : Prop :=
  eigenbasis (N - 2) (grid_hamiltonian L N V) (fst (eigh (N - 2)%nat (grid_hamiltonian L N V))) (snd (eigh (N - 2)%nat (grid_hamiltonian L N V))).
(** Parameters for which a potential of the library is an even function *)
Definition symmetric (p : potential) : Prop :=
  match p with
  | AsymmetricDW _ b _ => b = 0
  | Gaussian w c _ | GaussianHardWall w c _ _ => c = 0 \/ w = 0
  | _ => True
  end.
