(** Energies of a given number of electrons, and eigenvalues of matrices. *)
From Coq Require Import Arith Reals.
From Coquelicot Require Import Coquelicot.
From Verif Require Import Scalar ScalarC Systems FockSpec InnerSpec RaiseSpec.
Open Scope R_scope.

(** E is an exact energy of m electrons with spin in l orbitals with elements h and u. *)
Definition exact_energy (k : kind) (l : nat) (h : nat -> nat -> C) (u : nat -> nat -> nat -> nat -> C) (m : nat) (E : R) : Prop :=
  exists Psi : state CC, particle_state (spin_orbitals k l) m Psi /\ eigenstate (K := CC) (spin_orbitals k l) (many_body k l h u) (RtoC E) Psi.
(** e is an eigenvalue of the l by l matrix A. *)
Definition eigenvalue (l : nat) (A : nat -> nat -> C) (e : R) : Prop :=
  exists c : nat -> C, (exists p, (p < l)%nat /\ c p <> RtoC 0) /\
    forall p, (p < l)%nat -> sumn (K := CC) l (fun q => (A p q * c q)%C) = (RtoC e * c p)%C.
