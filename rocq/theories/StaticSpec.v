(** Quantum dots that are symmetric about their middle, in a uniform static field. *)
From Coq Require Import List Arith ZArith Reals.
From Coquelicot Require Import Coquelicot.
From Verif Require Import Scalar ScalarC Py Numpy BasisSet Spec Systems FockSpec RaiseSpec FockSpectrumSpec SharpSpec.
Import ListNotations.
Open Scope R_scope.

(** The matrix d connects different quantum numbers only. *)
Definition reverses (l : nat) (t : label) (d : nat -> nat -> C) : Prop :=
  forall p q, (p < l)%nat -> (q < l)%nat -> d p q <> RtoC 0 -> ~ alike t (charge t p) (charge t q).
(** One-body elements in a field of strength F *)
Definition in_field (h d : nat -> nat -> C) (F : R) (p q : nat) : C := (h p q + RtoC F * d p q)%C.
(** The component of the dipole moment along a vector *)
Definition along (axes : nat) (d : arr CC) (v : nat -> R) (p q : nat) : C := sumn (K := CC) axes (fun i => (RtoC (v i) * get d [i; p; q])%C).
(** For a basis set of l orbitals with a dipole moment of the given number of components: the exact
    energies of any number of electrons are the same in opposite fields, along any axis, and in a
    stronger field the least energy is not higher. *)
Definition field_symmetric (l axes : nat) (b : basis CC) : Prop :=
  exists h u d, b_arr b F_h = Some h /\ b_arr b F_u = Some u /\ b_arr b F_dip = Some d /\ shape d = [axes; l; l] /\
  forall k v m, let X F := many_body k l (in_field (mat h) (along axes d v) F) (ten u) in let n := spin_orbitals k l in
    (forall F, exists E Psi Psi', spectrum n (X F) m (choose n m) E Psi /\ spectrum n (X (- F)) m (choose n m) E Psi') /\
    (forall F F' E Psi E' Psi', (m <= n)%nat -> Rabs F <= Rabs F' -> spectrum n (X F) m (choose n m) E Psi -> spectrum n (X F') m (choose n m) E' Psi' -> E' O <= E O).
