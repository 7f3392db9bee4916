(** What it means to compare the exact energies of two sets of orbitals. *)
From Coq Require Import List Arith ZArith Reals Lia.
From Coquelicot Require Import Coquelicot.
From Verif Require Import Scalar ScalarC Py Numpy BasisSet Spec Systems FockSpec RaiseSpec FockSpectrumSpec.
Import ListNotations.
Open Scope R_scope.

(** Columns 0, ..., n - 1 of M are orthonormal. *)
Definition orthonormal_columns (l n : nat) (M : nat -> nat -> C) : Prop := forall p q, (p < n)%nat -> (q < n)%nat -> mmul (K := CC) l (adj (K := CC) M) M p q = delta (K := CC) p q.
(** For every number m of electrons, no energy of the l' spatial orbitals of b' is above the one in
    the same place among those of the l orbitals of b. *)
Definition never_raised (l l' : nat) (b b' : basis CC) : Prop :=
  exists h u h' u', b_arr b F_h = Some h /\ b_arr b F_u = Some u /\ b_arr b' F_h = Some h' /\ b_arr b' F_u = Some u' /\
  forall m, exists E Psi E' Psi',
    spectrum (2 * l) (many_body Spatial l (mat h) (ten u)) m (choose (2 * l) m) E Psi /\
    spectrum (2 * l') (many_body Spatial l' (mat h') (ten u')) m (choose (2 * l') m) E' Psi' /\
    forall p, (p < choose (2 * l) m)%nat -> (p < choose (2 * l') m)%nat /\ E' p <= E p.
