(** What it means that a basis set continues a smaller one. *)
From Coq Require Import List Arith ZArith Reals Lia.
From Coquelicot Require Import Coquelicot.
From Verif Require Import Scalar ScalarC Py Numpy BasisSet.
Import ListNotations.

(** The arrays x and x' are set and have the same elements with all orbital indices below l;
    [index] puts the orbital indices and the other ones in place. *)
Definition same_elements (l : nat) (x x' : option (arr CC)) (index : list nat -> list nat -> list nat) (orbitals others : nat) : Prop :=
  exists a a', x = Some a /\ x' = Some a' /\
  forall ps is, length ps = orbitals -> length is = others -> List.Forall (fun p => (p < l)%nat) ps -> get a (index ps is) = get a' (index ps is).
(** Matrix elements, dipole moments and orbitals on the grid of the first l orbitals of b' are
    those of b. *)
Record continues (l : nat) (b b' : basis CC) : Prop := {
  co_dim : b_dim b = b_dim b';
  co_h : same_elements l (b_arr b F_h) (b_arr b' F_h) (fun ps _ => ps) 2 0;
  co_s : same_elements l (b_arr b F_s) (b_arr b' F_s) (fun ps _ => ps) 2 0;
  co_u : same_elements l (b_arr b F_u) (b_arr b' F_u) (fun ps _ => ps) 4 0;
  co_dip : same_elements l (b_arr b F_dip) (b_arr b' F_dip) (fun ps is => is ++ ps) 2 1;
  co_spf : same_elements l (b_arr b F_spf) (b_arr b' F_spf) (fun ps is => ps ++ is) 1 (b_dim b)
}.
