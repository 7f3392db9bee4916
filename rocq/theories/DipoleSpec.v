(** Transitions between the states of a basis set in a uniform electric field. *)
From Coq Require Import List Arith ZArith Reals.
From Coquelicot Require Import Coquelicot.
From Verif Require Import Scalar ScalarC Numpy Spec BasisSet GridSpec LadderSpec.
Import ListNotations.
Open Scope R_scope.

Definition squared (z : C) : R := Re z ^ 2 + Im z ^ 2.
(** [h] is diagonal with real entries [e p]. *)
Definition levels_of (l : nat) (h : arr CC) (e : nat -> R) : Prop :=
  forall p q, (p < l)%nat -> (q < l)%nat -> mat h p q = if (p =? q)%nat then RtoC (e p) else RtoC 0.
(** The array of x and y between the states of a table *)
Definition dipole_table (l : nat) (mass omega : R) (state : nat -> Z * Z) (b : basis CC) : Prop :=
  exists d, b_arr b F_dip = Some d /\ shape d = [2; l; l]%nat /\ forall p q, (p < l)%nat -> (q < l)%nat ->
    get d [0; p; q]%nat = x_element mass omega (state p) (state q) /\ get d [1; p; q]%nat = y_element mass omega (state p) (state q).
(** Light polarised along an axis only connects states whose energies differ by one of the
    [jumps]. *)
Definition connects (axes l : nat) (jumps : list R) (b : basis CC) : Prop :=
  exists h d e, b_arr b F_h = Some h /\ b_arr b F_dip = Some d /\ levels_of l h e /\
    forall i p q, (i < axes)%nat -> (p < l)%nat -> (q < l)%nat -> get d [i; p; q] <> RtoC 0 -> In (e p - e q) jumps.
(** Circularly polarised light: the matrix of x + i y *)
Definition connects_turning (l : nat) (jumps : list R) (b : basis CC) : Prop :=
  exists h d e, b_arr b F_h = Some h /\ b_arr b F_dip = Some d /\ levels_of l h e /\
    forall p q, (p < l)%nat -> (q < l)%nat -> (get d [0; p; q]%nat + Ci * get d [1; p; q]%nat)%C <> RtoC 0 -> In (e p - e q) jumps.
(** Oscillator strengths (Thomas, Reiche and Kuhn) and the mean square of each coordinate in
    state [p], by summing over all states of the basis set *)
Definition sum_rules (axes l : nat) (mass square : R) (b : basis CC) (p : nat) : Prop :=
  exists h d e, b_arr b F_h = Some h /\ b_arr b F_dip = Some d /\ levels_of l h e /\
    forall i, (i < axes)%nat ->
    rsum l (fun q => (e q - e p) * squared (get d [i; p; q])) = 1 / (2 * mass) /\
    rsum l (fun q => squared (get d [i; p; q])) = square.
