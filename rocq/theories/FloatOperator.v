(** Floating point: the time-dependent Hamiltonian of the time-evolution operators.  Elements
    are complex128 as in FloatModel.v.  The pulse, the switching function, the weight and the
    polarization have been evaluated at the time asked for; a real value x is x + 0j. *)
From Coq Require Import List Arith Reals.
From Coquelicot Require Import Coquelicot.
From Verif Require Import FloatModel.
Import ListNotations.

(** operator.py:88-108 LaserField.h_t: system.h + pulse(t) * np.tensordot(polarization(t),
    system.dipole_moment, axes=(0, 0)), with [dim] components of the dipole moment *)
Definition laser_h (dim : nat) (h : nat -> nat -> C) (dip : nat -> nat -> nat -> C) (pol : nat -> C) (pulse : C)
    (p q : nat) (z : C) : Prop :=
  exists w v, cdotted (map (fun i => (pol i, dip i p q)) (seq 0 dim)) w /\ cmul pulse w v /\ z = cadd (h p q) v.

(** operator.py:95-98: np.zeros with a one in the first place *)
Definition default_polarization (i : nat) : C := if (i =? 0)%nat then RtoC 1 else RtoC 0.

(** operator.py:122-125 AdiabaticSwitching.u_t: switching_function(t) * system.u *)
Definition switched_u (u : nat -> nat -> nat -> nat -> C) (weight : C) (p q r s : nat) (z : C) : Prop :=
  cmul weight (u p q r s) z.

(** operator.py:137-144 CustomOneBodyOperator.h_t: system.h + weight(t) * operator *)
Definition custom_h (h op : nat -> nat -> C) (weight : C) (p q : nat) (z : C) : Prop :=
  exists v, cmul weight (op p q) v /\ z = cadd (h p q) v.
