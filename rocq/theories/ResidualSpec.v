(** What is left of a state after the Schroedinger equation. *)
From Coq Require Import Reals.
From Coquelicot Require Import Coquelicot.
From Verif Require Import Scalar ScalarC FockSpec.
Open Scope R_scope.

(** X f - x f: null if and only if f solves the stationary Schroedinger equation with energy x *)
Definition residual (X : state CC -> state CC) (x : R) (f : state CC) : state CC := fun o => (X f o - RtoC x * f o)%C.
