(** Sign changes of sampled functions, and functions that are even or odd about the middle
    of the grid. *)
From Coq Require Import List Arith Reals.
From Coquelicot Require Import Coquelicot.
Import ListNotations.
Open Scope R_scope.

(** Sign changes in a list of numbers; zeros are skipped. [last] is the last number before
    the list that is not zero (or zero if there is none). *)
Fixpoint flips (last : R) (l : list R) : nat :=
  match l with
  | [] => 0
  | x :: rest => ((if Rlt_dec (last * x) 0 then 1 else 0) + flips (if Req_EM_T x 0 then last else x) rest)%nat
  end.
Definition nodes (N : nat) (f : nat -> R) : nat := flips 0 (map f (seq 0 N)).
(** Samples at N points: value at the mirrored point *)
Definition mirror (N i : nat) : nat := (N - 1 - i)%nat.
(** 1 or -1 *)
Definition sign (p : nat) : R := (-1) ^ p.
