(** Vocabulary for the parallel loop. *)
From Coq Require Import List Arith Sorting.Permutation.

(** The values 0 .. n-1 dealt out to threads, each to one of them, in any order *)
Definition dealt (n : nat) (shares : list (list nat)) : Prop := Permutation (concat shares) (seq 0 n).
(** An array of n x n x n x n entries with the given values *)
Definition holds_values {V} (n : nat) (u f : nat -> nat -> nat -> nat -> V) : Prop :=
  forall p q r s, (p < n)%nat -> (q < n)%nat -> (r < n)%nat -> (s < n)%nat -> u p q r s = f p q r s.
(** The entries of such an array in C order *)
Definition in_order {V} (n : nat) (u : nat -> nat -> nat -> nat -> V) : list V :=
  flat_map (fun p => flat_map (fun q => flat_map (fun r => map (fun s => u p q r s) (seq 0 n)) (seq 0 n)) (seq 0 n)) (seq 0 n).
