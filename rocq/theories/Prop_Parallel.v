(** C125: the Coulomb elements do not depend on how the parallel loop is scheduled. *)
From Coq Require Import List Arith ZArith Reals Lia Sorting.Permutation.
From Verif Require Import TwoDim Coulomb Cache Parallel ParallelSpec ParallelProofs.
Import ListNotations.
Open Scope nat_scope.

(** C125, any arithmetic.  Once all threads have finished, every element has its value, ... *)
Theorem C125_schedule : forall (V : Type) (zero : V) indices element n shares schedule,
  dealt n shares -> finished (execute indices element n schedule (launch zero shares)) = true ->
  holds_values n (shared (execute indices element n schedule (launch zero shares)))
    (fun p q r s => element (indices p) (indices q) (indices r) (indices s)).
Proof. exact @any_schedule. Qed.
Print Assumptions C125_schedule.
(** ... which happens exactly when every thread got its number of turns, ... *)
Theorem C125_terminates : forall (V : Type) (zero : V) indices element n shares schedule, dealt n shares ->
  (finished (execute indices element n schedule (launch zero shares)) = true <->
   forall i ps, nth_error shares i = Some ps ->
     length ps * (n * (n * (2 * n + 1 + 1) + 1 + 1) + 1 + 1) <= count_occ Nat.eq_dec schedule i).
Proof. exact @finishes. Qed.
Print Assumptions C125_terminates.
(** ... and never do two threads write to the same element; ... *)
Theorem C125_no_race : forall (V : Type) (zero : V) indices element n shares schedule i j t t' c, dealt n shares ->
  nth_error (threads (execute indices element n schedule (launch zero shares))) i = Some t ->
  nth_error (threads (execute indices element n schedule (launch zero shares))) j = Some t' ->
  target t = Some c -> target t' = Some c -> i = j.
Proof. exact @no_race. Qed.
Print Assumptions C125_no_race.
(** ... at any moment an element is zero or has its value. *)
Theorem C125_no_garbage : forall (V : Type) (zero : V) indices element n shares schedule p q r s, dealt n shares ->
  shared (execute indices element n schedule (launch zero shares)) p q r s = zero \/
  shared (execute indices element n schedule (launch zero shares)) p q r s = element (indices p) (indices q) (indices r) (indices s).
Proof. exact @no_garbage. Qed.
Print Assumptions C125_no_garbage.
(** In exact arithmetic the result is the array of C44 and C45. *)
Theorem C125_coulomb : forall n shares schedule, dealt n shares ->
  finished (execute shell_state coulomb_call n schedule (launch 0%R shares)) = true ->
  in_order n (shared (execute shell_state coulomb_call n schedule (launch 0%R shares))) = coulomb_array n.
Proof. exact coulomb_parallel. Qed.
Print Assumptions C125_coulomb.

(** Three threads, one of them with nothing to do, and two different schedules *)
Definition C125_turns : nat := 2 * (3 * (3 * (2 * 3 + 1 + 1) + 1 + 1) + 1 + 1).
Example C125_instance : dealt 3 [[2; 0]; []; [1]] /\
  finished (execute shell_state (fun a b c d => [a; b; c; d]) 3 (repeat 0 C125_turns ++ repeat 2 C125_turns) (launch [] [[2; 0]; []; [1]])) = true /\
  finished (execute shell_state (fun a b c d => [a; b; c; d]) 3 (concat (repeat [2; 1; 0] C125_turns)) (launch [] [[2; 0]; []; [1]])) = true /\
  shared (execute shell_state (fun a b c d => [a; b; c; d]) 3 (concat (repeat [2; 1; 0] C125_turns)) (launch [] [[2; 0]; []; [1]])) 0 1 2 1 = [(0, 0); (0, -1); (0, 1); (0, -1)]%Z.
Proof.
  split.
  - unfold dealt. cbn. apply perm_trans with [0; 2; 1]; [apply perm_swap | apply perm_skip, perm_swap].
  - repeat split; vm_compute; reflexivity.
Qed.
