(** C30, C31: copies of basis sets and systems. *)
From Coq Require Import List Arith Lia Bool String.
From Verif Require Import Py PyHeap HeapSpec HeapProofs HeapFrame HeapCopy HeapLib HeapExamples.
Import ListNotations.
Local Open Scope string_scope.
Local Open Scope list_scope.

(** C30. The copy has the same contents, is made of new objects apart from modules and
    functions, and the original is as before but for the bra orbitals it computes on
    demand; [programs_apart] is any later program on one of them leaving the other alone. *)
Theorem C30_copy_basis :
  forall data conj compact (H : heap data) a k, closed H -> basis_object data H a k -> module_free (without_np data H a) a ->
  exists H' b, copy_basis conj compact a H = (Ok b, H') /\ copy_of H' a b /\ List.length H <= b /\
    (forall x, x < List.length H -> x <> a -> nth_error H' x = nth_error H x) /\ unchanged_basis data H H' a /\
    (pure_functions H a -> programs_apart data H' a b).
Proof. exact copy_basis_independent. Qed.
Print Assumptions C30_copy_basis.
Theorem C30_copy_system :
  forall data conj compact (H : heap data) s a k, closed H -> system_object data H s a k ->
  module_free (without_np data (without_np data H s) a) s ->
  exists H' s', copy_system conj compact s H = (Ok s', H') /\ copy_of H' s s' /\ List.length H <= s' /\
    (forall x, x < List.length H -> x <> s -> x <> a -> nth_error H' x = nth_error H x) /\
    unchanged_basis data H H' a /\ unchanged_basis data H H' s /\
    (pure_functions H s -> programs_apart data H' s s').
Proof. exact copy_system_independent. Qed.
Print Assumptions C30_copy_system.
(** References inside the copy lead to copies: the operator of the copy refers to the copy. *)
Theorem C30_operator_redirected :
  forall data (H : heap data) s s' o c l co lo, copy_of H s s' ->
  nth_error H s = Some (Inst c l) -> assoc "_time_evolution_operator" l = Some (Ref o) ->
  nth_error H o = Some (Inst co lo) -> assoc "_system" lo = Some (Ref s) ->
  exists l' o' lo', nth_error H s' = Some (Inst c l') /\ assoc "_time_evolution_operator" l' = Some (Ref o') /\ o' <> o /\
    nth_error H o' = Some (Inst co lo') /\ assoc "_system" lo' = Some (Ref s').
Proof. exact operator_redirected. Qed.
Print Assumptions C30_operator_redirected.
(** Without the condition on functions the claim is false: a function that holds an array (the
    one h_t of a laser field stores for a constant polarization) is shared with the copy. *)
Definition C30_independence_claim : Prop :=
  forall data conj compact (H : heap data) s a k pot o s' H', closed H -> library_system data H s a k pot (Some (o, s)) ->
  copy_system conj compact s H = (Ok s', H') -> programs_apart data H' s s'.
Theorem C30_independence_refuted : ~ C30_independence_claim.
Proof. exact independence_refuted. Qed.
Print Assumptions C30_independence_refuted.
Example C30_case :
  closed ex_H /\ library_system nat ex_H 4 2 0 (Some (3, DW)) (Some (5, 4)) /\
  module_free (without_np nat (without_np nat ex_H 4) 2) 4 /\ pure_functions ex_H 4.
Proof. exact ex_case. Qed.

(** C31. Every basis set and system of the library, with any potential but one *)
Theorem C31_copy_basis_partial :
  forall data conj compact (H : heap data) a k pot, closed H -> library_basis data H a k pot -> (forall p, pot <> Some (p, Gaussian)) ->
  exists H' b, copy_basis conj compact a H = (Ok b, H').
Proof. exact library_copy. Qed.
Print Assumptions C31_copy_basis_partial.
Theorem C31_copy_system_partial :
  forall data conj compact (H : heap data) s a k pot op, closed H -> library_system data H s a k pot op -> (forall p, pot <> Some (p, Gaussian)) ->
  (forall o t, op = Some (o, t) -> t = s) -> exists H' s', copy_system conj compact s H = (Ok s', H').
Proof. exact library_copy_system. Qed.
Print Assumptions C31_copy_system_partial.
Theorem C31_construct_general_partial :
  forall data conj compact init (H : heap data) s a k pot c l, closed H -> library_system data H s a k pot None -> (forall p, pot <> Some (p, Gaussian)) ->
  builds data init -> nth_error H s = Some (Inst c l) -> assoc "_time_evolution_operator" l = Some PyNone ->
  exists g H', construct_general conj compact init s H = (Ok g, H').
Proof. exact plain_spin. Qed.
Print Assumptions C31_construct_general_partial.
(** The rest always fails: a Gaussian well keeps a module, and the failed copy leaves the
    original basis set without one; *)
Theorem C31_gaussian :
  forall data conj compact (H : heap data) a k p, closed H -> library_basis data H a k (Some (p, Gaussian)) ->
  exists H' c l, copy_basis conj compact a H = (Err TypeError, H') /\ nth_error H' a = Some (Inst c l) /\ assoc "np" l = Some PyNone.
Proof. exact gaussian_fails. Qed.
Print Assumptions C31_gaussian.
(** an operator refers to its system, which has its module while the operator is copied; *)
Theorem C31_operator :
  forall data conj compact init (H : heap data) s a k pot o, closed H -> library_system data H s a k pot (Some (o, s)) -> (forall p, pot <> Some (p, Gaussian)) ->
  builds data init -> exists H', construct_general conj compact init s H = (Err TypeError, H').
Proof. exact operator_spin_fails. Qed.
Print Assumptions C31_operator.
(** an operator last set on another system brings that one's module. *)
Theorem C31_shared_operator :
  forall data conj compact (H : heap data) s a k pot o t, closed H -> library_system data H s a k pot (Some (o, t)) -> t <> s -> t <> a ->
  (exists c l j m, nth_error H t = Some (Inst c l) /\ assoc "np" l = Some (Ref j) /\ nth_error H j = Some (Module m)) ->
  exists H' c l, copy_system conj compact s H = (Err TypeError, H') /\ nth_error H' s = Some (Inst c l) /\ assoc "np" l = Some PyNone.
Proof. exact foreign_operator_fails. Qed.
Print Assumptions C31_shared_operator.
Example C31_shared_case :
  closed ex_shared /\ library_system nat ex_shared 4 2 0 (Some (3, DW)) (Some (5, 9)) /\
  exists c l j m, nth_error ex_shared 9 = Some (Inst c l) /\ assoc "np" l = Some (Ref j) /\ nth_error ex_shared j = Some (Module m).
Proof. exact shared_case. Qed.
Example C31_gaussian_case : closed (ex_heap Gaussian []) /\ library_basis nat (ex_heap Gaussian []) 2 0 (Some (3, Gaussian)).
Proof. split; [apply ex_closed; intros ? []|apply ex_basis_ok]. Qed.
(** In general: success means exactly that no module is met. *)
Theorem C31_copy_basis_iff :
  forall data conj compact (H : heap data) a k, closed H -> basis_object data H a k ->
  ((exists b H', copy_basis conj compact a H = (Ok b, H')) <-> module_free (without_np data H a) a).
Proof. exact copy_basis_iff. Qed.
Print Assumptions C31_copy_basis_iff.
Theorem C31_copy_system_iff :
  forall data conj compact (H : heap data) s a k, closed H -> system_object data H s a k ->
  ((exists b H', copy_system conj compact s H = (Ok b, H')) <-> module_free (without_np data (without_np data H s) a) s).
Proof. exact copy_system_iff. Qed.
Print Assumptions C31_copy_system_iff.
Definition C31_copy_basis_claim : Prop :=
  forall data conj compact (H : heap data) a k pot, closed H -> library_basis data H a k pot -> exists H' b, copy_basis conj compact a H = (Ok b, H').
Theorem C31_copy_basis_refuted : ~ C31_copy_basis_claim.
Proof. exact copy_basis_refuted. Qed.
Print Assumptions C31_copy_basis_refuted.
Definition C31_construct_general_claim : Prop :=
  forall data conj compact init (H : heap data) s a k pot op, closed H -> library_system data H s a k pot op -> (forall p, pot <> Some (p, Gaussian)) ->
  (forall o t, op = Some (o, t) -> t = s) -> builds data init ->
  exists H' g, construct_general conj compact init s H = (Ok g, H').
Theorem C31_construct_general_refuted : ~ C31_construct_general_claim.
Proof. exact construct_general_refuted. Qed.
Print Assumptions C31_construct_general_refuted.
(** set_time_evolution_operator produces such operators. *)
Theorem C31_set_operator :
  forall data (H : heap data) s o c l co lo, nth_error H s = Some (Inst c l) -> nth_error H o = Some (Inst co lo) -> s <> o ->
  exists H' l' lo', set_operator s o H = (Ok tt, H') /\
    nth_error H' s = Some (Inst c l') /\ assoc "_time_evolution_operator" l' = Some (Ref o) /\
    nth_error H' o = Some (Inst co lo') /\ assoc "_system" lo' = Some (Ref s).
Proof. exact set_operator_ok. Qed.
Print Assumptions C31_set_operator.
