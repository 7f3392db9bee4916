(** A small model of the Python run time the library relies on: exceptions as
    values, methods as state transformers whose final state is visible even
    when they raise, and slice objects. *)
From Coq Require Import List Arith ZArith Lia.
Import ListNotations.

(** The exception classes that the modelled code can raise. *)
Inductive exn :=
| AssertionError | ValueError | TypeError | IndexError | AttributeError
| NameError | KeyError | NotImplementedError | UFuncTypeError | OSError
| Unmodelled. (* a run-time path this model does not describe *)

Inductive res (A : Type) := Ok (a : A) | Err (e : exn).
Arguments Ok {A}. Arguments Err {A}.

Definition rbind {A B} (x : res A) (f : A -> res B) : res B :=
  match x with Ok a => f a | Err e => Err e end.

Definition is_ok {A} (x : res A) : bool := match x with Ok _ => true | Err _ => false end.

(** A method body: consumes the object's state, returns a value or an
    exception together with the state at that point. *)
Definition M (S A : Type) := S -> res A * S.
Definition ret {S A} (a : A) : M S A := fun s => (Ok a, s).
Definition raise {S A} (e : exn) : M S A := fun s => (Err e, s).
Definition bind {S A B} (m : M S A) (f : A -> M S B) : M S B :=
  fun s => match m s with
           | (Ok a, s') => f a s'
           | (Err e, s') => (Err e, s')
           end.
Definition lift {S A} (x : res A) : M S A := fun s => (x, s).
Definition get_st {S} : M S S := fun s => (Ok s, s).
Definition put_st {S} (s' : S) : M S unit := fun _ => (Ok tt, s').
Definition modify {S} (f : S -> S) : M S unit := fun s => (Ok tt, f s).
(** [assert b] *)
Definition py_assert {S} (b : bool) : M S unit :=
  if b then ret tt else raise AssertionError.
Definition when {S} (b : bool) (m : M S unit) : M S unit := if b then m else ret tt.

Notation "'let*' x ':=' m 'in' k" := (bind m (fun x => k))
  (at level 200, x name, right associativity).
Notation "m ';;' k" := (bind m (fun _ => k)) (at level 199, right associativity).
Notation "'let!' x ':=' m 'in' k" := (rbind m (fun x => k))
  (at level 200, x name, right associativity).

(** [for x in xs: body] *)
Fixpoint for_each {S A} (xs : list A) (body : A -> M S unit) : M S unit :=
  match xs with
  | [] => ret tt
  | x :: xs' => body x ;; for_each xs' body
  end.

(** The same loop over a pure accumulator. *)
Fixpoint rfold {A B} (f : B -> A -> res B) (xs : list A) (b : B) : res B :=
  match xs with
  | [] => Ok b
  | x :: xs' => let! b' := f b x in rfold f xs' b'
  end.

Fixpoint rmap {A B} (f : A -> res B) (xs : list A) : res (list B) :=
  match xs with
  | [] => Ok []
  | x :: xs' => let! y := f x in let! ys := rmap f xs' in Ok (y :: ys)
  end.

(** slice(start, stop) with integer bounds; [slice.indices(len)] for step 1. *)
Record pyslice := PySlice { sl_start : Z; sl_stop : Z }.
Definition sl_clip (len i : Z) : Z :=
  if Z.ltb i 0 then Z.max 0 (i + len) else Z.min i len.
Definition sl_first (len : nat) (s : pyslice) : nat :=
  Z.to_nat (sl_clip (Z.of_nat len) (sl_start s)).
Definition sl_count (len : nat) (s : pyslice) : nat :=
  (Z.to_nat (sl_clip (Z.of_nat len) (sl_stop s)) - sl_first len s)%nat.
(** The indices a slice selects from a sequence of length [len]. *)
Definition sl_indices (len : nat) (s : pyslice) : list nat :=
  seq (sl_first len s) (sl_count len s).
