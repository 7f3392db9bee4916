(** Object graphs: what is reachable, what it means for one to be an independent copy of
    another, and programs that work on one of them. *)
From Coq Require Import List Arith Bool String.
From Verif Require Import Py PyHeap.
Import ListNotations.

Section HeapSpec.
  Variable data : Type.
  Notation obj := (obj data). Notation heap := (heap data). Notation value := (value data).
  Implicit Types (H : heap) (o : obj).

  Definition refs_of_values (l : list value) : list nat := flat_map (fun v => match v with Ref a => [a] | _ => [] end) l.
  (** Objects an instance refers to *)
  Definition attr_refs o : list nat := match o with Inst _ attrs => refs_of_values (map snd attrs) | _ => [] end.
  (** The same with those held by a function *)
  Definition all_refs o : list nat := match o with Func _ cs => cs | _ => attr_refs o end.
  Inductive reach (refs : obj -> list nat) H (a : nat) : nat -> Prop :=
  | reach_refl : reach refs H a a
  | reach_step x o y : reach refs H a x -> nth_error H x = Some o -> In y (refs o) -> reach refs H a y.
  (** Through attributes / through anything *)
  Notation reaches := (reach attr_refs).
  Notation holds := (reach all_refs).
  (** Every reference leads to an object *)
  Definition closed H : Prop := forall x o y, nth_error H x = Some o -> In y (all_refs o) -> y < List.length H.
  Definition module_free H (a : nat) : Prop := forall x m, reaches H a x -> nth_error H x <> Some (Module m).
  Definition immutable o : bool := match o with Module _ | Func _ _ => true | _ => false end.

  (** Same graph with the same contents: a one-to-one correspondence of objects *)
  Definition value_match (R : nat -> nat -> Prop) (v v' : value) : Prop :=
    match v, v' with PyNone, PyNone => True | Lit d, Lit d' => d = d' | Ref x, Ref y => R x y | _, _ => False end.
  Definition obj_match (R : nat -> nat -> Prop) o o' : Prop :=
    match o, o' with
    | Inst c l, Inst c' l' => c = c' /\ Forall2 (fun p q => fst p = fst q /\ value_match R (snd p) (snd q)) l l'
    | Buffer d, Buffer d' => d = d'
    | Module _, Module _ | Func _ _, Func _ _ => o = o'
    | _, _ => False
    end.
  Record same_graph H (R : nat -> nat -> Prop) : Prop := SameGraph {
    sg_fun : forall x y z, R x y -> R x z -> y = z;
    sg_inj : forall x y z, R x z -> R y z -> x = y;
    sg_match : forall x y, R x y -> exists o o', nth_error H x = Some o /\ nth_error H y = Some o' /\ obj_match R o o' }.
  (** [b] is a copy of [a]: only modules and functions are common to both. *)
  Definition copy_of H (a b : nat) : Prop :=
    exists R, R a b /\ same_graph H R /\
      (forall x y, R x y -> (exists o, nth_error H x = Some o /\ immutable o = true) -> x = y) /\
      (forall x y z, R x z -> R z y -> exists o, nth_error H z = Some o /\ immutable o = true).
  (** Nothing mutable is held by both. *)
  Definition separate H (A B : nat -> Prop) : Prop :=
    forall x, (exists a, A a /\ holds H a x) -> (exists b, B b /\ holds H b x) ->
      exists o, nth_error H x = Some o /\ immutable o = true.
  (** The functions met on the way hold nothing mutable *)
  Definition pure_functions H (a : nat) : Prop :=
    forall x f cs y, reaches H a x -> nth_error H x = Some (Func f cs) -> (exists c, In c cs /\ holds H c y) ->
      exists o, nth_error H y = Some o /\ immutable o = true.

  (** Any program working with the objects it holds: it changes attributes of instances and
      contents of arrays, and creates objects.  [A] is what it holds. *)
  Inductive program : (nat -> Prop) -> heap -> heap -> Prop :=
  | prog_stop A H : program A H H
  | prog_inst (A : nat -> Prop) H H' x c l l' :
      (exists a, A a /\ holds H a x) -> nth_error H x = Some (Inst c l) ->
      (forall y, In y (refs_of_values (map snd l')) -> exists a, A a /\ holds H a y) ->
      program A (hset x (Inst c l') H) H' -> program A H H'
  | prog_buffer (A : nat -> Prop) H H' x d d' :
      (exists a, A a /\ holds H a x) -> nth_error H x = Some (Buffer d) ->
      program A (hset x (Buffer d') H) H' -> program A H H'
  | prog_alloc (A : nat -> Prop) H H' o :
      (forall y, In y (all_refs o) -> exists a, A a /\ holds H a y) ->
      program (fun a => A a \/ a = List.length H) (H ++ [o]) H' -> program A H H'.
End HeapSpec.
Arguments refs_of_values {data}. Arguments attr_refs {data}. Arguments all_refs {data}. Arguments reach {data}. Arguments closed {data}.
Arguments module_free {data}. Arguments immutable {data}. Arguments value_match {data}. Arguments obj_match {data}.
Arguments same_graph {data}. Arguments copy_of {data}. Arguments separate {data}. Arguments pure_functions {data}. Arguments program {data}.
Notation reaches := (reach attr_refs).
Notation holds := (reach all_refs).
