(** Objects with identity, Python's copy.deepcopy on them, and the methods of the library
    that use it: basis_set.py:739-760 copy_basis, system.py:163-186 copy_system and
    spatial_orbital_system.py:52-106 construct_general_orbital_system.  BasisSet.v and
    Systems.v describe what the objects contain; here only their identities matter.  *)
From Coq Require Import List Arith Bool String.
From Verif Require Import Py.
Import ListNotations.
Local Open Scope string_scope.

Section PyHeap.
  (** Numbers, strings, slices and the contents of arrays *)
  Variable data : Type.
  Inductive value := PyNone | Lit (d : data) | Ref (a : nat).
  Inductive obj :=
  | Module (m : nat)
  | Func (f : nat) (captured : list nat)           (* a function with the objects its closure holds *)
  | Buffer (d : data)                              (* an array *)
  | Inst (cls : nat) (attrs : list (string * value)).   (* an instance, list or dict *)
  Definition heap := list obj.
  Definition memo := nat -> option nat.
  Fixpoint hset (a : nat) (o : obj) (H : heap) : heap :=
    match H, a with
    | [], _ => []
    | _ :: H', O => o :: H'
    | x :: H', S a' => x :: hset a' o H'
    end.
  Definition mset (a b : nat) (m : memo) : memo := fun x => if (x =? a)%nat then Some b else m x.

  (** copy.py: deepcopy with a memo.  Functions are returned as they are; arrays copy
      themselves; an instance is created empty and entered in the memo, then its attributes
      are copied in order; a module cannot be reduced and raises.  [fuel] bounds the depth:
      HeapProofs.v shows that the number of objects is enough. *)
  Definition dstate := (heap * memo)%type.
  Fixpoint copy_attrs (dc : value -> M dstate value) (l : list (string * value)) : M dstate (list (string * value)) :=
    match l with
    | [] => ret []
    | (k, v) :: l' => let* v' := dc v in let* r := copy_attrs dc l' in ret ((k, v') :: r)
    end.
  Fixpoint dcopy (fuel : nat) (v : value) : M dstate value :=
    match fuel with
    | O => raise Unmodelled
    | S fuel' =>
        match v with
        | PyNone | Lit _ => ret v
        | Ref a => fun st =>
            let (H, m) := st in
            match m a with
            | Some b => (Ok (Ref b), st)
            | None =>
                match nth_error H a with
                | None => (Err Unmodelled, st)
                | Some (Module _) => (Err TypeError, st)
                | Some (Func _ _) => (Ok v, st)
                | Some (Buffer d) => (Ok (Ref (List.length H)), ((H ++ [Buffer d])%list, mset a (List.length H) m))
                | Some (Inst c attrs) =>
                    let b := List.length H in
                    (let* attrs' := copy_attrs (dcopy fuel') attrs in
                     modify (fun s => (hset b (Inst c attrs') (fst s), snd s)) ;;
                     ret (Ref b)) ((H ++ [Inst c []])%list, mset a b m)
                end
            end
        end
    end.
  Definition HM := M heap.
  Definition deepcopy (v : value) : HM value :=
    fun H => let (r, st) := dcopy (S (List.length H)) v (H, fun _ => None) in (r, fst st).

  (** Attribute access *)
  Fixpoint assoc (k : string) (l : list (string * value)) : option value :=
    match l with [] => None | (k', v) :: l' => if String.eqb k' k then Some v else assoc k l' end.
  Fixpoint assign (k : string) (v : value) (l : list (string * value)) : list (string * value) :=
    match l with
    | [] => [(k, v)]
    | (k', v') :: l' => if String.eqb k' k then (k, v) :: l' else (k', v') :: assign k v l'
    end.
  Definition getattr (a : nat) (k : string) : HM value :=
    fun H => match nth_error H a with
             | Some (Inst _ attrs) => match assoc k attrs with Some v => (Ok v, H) | None => (Err AttributeError, H) end
             | _ => (Err AttributeError, H)
             end.
  Definition setattr (a : nat) (k : string) (v : value) : HM unit :=
    fun H => match nth_error H a with
             | Some (Inst c attrs) => (Ok tt, hset a (Inst c (assign k v attrs)) H)
             | _ => (Err AttributeError, H)
             end.
  Definition alloc (o : obj) : HM nat := fun H => (Ok (List.length H), (H ++ [o])%list).
  Definition deref (v : value) : HM nat := match v with Ref a => ret a | _ => raise AttributeError end.

  (** Complex conjugation of the contents of an array; does the object with this class and
      these two-body elements keep compact storage (sinc_dvr.py:191)? *)
  Variables (conj : data -> data) (compact : nat -> data -> bool).
  (** basis_set.py:224-230 bra_spf *)
  Definition fill_bra (a : nat) : HM unit :=
    let* bra := getattr a "_bra_spf" in
    match bra with
    | PyNone =>
        let* spf := getattr a "_spf" in
        match spf with
        | Ref s => fun H => match nth_error H s with
                            | Some (Buffer d) => (let* b := alloc (Buffer (conj d)) in setattr a "_bra_spf" (Ref b)) H
                            | _ => (Err AttributeError, H)
                            end
        | _ => ret tt
        end
    | _ => ret tt
    end.
  Definition is_compact (a : nat) : HM bool :=
    let* u := getattr a "_u" in
    match u with
    | Ref b => fun H => match nth_error H a, nth_error H b with
                        | Some (Inst c _), Some (Buffer d) => (Ok (compact c d), H)
                        | _, _ => (Ok false, H)
                        end
    | _ => ret false
    end.
  (** basis_set.py:248-275 and sinc_dvr.py:191-199, for a module to which the arrays already
      belong: np.asarray then returns its argument, so that the only effects are the
      attribute np and the orbitals filled in by the getter. *)
  Definition change_module (a : nat) (np : value) : HM unit :=
    setattr a "np" np ;;
    let* c := is_compact a in
    if c then ret tt else fill_bra a.
  (** basis_set.py:739-760 *)
  Definition copy_basis (a : nat) : HM nat :=
    let* np := getattr a "np" in
    setattr a "np" PyNone ;;
    let* v := deepcopy (Ref a) in
    let* b := deref v in
    change_module b np ;;
    change_module a np ;;
    ret b.
  (** system.py:54-64 *)
  Definition sys_change_module (s : nat) (np : value) : HM unit :=
    setattr s "np" np ;;
    let* v := getattr s "_basis_set" in
    let* a := deref v in
    change_module a np.
  (** system.py:163-186 *)
  Definition copy_system (s : nat) : HM nat :=
    let* np := getattr s "np" in
    setattr s "np" PyNone ;;
    let* v := getattr s "_basis_set" in
    let* a := deref v in
    setattr a "np" PyNone ;;
    let* v := deepcopy (Ref s) in
    let* s' := deref v in
    sys_change_module s' np ;;
    sys_change_module s np ;;
    ret s'.
  (** system.py:121-125 and operator.py:30-42 *)
  Definition set_operator (s o : nat) : HM unit :=
    setattr s "_time_evolution_operator" (Ref o) ;;
    setattr o "_system" (Ref s).
  (** spatial_orbital_system.py:52-106.  The construction of the new system from the copied
      basis set is [init]: whatever GeneralOrbitalSystem(...) does. *)
  Definition construct_general (init : nat -> HM nat) (s : nat) : HM nat :=
    let* v := getattr s "_basis_set" in
    let* a := deref v in
    let* a' := copy_basis a in
    let* g := init a' in
    let* op := getattr s "_time_evolution_operator" in
    match op with
    | PyNone => ret g
    | _ =>
        let* op' := deepcopy op in
        let* o := deref op' in
        set_operator g o ;;
        ret g
    end.
End PyHeap.
Arguments PyNone {data}. Arguments Lit {data}. Arguments Ref {data}. Arguments Module {data}. Arguments Func {data}.
Arguments Buffer {data}. Arguments Inst {data}. Arguments hset {data}. Arguments copy_attrs {data}. Arguments dcopy {data}.
Arguments deepcopy {data}. Arguments assoc {data}. Arguments assign {data}. Arguments getattr {data}. Arguments setattr {data}.
Arguments alloc {data}. Arguments deref {data}. Arguments fill_bra {data}. Arguments is_compact {data}.
Arguments change_module {data}. Arguments copy_basis {data}. Arguments sys_change_module {data}. Arguments copy_system {data}.
Arguments set_operator {data}. Arguments construct_general {data}.
