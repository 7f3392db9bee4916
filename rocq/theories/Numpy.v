(** The part of the array module the library uses, as functions on
    n-dimensional arrays of exact scalars.  An array has a shape, an element
    type tag and a content function; only indices inside the shape matter
    ([aeq]).  Each function states the NumPy call it stands for. *)
From Coq Require Import List Arith ZArith Lia Bool.
From Verif Require Import Scalar Py.
Import ListNotations.

Inductive dtype := Int64 | Float64 | Complex128.
Definition drank (d : dtype) : nat :=
  match d with Int64 => 0 | Float64 => 1 | Complex128 => 2 end.
Definition dmax (d e : dtype) : dtype := if drank d <=? drank e then e else d.
Definition deqb (d e : dtype) : bool := drank d =? drank e.
(** "same_kind" casting: may a value of type [e] be stored in an array of type [d]? *)
Definition castable (e d : dtype) : bool := drank e <=? drank d.

Definition insert_at {A} (i : nat) (x : A) (l : list A) : list A := firstn i l ++ x :: skipn i l.
Definition remove_at {A} (i : nat) (l : list A) : list A := firstn i l ++ skipn (S i) l.
Fixpoint map2 {A B C} (f : A -> B -> C) (l : list A) (m : list B) : list C :=
  match l, m with
  | x :: l', y :: m' => f x y :: map2 f l' m'
  | _, _ => []
  end.
Fixpoint index_of (k : nat) (l : list nat) : nat :=
  match l with [] => 0 | x :: l' => if x =? k then 0 else S (index_of k l') end.
Fixpoint list_eqb (a b : list nat) : bool :=
  match a, b with
  | [], [] => true
  | x :: a', y :: b' => (x =? y) && list_eqb a' b'
  | _, _ => false
  end.

Section Numpy.
  Variable K : scalar.
  Local Open Scope K_scope.

  Record arr := Arr { shape : list nat; dt : dtype; get : list nat -> K }.

  (** An index tuple inside a shape. *)
  Definition valid (sh idx : list nat) : Prop := Forall2 lt idx sh.
  (** Two arrays with the same shape and the same elements. *)
  Definition aeq (a b : arr) : Prop :=
    shape a = shape b /\ forall idx, valid (shape a) idx -> get a idx = get b idx.

  Definition ndim (a : arr) : nat := length (shape a).
  Definition mat (a : arr) (p q : nat) : K := get a [p; q].
  Definition ten (a : arr) (p q r s : nat) : K := get a [p; q; r; s].

  (** np.zeros(shape, dtype) *)
  Definition zeros (sh : list nat) (d : dtype) : arr := Arr sh d (fun _ => 0).
  (** np.zeros_like(a) *)
  Definition zeros_like (a : arr) : arr := zeros (shape a) (dt a).
  (** np.eye(n) *)
  Definition eye (n : nat) : arr :=
    Arr [n; n] Float64
      (fun idx => match idx with [i; j] => if i =? j then 1 else 0 | _ => 0 end).
  (** np.array([x0, x1, ...]) of the given element type *)
  Definition of_list (d : dtype) (xs : list K) : arr :=
    Arr [length xs] d (fun idx => match idx with [i] => nth i xs 0 | _ => 0 end).
  (** np.array([[..],[..]]), 2 by 2 *)
  Definition of_2x2 (d : dtype) (a b c e : K) : arr :=
    Arr [2; 2]%nat d
      (fun idx => match idx with
                  | [i; j] => if (i =? 0)%nat then (if (j =? 0)%nat then a else b)
                              else (if (j =? 0)%nat then c else e)
                  | _ => 0
                  end).

  (** a.conj() *)
  Definition aconj (a : arr) : arr := Arr (shape a) (dt a) (fun idx => sconj (get a idx)).
  (** a.T *)
  Definition aT (a : arr) : arr := Arr (rev (shape a)) (dt a) (fun idx => get a (rev idx)).
  (** a.astype(d): only used here to widen, so values are kept *)
  Definition astype (d : dtype) (a : arr) : arr := Arr (shape a) d (get a).
  (** c * a for a Python scalar of type [d] *)
  Definition scale (d : dtype) (c : K) (a : arr) : arr :=
    Arr (shape a) (dmax d (dt a)) (fun idx => c * get a idx).
  (** a.reshape(-1, 1) for a one-dimensional array *)
  Definition column (a : arr) : arr :=
    Arr [hd 0%nat (shape a); 1%nat] (dt a)
      (fun idx => match idx with [i; _] => get a [i] | _ => 0 end).

  (** len(a) *)
  Definition alen (a : arr) : res nat :=
    match shape a with [] => Err TypeError | n :: _ => Ok n end.
  (** a.shape[i] *)
  Definition shape_at (a : arr) (i : nat) : res nat :=
    match nth_error (shape a) i with Some n => Ok n | None => Err IndexError end.
  (** a[i] on the first axis, i >= 0 *)
  Definition row (a : arr) (i : nat) : res arr :=
    match shape a with
    | [] => Err IndexError
    | n :: sh => if i <? n then Ok (Arr sh (dt a) (fun idx => get a (i :: idx))) else Err IndexError
    end.
  (** a[i, j], scalar *)
  Definition item2 (a : arr) (i j : nat) : res K :=
    match shape a with
    | [n; m] => if (i <? n) && (j <? m) then Ok (get a [i; j]) else Err IndexError
    | n :: m :: _ => if (i <? n) && (j <? m) then Err Unmodelled else Err IndexError
    | _ => Err IndexError
    end.
  (** np.asarray([a0, a1, ...]): stacking equal shapes (ValueError otherwise) *)
  Definition stack (xs : list arr) : res arr :=
    match xs with
    | [] => Ok (zeros [0%nat] Float64)
    | a :: xs' =>
        if forallb (fun b => list_eqb (shape a) (shape b)) xs'
        then Ok (Arr (length xs :: shape a) (fold_right (fun b d => dmax (dt b) d) (dt a) xs')
                   (fun idx => match idx with
                               | i :: idx' => get (nth i xs a) idx'
                               | [] => 0
                               end))
        else Err ValueError
    end.

  (** a.transpose(perm): axis i of the result is axis perm[i] of a *)
  Definition transpose (perm : list nat) (a : arr) : res arr :=
    if length perm =? ndim a then
      Ok (Arr (map (fun k => nth k (shape a) 0%nat) perm) (dt a)
            (fun idx => get a (map (fun k => nth (index_of k perm) idx 0%nat) (seq 0 (length perm)))))
    else Err ValueError.

  (** np.tensordot(a, b, axes=(i, j)) with one contracted axis *)
  Definition tensordot (a b : arr) (i j : nat) : res arr :=
    match nth_error (shape a) i, nth_error (shape b) j with
    | Some n, Some n' =>
        if n =? n' then
          let ra := remove_at i (shape a) in
          Ok (Arr (ra ++ remove_at j (shape b)) (dmax (dt a) (dt b))
                (fun idx => sumn n (fun k =>
                    get a (insert_at i k (firstn (length ra) idx))
                  * get b (insert_at j k (skipn (length ra) idx)))))
        else Err ValueError
    | _, _ => Err IndexError
    end.

  (** np.dot(a, b) for ndim >= 1 / >= 2: contracts the last axis of a with the
      second-to-last of b.  Smaller ranks do not occur on modelled paths. *)
  Definition dot (a b : arr) : res arr :=
    if (ndim a <? 1) || (ndim b <? 2) then Err Unmodelled
    else match tensordot a b (ndim a - 1) (ndim b - 2) with
         | Err IndexError => Err ValueError
         | r => r
         end.

  (** a @ b for matrices *)
  Definition matmul (a b : arr) : res arr :=
    if (ndim a =? 2) && (ndim b =? 2) then dot a b else Err Unmodelled.

  (** np.kron(a, b) *)
  Definition pad (n : nat) (l : list nat) : list nat := repeat 1%nat (n - length l) ++ l.
  Definition kron (a b : arr) : arr :=
    let nd := Nat.max (ndim a) (ndim b) in
    let sa := pad nd (shape a) in
    let sb := pad nd (shape b) in
    Arr (map2 Nat.mul sa sb) (dmax (dt a) (dt b))
      (fun idx =>
         get a (skipn (nd - ndim a) (map2 Nat.div idx sb))
         * get b (skipn (nd - ndim b) (map2 Nat.modulo idx sb))).

  (** Broadcasting *)
  Fixpoint bshape_rev (a b : list nat) : res (list nat) :=
    match a, b with
    | [], _ => Ok b
    | _, [] => Ok a
    | x :: a', y :: b' =>
        let! r := bshape_rev a' b' in
        if x =? y then Ok (x :: r)
        else if x =? 1 then Ok (y :: r)
        else if y =? 1 then Ok (x :: r)
        else Err ValueError
    end.
  Definition bshape (a b : list nat) : res (list nat) :=
    let! r := bshape_rev (rev a) (rev b) in Ok (rev r).
  Definition bget (a : arr) (idx : list nat) : K :=
    get a (map2 (fun d i => if d =? 1 then 0%nat else i) (shape a)
             (skipn (length idx - ndim a) idx)).
  Definition broadcast2 (f : K -> K -> K) (a b : arr) : res arr :=
    let! sh := bshape (shape a) (shape b) in
    Ok (Arr sh (dmax (dt a) (dt b)) (fun idx => f (bget a idx) (bget b idx))).
  (** a + b, a - b, a * b (element-wise) *)
  Definition aadd := broadcast2 sadd.
  Definition asub := broadcast2 ssub.
  Definition amul := broadcast2 smul.
  (** f += b, f -= b: in place, so shape and type of f must absorb b *)
  Definition inplace (g : K -> K -> K) (f b : arr) : res arr :=
    let! r := broadcast2 g f b in
    if list_eqb (shape r) (shape f) then
      if castable (dt b) (dt f) then Ok (Arr (shape f) (dt f) (get r)) else Err UFuncTypeError
    else Err ValueError.
  Definition iadd := inplace sadd.
  Definition isub := inplace ssub.

  (** np.trace(a, axis1=i, axis2=j), i < j *)
  Definition trace (i j : nat) (a : arr) : res arr :=
    match nth_error (shape a) i, nth_error (shape a) j with
    | Some n, Some m =>
        Ok (Arr (remove_at i (remove_at j (shape a))) (dt a)
              (fun idx => sumn (Nat.min n m) (fun k => get a (insert_at j k (insert_at i k idx)))))
    | _, _ => Err ValueError
    end.
  (** np.trace(a) when the result is a number *)
  Definition trace_num (a : arr) : res K :=
    let! t := trace 0 1 a in
    if list_eqb (shape t) [] then Ok (get t []) else Err Unmodelled.

  (** a[sl0, sl1, ...] with slices or ":" on the leading axes *)
  Fixpoint slice_shape (sls : list (option pyslice)) (sh : list nat) : res (list nat) :=
    match sls, sh with
    | [], _ => Ok sh
    | _ :: _, [] => Err IndexError
    | None :: sls', n :: sh' => let! r := slice_shape sls' sh' in Ok (n :: r)
    | Some sl :: sls', n :: sh' => let! r := slice_shape sls' sh' in Ok (sl_count n sl :: r)
    end.
  Fixpoint slice_index (sls : list (option pyslice)) (sh idx : list nat) : list nat :=
    match sls, sh, idx with
    | None :: sls', _ :: sh', i :: idx' => i :: slice_index sls' sh' idx'
    | Some sl :: sls', n :: sh', i :: idx' => (sl_first n sl + i)%nat :: slice_index sls' sh' idx'
    | _, _, _ => idx
    end.
  Definition slice (sls : list (option pyslice)) (a : arr) : res arr :=
    let! sh := slice_shape sls (shape a) in
    Ok (Arr sh (dt a) (fun idx => get a (slice_index sls (shape a) idx))).

  (** np.einsum("pr, qs -> pqrs", a, b) *)
  Definition einsum_outer (a b : arr) : res arr :=
    match shape a, shape b with
    | [n1; n2], [m1; m2] =>
        Ok (Arr [n1; m1; n2; m2] (dmax (dt a) (dt b))
              (fun idx => match idx with
                          | [p; q; r; s] => get a [p; r] * get b [q; s]
                          | _ => 0
                          end))
    | _, _ => Err ValueError
    end.
  (** np.einsum("piqi -> pq", a) *)
  Definition einsum_piqi (a : arr) : res arr :=
    match shape a with
    | [n; i; m; i'] =>
        if i =? i' then
          Ok (Arr [n; m] (dt a)
                (fun idx => match idx with
                            | [p; q] => sumn i (fun k => get a [p; k; q; k])
                            | _ => 0
                            end))
        else Err ValueError
    | _ => Err ValueError
    end.
  (** np.einsum("piiq -> pq", a) *)
  Definition einsum_piiq (a : arr) : res arr :=
    match shape a with
    | [n; i; i'; m] =>
        if i =? i' then
          Ok (Arr [n; m] (dt a)
                (fun idx => match idx with
                            | [p; q] => sumn i (fun k => get a [p; k; k; q])
                            | _ => 0
                            end))
        else Err ValueError
    | _ => Err ValueError
    end.
End Numpy.

Arguments Arr {K}. Arguments shape {K}. Arguments dt {K}. Arguments get {K}.
Arguments aeq {K}. Arguments ndim {K}. Arguments mat {K}. Arguments ten {K}.
Arguments zeros_like {K}. Arguments of_list {K}. Arguments of_2x2 {K}. Arguments aconj {K}.
Arguments aT {K}. Arguments astype {K}. Arguments scale {K}. Arguments column {K}.
Arguments alen {K}. Arguments shape_at {K}. Arguments row {K}. Arguments item2 {K}.
Arguments stack {K}. Arguments transpose {K}. Arguments tensordot {K}. Arguments dot {K}.
Arguments matmul {K}. Arguments kron {K}. Arguments bget {K}. Arguments broadcast2 {K}.
Arguments aadd {K}. Arguments asub {K}. Arguments amul {K}. Arguments inplace {K}.
Arguments iadd {K}. Arguments isub {K}. Arguments trace {K}. Arguments trace_num {K}.
Arguments slice {K}. Arguments einsum_outer {K}. Arguments einsum_piqi {K}. Arguments einsum_piiq {K}.
Arguments zeros {K}. Arguments eye {K}.
