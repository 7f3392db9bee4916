(** Model of quantum_systems/random_basis.py (class RandomBasisSet).  The generator is an
    oracle: [rng k idx] is element [idx] of the k-th array drawn. *)
From Coq Require Import List Arith Bool.
From Verif Require Import Scalar Py Numpy BasisSet.
Import ListNotations.

Section RandomBasis.
  Variable K : scalar.
  Local Open Scope K_scope.
  (** random_basis.py:40-42 *)
  Definition make_hermitian (h : arr K) : res (arr K) :=
    let! t := aadd h (aT (aconj h)) in Ok (scale Float64 shalf t).
  (** dipole_moment[i] = r *)
  Definition set_row (a : arr K) (i : nat) (r : arr K) : arr K :=
    Arr (shape a) (dt a) (fun idx => match idx with j :: t => if (j =? i)%nat then get r t else get a idx | [] => get a [] end).
  (** random_basis.py:44-49 *)
  Fixpoint hermitian_rows (is : list nat) (a : arr K) : res (arr K) :=
    match is with
    | [] => Ok a
    | i :: is' => let! r := row a i in let! r' := make_hermitian r in hermitian_rows is' (set_row a i r')
    end.
  Definition make_dipole_moment_hermitian (a : arr K) : res (arr K) :=
    let! n := alen a in hermitian_rows (seq 0 n) a.
  (** random_basis.py:51-53 *)
  Definition make_two_body_symmetry (u : arr K) : res (arr K) :=
    let! t := transpose [1; 0; 3; 2]%nat u in let! v := aadd u t in Ok (scale Float64 shalf v).

  Variable rng : nat -> list nat -> K.
  (** random_basis.py:55-72; [k] counts the calls made before *)
  Definition random_elements (k : nat) (sh : list nat) : arr K :=
    Arr sh Complex128 (fun idx => rng k idx + si * rng (S k) idx).
  (** random_basis.py:20-38 *)
  Definition random_setup : BM K unit :=
    let* b := get_st in
    let l := b_l b in
    need_np ;;
    let* h := lift (make_hermitian (random_elements 0 [l; l])) in
    set_sq F_h h ;;
    let* s := lift (make_hermitian (random_elements 2 [l; l])) in
    set_sq F_s s ;;
    let* u := lift (make_two_body_symmetry (random_elements 4 [l; l; l; l])) in
    set_sq F_u u ;;
    let* d := lift (make_dipole_moment_hermitian (random_elements 6 [b_dim b; l; l])) in
    set_dipole d ;;
    modify (set_nuc (rng 8 [])).
  Definition random_basis (npm l dim : nat) (spin anti : bool) : res unit * basis K :=
    random_setup (new_basis K Base npm l dim spin anti).
End RandomBasis.
Arguments make_hermitian {K}. Arguments set_row {K}. Arguments hermitian_rows {K}. Arguments make_dipole_moment_hermitian {K}.
Arguments make_two_body_symmetry {K}. Arguments random_elements {K}. Arguments random_setup {K}. Arguments random_basis {K}.
