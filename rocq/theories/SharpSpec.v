(** Quantum numbers of many-electron states: integers attached to the orbitals and added up over
    the occupied ones, counted modulo a number (modulo 0: not reduced). *)
From Coq Require Import List Arith ZArith Znumtheory Reals Bool.
From Coquelicot Require Import Coquelicot.
From Verif Require Import Scalar ScalarC Py Numpy BasisSet Spec FockSpec InnerSpec Systems.
Import ListNotations.
Open Scope R_scope.

Record label := Label { charge : nat -> Z; modulus : Z }.
Definition alike (t : label) (a b : Z) : Prop := (modulus t | a - b)%Z.
(** The sum over the occupied orbitals *)
Fixpoint total_charge (l : nat) (g : nat -> Z) (o : occupation) : Z :=
  match l with O => 0%Z | S k => (total_charge k g o + if o k then g k else 0)%Z end.
(** All determinants in the state f have the same quantum number. *)
Definition sharp (l : nat) (t : label) (f : state CC) : Prop :=
  exists M, forall o, among l o -> f o <> RtoC 0 -> alike t (total_charge l (charge t) o) M.
(** The part of f with quantum number M *)
Definition component (l : nat) (t : label) (M : Z) (f : state CC) : state CC :=
  fun o => if Zdivide_dec (modulus t) (total_charge l (charge t) o - M) then f o else RtoC 0.
(** Matrix elements that connect equal quantum numbers only *)
Definition keeps1 (l : nat) (t : label) (h : nat -> nat -> C) : Prop :=
  forall p q, (p < l)%nat -> (q < l)%nat -> h p q <> RtoC 0 -> alike t (charge t p) (charge t q).
Definition keeps2 (l : nat) (t : label) (u : nat -> nat -> nat -> nat -> C) : Prop :=
  forall p q r s, (p < l)%nat -> (q < l)%nat -> (r < l)%nat -> (s < l)%nat -> u p q r s <> RtoC 0 -> alike t (charge t p + charge t q)%Z (charge t r + charge t s)%Z.
(** The spin-orbitals 2 p and 2 p + 1 have the label of orbital p; their spins are opposite. *)
Definition of_orbital (t : label) : label := Label (fun P => charge t (P / 2)%nat) (modulus t).
Definition spin_label : label := Label (fun P => if Nat.even P then 1%Z else (-1)%Z) 0.
Definition labels (k : kind) (ts : list label) : list label :=
  match k with General => ts | Spatial => spin_label :: map of_orbital ts end.
(** The elements h and u keep all the quantum numbers in ts ... *)
Definition kept (l : nat) (h : nat -> nat -> C) (u : nat -> nat -> nat -> nat -> C) (ts : list label) : Prop :=
  forall t, In t ts -> keeps1 l t h /\ keeps2 l t u.
(** ... as those stored in the basis set do, which are Hermitian. *)
Definition conserved (l : nat) (b : basis CC) (ts : list label) : Prop :=
  exists h u, b_arr b F_h = Some h /\ b_arr b F_u = Some u /\ hermitian l (mat h) /\ hermitian2 l (ten u) /\ kept l (mat h) (ten u) ts.
