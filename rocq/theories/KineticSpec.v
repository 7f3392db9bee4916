(** Bounds on a Hermitian matrix as a quadratic form. *)
From Coq Require Import Arith Reals.
From Coquelicot Require Import Coquelicot.
From Verif Require Import Scalar ScalarC GridSpec.
Open Scope R_scope.

Definition expectation (l : nat) (h : nat -> nat -> C) (x : nat -> C) : C :=
  sumn (K := CC) l (fun i => sumn (K := CC) l (fun j => (Cconj (x i) * h i j * x j)%C)).
Definition sqnorm (l : nat) (x : nat -> C) : R := rsum l (fun i => Cmod (x i) ^ 2).
(** Every expectation value is real and between lo and hi times the squared norm. *)
Definition form_between (l : nat) (h : nat -> nat -> C) (lo hi : R) : Prop :=
  forall x, Im (expectation l h x) = 0 /\ lo * sqnorm l x <= Re (expectation l h x) <= hi * sqnorm l x.
(** E is an eigenvalue: some vector other than zero is only scaled. *)
Definition eigenvalue (l : nat) (h : nat -> nat -> C) (E : C) : Prop :=
  exists x, (exists i, (i < l)%nat /\ x i <> RtoC 0) /\ forall i, (i < l)%nat -> sumn (K := CC) l (fun j => (h i j * x j)%C) = (E * x i)%C.
