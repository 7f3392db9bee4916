(** The inner product of Fock space, and energies of arbitrary states. *)
From Coq Require Import List Arith Bool.
From Verif Require Import Scalar Spec FockSpec.
Import ListNotations.

Section InnerSpec.
  Variable K : scalar.
  Local Open Scope K_scope.
  (** Sum over the occupations of the first [l] spin-orbitals; the others are as in [o]. *)
  Fixpoint total (l : nat) (F : occupation -> K) (o : occupation) : K :=
    match l with O => F o | S k => total k F (put k false o) + total k F (put k true o) end.
  (** <f|g> *)
  Definition inner (l : nat) (f g : state K) : K := total l (fun o => sconj (f o) * g o) (fun _ => false).
  (** Occupations of the first [l] spin-orbitals, and the number of particles in one *)
  Definition among (l : nat) (o : occupation) : Prop := forall p, (l <= p)%nat -> o p = false.
  Fixpoint particles (l : nat) (o : occupation) : nat := match l with O => O | S k => particles k o + (if o k then 1 else 0) end.
  (** A state of [N] particles *)
  Definition particle_state (l N : nat) (f : state K) : Prop := proper f /\ forall o, among l o -> particles l o <> N -> f o = 0.
  (** f is an eigenstate of X for the value E, and it is not the null vector *)
  Definition eigenstate (l : nat) (X : state K -> state K) (E : K) (f : state K) : Prop :=
    proper f /\ (exists o, among l o /\ f o <> 0) /\ forall o, among l o -> X f o = E * f o.
End InnerSpec.
Arguments total {K}. Arguments inner {K}. Arguments particle_state {K}. Arguments eigenstate {K}.
