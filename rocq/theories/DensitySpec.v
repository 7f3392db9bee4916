(** The one-body density, written from the physics. *)
From Coq Require Import List Arith.
From Verif Require Import Scalar Py Numpy Spec BasisSet BasisSpec.
Import ListNotations.

Section DensitySpec.
  Variable K : scalar.
  Local Open Scope K_scope.
  (** rho(x) = sum_pq bra_p(x) rho[q,p] ket_q(x) *)
  Definition density_at (n : nat) (rho : nat -> nat -> K) (bra ket : nat -> K) : K :=
    sumn n (fun p => sumn n (fun q => bra p * rho q p * ket q)).
  (** The value of orbital p at the grid point x. *)
  Definition orb (a : arr K) (x : list nat) (p : nat) : K := get a (p :: x).
  (** The same result: the same exception, or arrays equal in shape and elements. *)
  Definition same_result (r r' : res (arr K)) : Prop :=
    match r, r' with
    | Ok a, Ok a' => aeq a a'
    | Err e, Err e' => e = e'
    | _, _ => False
    end.
End DensitySpec.
Arguments density_at {K}. Arguments orb {K}. Arguments same_result {K}.
