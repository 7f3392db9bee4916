(** What happens to the energy of a determinant when its orbitals are mixed with empty ones. *)
From Coq Require Import Reals List Arith Bool.
From Coquelicot Require Import Coquelicot.
From Verif Require Import Scalar ScalarC Py Numpy Spec.
Import ListNotations.

Section Rotation.
  Variable K : scalar.
  Local Open Scope K_scope.
  Notation mx := (nat -> nat -> K).
  Notation tx := (nat -> nat -> nat -> nat -> K).
  (** The change of the one-body density matrix when the first N orbitals become columns of C *)
  Definition density_change (N : nat) (C Ct : mx) (q p : nat) : K :=
    sumn N (fun i => C q i * Ct i p) - (if (q =? p)%nat && (q <? N)%nat then 1 else 0).
  (** tr (D f), and the interaction of two density matrices *)
  Definition trace2 (l : nat) (D f : mx) : K := sumn l (fun p => sumn l (fun q => D q p * f p q)).
  Definition curv (l : nat) (G : tx) (D D' : mx) : K :=
    sumn l (fun p => sumn l (fun q => sumn l (fun r => sumn l (fun s => D r p * D' s q * G p q r s)))).
  (** The plane rotation of occupied orbital i towards empty orbital a, with a phase z:
      phi_i' = c phi_i + s z phi_a, phi_a' = c phi_a - s conj(z) phi_i *)
  Definition plane (i a : nat) (c s z : K) (p q : nat) : K :=
    if (q =? i)%nat then (if (p =? i)%nat then c else if (p =? a)%nat then s * z else 0)
    else if (q =? a)%nat then (if (p =? a)%nat then c else if (p =? i)%nat then - (s * sconj z) else 0)
    else delta p q.
End Rotation.
Arguments density_change {K}. Arguments trace2 {K}. Arguments curv {K}. Arguments plane {K}.
(** The coefficient matrix of the rotation by the angle t *)
Definition rotation (l i a : nat) (t : R) (z : C) : arr CC :=
  @Arr CC [l; l] Complex128 (fun idx => match idx with [p; q] => @plane CC i a (RtoC (cos t)) (RtoC (sin t)) z p q | _ => RtoC 0 end).
(** The coefficient matrix that puts empty orbital a in the place of occupied orbital i *)
Definition promotion (K : scalar) (l i a : nat) : arr K :=
  @Arr K [l; l] Complex128 (fun idx => match idx with [p; q] => @plane K i a s0 s1 s1 p q | _ => s0 end).
