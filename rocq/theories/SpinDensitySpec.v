(** The density of electrons with spin: both spins are counted, and a product of a spin-up and
    a spin-down orbital contributes nothing.  Spin-orbital 2p (2p + 1) is spatial orbital p with
    the first (second) of two orthogonal spin functions. *)
From Coq Require Import Arith Bool.
From Verif Require Import Scalar.

Section SpinDensity.
  Variable K : scalar.
  Local Open Scope K_scope.
  Definition spin_density (l : nat) (rho : nat -> nat -> K) (bra ket : nat -> K) : K :=
    sumn l (fun p => sumn l (fun q => bra p * (rho (2 * q)%nat (2 * p)%nat + rho (2 * q + 1)%nat (2 * p + 1)%nat) * ket q)).
  (** The products of orbitals with different spins *)
  Definition spin_mixing (l : nat) (rho : nat -> nat -> K) (bra ket : nat -> K) : K :=
    sumn l (fun p => sumn l (fun q => bra p * (rho (2 * q)%nat (2 * p + 1)%nat + rho (2 * q + 1)%nat (2 * p)%nat) * ket q)).
  (** A density matrix without coherence between the two spins *)
  Definition spin_diagonal (l : nat) (rho : nat -> nat -> K) : Prop :=
    forall p q, (p < l)%nat -> (q < l)%nat -> rho (2 * q)%nat (2 * p + 1)%nat = 0 /\ rho (2 * q + 1)%nat (2 * p)%nat = 0.
  (** One particle in spatial orbital k with spin x up + y down *)
  Definition one_particle (k : nat) (x y : K) (Q P : nat) : K :=
    if (Q / 2 =? k)%nat && (P / 2 =? k)%nat then (if Nat.even Q then x else y) * sconj (if Nat.even P then x else y) else 0.
End SpinDensity.
Arguments spin_density {K}. Arguments spin_mixing {K}. Arguments spin_diagonal {K}. Arguments one_particle {K}.
