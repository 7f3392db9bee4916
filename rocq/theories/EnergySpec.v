(** Textbook formulas for the energy of a determinant and the Fock matrix. *)
From Coq Require Import List Arith.
From Verif Require Import Scalar Spec.
Import ListNotations.

Section EnergySpec.
  Variable K : scalar.
  Local Open Scope K_scope.
  Notation mx := (nat -> nat -> K).
  Notation tx := (nat -> nat -> nat -> nat -> K).

  (** Spin-orbitals 0..N-1 occupied once, anti-symmetrized u:
      sum_i h_ii + 1/2 sum_ij u_ijij. *)
  Definition E_general (N : nat) (h : mx) (u : tx) : K :=
    sumn N (fun i => h i i) + shalf * sumn N (fun i => sumn N (fun j => u i j i j)).
  (** Orbitals 0..N-1 doubly occupied: 2 sum_i h_ii + sum_ij (2 u_ijij - u_ijji). *)
  Definition E_restricted (N : nat) (h : mx) (u : tx) : K :=
    (1 + 1) * sumn N (fun i => h i i)
    + sumn N (fun i => sumn N (fun j => (1 + 1) * u i j i j - u i j j i)).
  (** f_pq = h_pq + sum_i u_piqi *)
  Definition F_general (N : nat) (h : mx) (u : tx) (p q : nat) : K :=
    h p q + sumn N (fun i => u p i q i).
  (** f_pq = h_pq + sum_i (2 u_piqi - u_piiq) *)
  Definition F_restricted (N : nat) (h : mx) (u : tx) (p q : nat) : K :=
    h p q + sumn N (fun i => (1 + 1) * u p i q i - u p i i q).
End EnergySpec.
Arguments E_general {K}. Arguments E_restricted {K}. Arguments F_general {K}. Arguments F_restricted {K}.
