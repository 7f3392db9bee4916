(** Specification vocabulary, in terms of plain indexed families of numbers
    ([nat -> nat -> K] and so on).  Nothing here mentions the model of the
    library: property theorems are stated against these definitions. *)
From Coq Require Import List Arith ZArith Lia Bool.
From Verif Require Import Scalar.
Import ListNotations.

Section Spec.
  Variable K : scalar.
  Local Open Scope K_scope.

  Definition delta (p q : nat) : K := if (p =? q)%nat then 1 else 0.
  (** Matrix product with inner dimension [n]. *)
  Definition mmul (n : nat) (A B : nat -> nat -> K) : nat -> nat -> K :=
    fun p q => sumn n (fun x => A p x * B x q).
  (** Conjugate transpose. *)
  Definition adj (A : nat -> nat -> K) : nat -> nat -> K := fun p q => sconj (A q p).

  (** h'[p,q] = sum_ab D[p,a] h[a,b] C[b,q], old dimension [n]. *)
  Definition T1 (n : nat) (h C D : nat -> nat -> K) (p q : nat) : K :=
    sumn n (fun a => sumn n (fun b => D p a * h a b * C b q)).
  (** u'[p,q,r,s] = sum_abcd D[p,a] D[q,b] u[a,b,c,d] C[c,r] C[d,s]. *)
  Definition T2 (n : nat) (u : nat -> nat -> nat -> nat -> K) (C D : nat -> nat -> K) (p q r s : nat) : K :=
    sumn n (fun a => sumn n (fun b => sumn n (fun c => sumn n (fun d =>
      D p a * D q b * u a b c d * C c r * C d s)))).

  (** A square matrix equals its adjoint. *)
  Definition hermitian (n : nat) (A : nat -> nat -> K) : Prop :=
    forall p q, (p < n)%nat -> (q < n)%nat -> A p q = sconj (A q p).
  (** Exchange of the two particles. *)
  Definition particle_sym (n : nat) (u : nat -> nat -> nat -> nat -> K) : Prop :=
    forall p q r s, (p < n)%nat -> (q < n)%nat -> (r < n)%nat -> (s < n)%nat -> u p q r s = u q p s r.
  Definition hermitian2 (n : nat) (u : nat -> nat -> nat -> nat -> K) : Prop :=
    forall p q r s, (p < n)%nat -> (q < n)%nat -> (r < n)%nat -> (s < n)%nat -> u p q r s = sconj (u r s p q).
  (** Antisymmetry in the ket pair, and in the bra pair. *)
  Definition antisym_ket (n : nat) (u : nat -> nat -> nat -> nat -> K) : Prop :=
    forall p q r s, (p < n)%nat -> (q < n)%nat -> (r < n)%nat -> (s < n)%nat -> u p q r s = - u p q s r.
  Definition antisym_bra (n : nat) (u : nat -> nat -> nat -> nat -> K) : Prop :=
    forall p q r s, (p < n)%nat -> (q < n)%nat -> (r < n)%nat -> (s < n)%nat -> u p q r s = - u q p r s.

  (** Even/odd index pairs (2p, 2p+1) stand for spin up/down of orbital p. *)
  Definition same_parity (P Q : nat) : bool := Bool.eqb (Nat.even P) (Nat.even Q).
  (** One-body and two-body elements between spin-orbitals. *)
  Definition dbl1 (h : nat -> nat -> K) (P Q : nat) : K :=
    if same_parity P Q then h (P / 2)%nat (Q / 2)%nat else 0.
  Definition dbl2 (u : nat -> nat -> nat -> nat -> K) (P Q R S : nat) : K :=
    if same_parity P R && same_parity Q S then u (P / 2)%nat (Q / 2)%nat (R / 2)%nat (S / 2)%nat else 0.
  (** Direct minus exchange. *)
  Definition exch (u : nat -> nat -> nat -> nat -> K) (p q r s : nat) : K := u p q r s - u p q s r.

  (** Two-component spin vectors: inner product, orthonormal pairs, the matrix
      with columns a and b. *)
  Definition ip2 (a b : list K) : K := sumn 2 (fun i => sconj (nth i a 0) * nth i b 0).
  Definition orthonormal_pair (a b : list K) : Prop :=
    length a = 2%nat /\ length b = 2%nat /\ ip2 a a = 1 /\ ip2 b b = 1 /\ ip2 a b = 0.
  Definition spin_cols (a b : list K) (i j : nat) : K := if (j =? 0)%nat then nth i a 0 else nth i b 0.
  (** The Pauli matrices. *)
  Definition pauli_x (i j : nat) : K := match i, j with O, S O => 1 | S O, O => 1 | _, _ => 0 end.
  Definition pauli_y (i j : nat) : K := match i, j with O, S O => - si | S O, O => si | _, _ => 0 end.
  Definition pauli_z (i j : nat) : K := match i, j with O, O => 1 | S O, S O => - (1) | _, _ => 0 end.
End Spec.

Arguments delta {K}. Arguments mmul {K}. Arguments adj {K}. Arguments T1 {K}. Arguments T2 {K}.
Arguments hermitian {K}. Arguments particle_sym {K}. Arguments hermitian2 {K}.
Arguments antisym_ket {K}. Arguments antisym_bra {K}. Arguments dbl1 {K}.
Arguments dbl2 {K}. Arguments exch {K}. Arguments ip2 {K}. Arguments orthonormal_pair {K}.
Arguments spin_cols {K}. Arguments pauli_x {K}. Arguments pauli_y {K}. Arguments pauli_z {K}.
