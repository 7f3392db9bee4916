(** Second quantization: the Fock space of fermions over numbered spin-orbitals,
    creation and annihilation operators with the usual (Jordan-Wigner) signs,
    determinants, and one- and two-body operators.  Textbook vocabulary; nothing
    here mentions the model of the library. *)
From Coq Require Import List Arith Bool.
From Verif Require Import Scalar Spec.
Import ListNotations.

(** Which spin-orbitals are occupied. *)
Definition occupation := nat -> bool.
(** Occupation [o] with spin-orbital [p] set to [x]. *)
Definition put (p : nat) (x : bool) (o : occupation) : occupation := fun q => if (q =? p)%nat then x else o q.
(** The [n] lowest spin-orbitals occupied. *)
Definition lowest (n : nat) : occupation := fun p => (p <? n)%nat.
(** Spin-orbitals 2p and 2p+1 are both occupied or both empty. *)
Definition closed_shell (c : occupation) : Prop := forall p, c (2 * p)%nat = c (2 * p + 1)%nat.

Section FockSpec.
  Variable K : scalar.
  Local Open Scope K_scope.

  (** A state: one amplitude per occupation. *)
  Definition state := occupation -> K.
  (** Amplitudes depend on which spin-orbitals are occupied only. *)
  Definition proper (f : state) : Prop := forall o o', (forall p, o p = o' p) -> f o = f o'.

  (** (-1)^(number of occupied spin-orbitals below p) *)
  Fixpoint parity (p : nat) (o : occupation) : K :=
    match p with O => 1 | S q => if o q then - parity q o else parity q o end.
  (** a_p and its adjoint: (a_p f)(o) collects the occupation with p added ... *)
  Definition annihilate (p : nat) (f : state) : state :=
    fun o => if o p then 0 else parity p o * f (put p true o).
  (** ... and (a_p^+ f)(o) the one with p removed. *)
  Definition create (p : nat) (f : state) : state :=
    fun o => if o p then parity p o * f (put p false o) else 0.

  (** The determinant with occupation [c] among the first [l] spin-orbitals.  The
      amplitude of a state along it is the value of the state at [c]. *)
  Definition determinant (l : nat) (c : occupation) : state :=
    fun o => if forallb (fun p => Bool.eqb (o p) (c p)) (seq 0 l) then 1 else 0.

  (** sum_pq A_pq a_p^+ a_q *)
  Definition one_body (l : nat) (A : nat -> nat -> K) (f : state) : state := fun o =>
    sumn l (fun p => sumn l (fun q => A p q * create p (annihilate q f) o)).
  (** sum_pqrs U_pqrs a_p^+ a_q^+ a_s a_r *)
  Definition two_body (l : nat) (U : nat -> nat -> nat -> nat -> K) (f : state) : state := fun o =>
    sumn l (fun p => sumn l (fun q => sumn l (fun r => sumn l (fun s =>
      U p q r s * create p (create q (annihilate s (annihilate r f))) o)))).
  (** H = sum_pq h_pq a_p^+ a_q + x sum_pqrs u_pqrs a_p^+ a_q^+ a_s a_r; the factor x
      is 1/2 for plain and 1/4 for anti-symmetrized elements u. *)
  Definition hamiltonian (l : nat) (x : K) (h : nat -> nat -> K) (u : nat -> nat -> nat -> nat -> K) (f : state) : state :=
    fun o => one_body l h f o + x * two_body l u f o.
  (** The same with other creators and annihilators in place of a_p^+ and a_p. *)
  Definition one_body_in (k : nat) (cr an : nat -> state -> state) (A : nat -> nat -> K) (f : state) : state := fun o =>
    sumn k (fun p => sumn k (fun q => A p q * cr p (an q f) o)).
  Definition two_body_in (k : nat) (cr an : nat -> state -> state) (U : nat -> nat -> nat -> nat -> K) (f : state) : state :=
    fun o => sumn k (fun p => sumn k (fun q => sumn k (fun r => sumn k (fun s =>
      U p q r s * cr p (cr q (an s (an r f))) o)))).
  (** Creator of sum_a C_ap |a> and annihilator of sum_a D_pa <a|. *)
  Definition create_in (l : nat) (C : nat -> nat -> K) (p : nat) (f : state) : state := fun o =>
    sumn l (fun a => C a p * create a f o).
  Definition annihilate_in (l : nat) (D : nat -> nat -> K) (p : nat) (f : state) : state := fun o =>
    sumn l (fun a => D p a * annihilate a f o).
  Definition quarter : K := shalf * shalf.
  (** <c| X |c> for the determinant [c]. *)
  Definition expect (l : nat) (X : state -> state) (c : occupation) : K := X (determinant l c) c.
End FockSpec.
Arguments proper {K}. Arguments parity {K}. Arguments annihilate {K}. Arguments create {K}.
Arguments determinant {K}. Arguments one_body {K}. Arguments two_body {K}. Arguments hamiltonian {K}.
Arguments one_body_in {K}. Arguments two_body_in {K}. Arguments create_in {K}. Arguments annihilate_in {K}.
Arguments quarter {K}. Arguments expect {K}.
