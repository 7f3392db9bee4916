(** Interactions that raise the energy of every state of two particles. *)
From Coq Require Import Arith Reals.
From Coquelicot Require Import Coquelicot.
From Verif Require Import Scalar ScalarC Spec BasisSet Systems GridSpec KineticSpec FockSpec InnerSpec.
Open Scope R_scope.

(** The interaction energy of the two-particle state with amplitudes c_pq, sum c_pq |pq> *)
Definition pair_energy (l : nat) (u : nat -> nat -> nat -> nat -> C) (c : nat -> nat -> C) : C :=
  sumn (K := CC) l (fun p => sumn (K := CC) l (fun q => sumn (K := CC) l (fun r => sumn (K := CC) l (fun s =>
    (Cconj (c p q) * u p q r s * c r s)%C)))).
Definition raising (l : nat) (u : nat -> nat -> nat -> nat -> C) : Prop := forall c, nonneg (pair_energy l u c).
(** Expectation values of h are real and at least m times the squared norm. *)
Definition at_least (l : nat) (h : nat -> nat -> C) (m : R) : Prop :=
  forall x, Im (expectation l h x) = 0 /\ m * sqnorm l x <= Re (expectation l h x).
(** Every state of N particles has a real energy <f|Xf>, of at least E0 <f|f>. *)
Definition energies_above (l : nat) (X : state CC -> state CC) (N : nat) (E0 : R) : Prop :=
  forall f : state CC, particle_state l N f -> Im (inner l f (X f)) = 0 /\ E0 * Re (inner l f f) <= Re (inner l f (X f)).
(** h is diagonal, with energies that do not decrease along the diagonal. *)
Definition diagonal_levels (l : nat) (h : nat -> nat -> C) (e : nat -> R) : Prop :=
  (forall p q, (p < l)%nat -> (q < l)%nat -> h p q = if (p =? q)%nat then RtoC (e p) else RtoC 0) /\
  (forall p q, (p <= q)%nat -> (q < l)%nat -> e p <= e q).
(** The many-body Hamiltonian with elements h and u, the number of spin-orbitals and the number
    of electrons.  A restricted ("spatial") system has two spin-orbitals and two electrons
    per orbital and plain elements u, a general one has anti-symmetrized elements. *)
Definition many_body (k : kind) (l : nat) (h : nat -> nat -> C) (u : nat -> nat -> nat -> nat -> C) : state CC -> state CC :=
  match k with
  | General => hamiltonian (K := CC) l (quarter (K := CC)) h u
  | Spatial => hamiltonian (K := CC) (2 * l) (shalf (s := CC)) (dbl1 (K := CC) h) (dbl2 (K := CC) u)
  end.
Definition spin_orbitals (k : kind) (l : nat) : nat := match k with General => l | Spatial => 2 * l end.
Definition electrons (k : kind) (n : nat) : nat := match k with General => n | Spatial => 2 * n end.
(** The determinant in which the lowest spin-orbitals are occupied *)
Definition reference_det (k : kind) (l N : nat) : state CC := determinant (K := CC) (spin_orbitals k l) (lowest (electrons k N)).
