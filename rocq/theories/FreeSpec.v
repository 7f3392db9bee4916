(** Electrons that do not interact: energies that are sums of orbital energies. *)
From Coq Require Import Arith Reals.
From Coquelicot Require Import Coquelicot.
From Verif Require Import Scalar ScalarC Py Numpy Spec OneDimSpec BasisSet Systems FockSpec InnerSpec FockSpectrumSpec RaiseSpec.
Open Scope R_scope.

(** The matrix h of l orbitals is diagonal, with energies e in any order. *)
Definition diagonal_energies (l : nat) (h : nat -> nat -> C) (e : nat -> R) : Prop :=
  forall p q, (p < l)%nat -> (q < l)%nat -> h p q = if (p =? q)%nat then RtoC (e p) else RtoC 0.
(** No interaction *)
Definition vanishing (l : nat) (u : nat -> nat -> nat -> nat -> C) : Prop :=
  forall p q r s, (p < l)%nat -> (q < l)%nat -> (r < l)%nat -> (s < l)%nat -> u p q r s = RtoC 0.
(** Spin-orbitals 2p and 2p + 1 of a restricted system have the energy of orbital p. *)
Definition spin_energy (k : kind) (e : nat -> R) (P : nat) : R := match k with General => e P | Spatial => e (P / 2)%nat end.
(** The sum of the energies of the occupied ones among n spin-orbitals *)
Fixpoint level_sum (n : nat) (e : nat -> R) (o : occupation) : R :=
  match n with O => 0 | S m => level_sum m e o + (if o m then e m else 0) end.
(** Occupations c 0, c 1, ..., c (d - 1): all the ways to put N particles into n spin-orbitals, each once. *)
Definition enumerates (n N d : nat) (c : nat -> occupation) : Prop :=
  (forall p, (p < d)%nat -> among n (c p) /\ particles n (c p) = N) /\
  (forall p q, (p < d)%nat -> (q < d)%nat -> (forall i, (i < n)%nat -> c p i = c q i) -> p = q) /\
  (forall o, among n o -> particles n o = N -> exists p, (p < d)%nat /\ forall i, c p i = o i).
(** The energies of N electrons are the sums of the energies of N different spin-orbitals, as often as they occur. *)
Definition sums_of_levels (k : kind) (l N d : nat) (e : nat -> R) (E : nat -> R) : Prop :=
  exists c, enumerates (spin_orbitals k l) N d c /\ forall p, (p < d)%nat -> E p = level_sum (spin_orbitals k l) (spin_energy k e) (c p).
(** The energies on the diagonal of h *)
Definition diagonal_of (h : arr CC) (p : nat) : R := Re (mat h p p).
(** A basis set without interaction: its h is diagonal, and the exact energies of any number of electrons are sums of elements of its diagonal. *)
Definition free_electrons (l : nat) (b : basis CC) : Prop :=
  exists h u, b_arr b F_h = Some h /\ b_arr b F_u = Some u /\ diagonal_energies l (mat h) (diagonal_of h) /\
  forall k m d E Psi, spectrum (spin_orbitals k l) (many_body k l (mat h) (ten u)) m d E Psi -> d = choose (spin_orbitals k l) m /\ sums_of_levels k l m d (diagonal_of h) E.
(** A basis set with repulsion: no exact energy is below the sum of elements of the diagonal of h that takes the same place. *)
Definition above_free_electrons (l : nat) (b : basis CC) : Prop :=
  exists h u, b_arr b F_h = Some h /\ b_arr b F_u = Some u /\ diagonal_energies l (mat h) (diagonal_of h) /\
  forall m d E Psi, spectrum (2 * l) (many_body Spatial l (mat h) (ten u)) m d E Psi ->
  exists F, sums_of_levels Spatial l m d (diagonal_of h) F /\ (forall p q, (p <= q)%nat -> (q < d)%nat -> F p <= F q) /\ forall p, (p < d)%nat -> F p <= E p.
