(** Symmetries of a quantum dot that exchange its orbitals in pairs. *)
From Coq Require Import List Arith ZArith Reals.
From Coquelicot Require Import Coquelicot.
From Verif Require Import Scalar ScalarC Py Numpy BasisSet Spec Systems FockSpec InnerSpec RaiseSpec FockSpectrumSpec SharpSpec.
Import ListNotations.
Open Scope R_scope.

(** pi exchanges the orbitals 0, ..., l - 1 in pairs, or leaves them where they are. *)
Definition exchange (l : nat) (pi : nat -> nat) : Prop := forall p, (p < l)%nat -> (pi p < l)%nat /\ pi (pi p) = p.
(** The exchange changes none of the elements. *)
Definition unchanged1 (l : nat) (pi : nat -> nat) (h : nat -> nat -> C) : Prop :=
  forall p q, (p < l)%nat -> (q < l)%nat -> h (pi p) (pi q) = h p q.
Definition unchanged2 (l : nat) (pi : nat -> nat) (u : nat -> nat -> nat -> nat -> C) : Prop :=
  forall p q r s, (p < l)%nat -> (q < l)%nat -> (r < l)%nat -> (s < l)%nat -> u (pi p) (pi q) (pi r) (pi s) = u p q r s.
(** In every determinant of f the integers g of the occupied spin-orbitals add up to M. *)
Definition amounts (n : nat) (g : nat -> Z) (M : Z) (f : state CC) : Prop :=
  forall o, among n o -> f o <> RtoC 0 -> total_charge n g o = M.
(** The integer of an orbital belongs to both of its spin-orbitals. *)
Definition per_spin (k : kind) (g : nat -> Z) (P : nat) : Z := match k with General => g P | Spatial => g (P / 2)%nat end.
Definition spin_of (P : nat) : Z := if Nat.even P then 1%Z else (-1)%Z.
(** A basis set of l orbitals with angular momenta g: the exact states of m electrons come in two complete
    lists with the same energies.  States in the same place of the lists have opposite angular
    momenta and the same spin projection.  A level with angular momentum is degenerate. *)
Definition angular_pairs (l : nat) (b : basis CC) (g : nat -> Z) : Prop :=
  exists h u, b_arr b F_h = Some h /\ b_arr b F_u = Some u /\
  forall m, let n := (2 * l)%nat in let X := many_body Spatial l (mat h) (ten u) in let d := choose n m in
    (exists E Psi Psi' M S, spectrum n X m d E Psi /\ spectrum n X m d E Psi' /\ forall p, (p < d)%nat ->
      amounts n (per_spin Spatial g) (M p) (Psi p) /\ amounts n (per_spin Spatial g) (- M p) (Psi' p) /\
      amounts n spin_of (S p) (Psi p) /\ amounts n spin_of (S p) (Psi' p)) /\
    (forall E Psi p M, spectrum n X m d E Psi -> (p < d)%nat -> amounts n (per_spin Spatial g) M (Psi p) -> M <> 0%Z ->
      exists q, (q < d)%nat /\ q <> p /\ E q = E p).
(** The energy of the state (n, m) of an electron in a magnetic field *)
Definition field_energy (omega_0 omega_c : R) (s : Z * Z) : R :=
  sqrt (omega_0 ^ 2 + omega_c ^ 2 / 4) * (2 * IZR (fst s) + IZR (Z.abs (snd s)) + 1) - omega_c * IZR (snd s) / 2.
(** The states in rows fill every level they belong to. *)
Definition whole_levels (omega_0 omega_c : R) (rows : list (Z * Z)) : Prop :=
  forall s t, In s rows -> (0 <= fst t)%Z -> field_energy omega_0 omega_c t = field_energy omega_0 omega_c s -> In t rows.
(** Two basis sets in which any number of electrons has the same exact energies *)
Definition same_energies (l : nat) (b b' : basis CC) : Prop :=
  exists h u h' u', b_arr b F_h = Some h /\ b_arr b F_u = Some u /\ b_arr b' F_h = Some h' /\ b_arr b' F_u = Some u' /\
  forall k m, let n := spin_orbitals k l in exists E Psi Psi', spectrum n (many_body k l (mat h) (ten u)) m (choose n m) E Psi /\ spectrum n (many_body k l (mat h') (ten u')) m (choose n m) E Psi'.
