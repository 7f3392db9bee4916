(** The spin of many electrons in spin-orbitals that come in pairs: 2 p has spin up, 2 p + 1
    spin down.  Spins and their projections are counted in halves. *)
From Coq Require Import Arith ZArith Reals.
From Coquelicot Require Import Coquelicot.
From Verif Require Import Scalar ScalarC Spec FockSpec InnerSpec.
Open Scope R_scope.

(** The sum over the electrons of a 2 x 2 matrix acting on the spin *)
Definition spin_op (l : nat) (m : nat -> nat -> C) : state CC -> state CC :=
  one_body (K := CC) (2 * l) (fun P Q => if (P / 2 =? Q / 2)%nat then m (P mod 2)%nat (Q mod 2)%nat else RtoC 0).
Definition S_x (l : nat) := spin_op l (fun i j => (RtoC (1 / 2) * pauli_x (K := CC) i j)%C).
Definition S_y (l : nat) := spin_op l (fun i j => (RtoC (1 / 2) * pauli_y (K := CC) i j)%C).
Definition S_z (l : nat) := spin_op l (fun i j => (RtoC (1 / 2) * pauli_z (K := CC) i j)%C).
Definition S_squared (l : nat) (f : state CC) : state CC := fun o => (S_x l (S_x l f) o + S_y l (S_y l f) o + S_z l (S_z l f) o)%C.
(** S_x - i S_y and S_x + i S_y *)
Definition S_minus (l : nat) (f : state CC) : state CC := fun o => (S_x l f o - Ci * S_y l f o)%C.
Definition S_plus (l : nat) (f : state CC) : state CC := fun o => (S_x l f o + Ci * S_y l f o)%C.

(** f has the projection M/2 ... *)
Definition projection (l : nat) (M : Z) (f : state CC) : Prop := forall o, among (2 * l) o -> S_z l f o = (RtoC (IZR M / 2) * f o)%C.
(** ... and the spin s/2: S^2 = s/2 (s/2 + 1) *)
Definition total_spin (l : nat) (s : nat) (f : state CC) : Prop :=
  forall o, among (2 * l) o -> S_squared l f o = (RtoC (INR s / 2 * (INR s / 2 + 1)) * f o)%C.
(** The projections that belong to the spin s/2 *)
Definition in_multiplet (s : nat) (M : Z) : Prop := (- Z.of_nat s <= M <= Z.of_nat s)%Z /\ Z.even (Z.of_nat s - M) = true.
(** The levels E 0, ..., E (d - 1) of m electrons in l orbitals, with spins S p and projections M p,
    come in multiplets: the spins are possible for m electrons, and together with a level of spin s
    there are levels of the same energy and spin with all the projections. *)
Definition multiplets (l m d : nat) (E : nat -> R) (S : nat -> nat) (M : nat -> Z) : Prop :=
  forall p, (p < d)%nat -> in_multiplet (S p) (M p) /\ (S p <= m)%nat /\ (S p + m <= 2 * l)%nat /\ Nat.even (m - S p) = true /\
    forall M', in_multiplet (S p) M' -> exists q, (q < d)%nat /\ E q = E p /\ S q = S p /\ M q = M'.
