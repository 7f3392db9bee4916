(** Gauges for rounding errors: the unit roundoff, the largest error of an underflow, the
    growth of relative errors over [k] operations, and the size of a complex number. *)
From Coq Require Import Reals.
From Coquelicot Require Import Coquelicot.
From Verif Require Import GridSpec.
Open Scope R_scope.

Definition unit_roundoff : R := / 2 ^ 53.
Definition underflow : R := / 2 ^ 1075.
Definition grow (k : nat) : R := (1 + unit_roundoff) ^ k.
Definition size (z : C) : R := Rabs (fst z) + Rabs (snd z).
(** The double sum of reals *)
Definition rsum2 (n m : nat) (f : nat -> nat -> R) : R := rsum n (fun i => rsum m (f i)).
(** Within [rel] of [x], relative to [x] *)
Definition within (rel x y : R) : Prop := Rabs (y - x) <= rel * Rabs x.

(** The formulas of the basis change and of the energies with every number replaced by its size *)
Definition total (n : nat) (f : nat -> C) : R := rsum n (fun k => size (f k)).
Definition T1_size (n : nat) (h c d : nat -> nat -> C) (p q : nat) : R :=
  rsum n (fun a => rsum n (fun b => size (d p a) * size (h a b) * size (c b q))).
Definition T2_size (n : nat) (u : nat -> nat -> nat -> nat -> C) (c d : nat -> nat -> C) (p q r s : nat) : R :=
  rsum n (fun a => rsum n (fun b => rsum n (fun g => rsum n (fun e =>
    size (d p a) * size (d q b) * size (u a b g e) * size (c g r) * size (c e s))))).
Definition E_size (n : nat) (h : nat -> nat -> C) (u : nat -> nat -> nat -> nat -> C) : R :=
  rsum n (fun i => size (h i i)) + 1 / 2 * rsum2 n n (fun i j => size (u i j i j)).
Definition E_size_restricted (n : nat) (h : nat -> nat -> C) (u : nat -> nat -> nat -> nat -> C) : R :=
  2 * rsum n (fun i => size (h i i)) + rsum2 n n (fun i j => 2 * size (u i j i j) + size (u i j j i)).
(** The trapezoidal rule with step [w] for a function of the index *)
Definition trap (n : nat) (w : R) (g : nat -> R) : R := w / 2 * rsum (n - 1) (fun i => g i + g (S i)).
(** The formula of the two-body integrals with every number replaced by its size, and the
    contribution of underflows; [w] is the spacing and [V] the kernel *)
Definition inner_size (N : nat) (w : R) (V : nat -> nat -> R) (f g : nat -> C) (i : nat) : R :=
  trap N w (fun j => size (f j) * V i j * size (g j)).
Definition integral_size (N : nat) (w : R) (V : nat -> nat -> R) (p q r s : nat -> C) : R :=
  trap N w (fun j => size (p j) * inner_size N w V q s j * size (r j)).
Definition inner_underflow (N : nat) (w : R) (g : nat -> C) : R :=
  trap N w (fun j => 4 * underflow * (size (g j) + 1)) + 2 * underflow * (w + 1).
Definition integral_underflow (N : nat) (w : R) (p r s : nat -> C) : R :=
  trap N w (fun j => (size (p j) * inner_underflow N w s + 4 * underflow) * size (r j) + 4 * underflow) + 2 * underflow * (w + 1).
(** [computed] differs from [exact] by the relative errors of [k] roundings, measured against
    [a], and by underflows of at most [t] *)
Definition accurate (k : nat) (t a : R) (exact computed : C) : Prop :=
  size (Cminus computed exact) <= (grow k - 1) * a + grow k * t.
