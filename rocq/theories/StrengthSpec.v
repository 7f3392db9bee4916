(** What it means that the exact energies of one basis set are above those of another. *)
From Coq Require Import List Arith ZArith Reals.
From Coquelicot Require Import Coquelicot.
From Verif Require Import Scalar ScalarC Py Numpy BasisSet Systems FockSpec RaiseSpec FockSpectrumSpec.
Open Scope R_scope.

(** The repulsion alpha / sqrt (x^2 + a^2) is at no distance stronger than alpha' / sqrt (x^2 + a'^2). *)
Definition stronger (alpha a alpha' a' : R) : Prop := forall x, alpha / sqrt (x ^ 2 + a ^ 2) <= alpha' / sqrt (x ^ 2 + a' ^ 2).
(** With l spatial orbitals and any number m of electrons, t times every exact energy of b is by
    at least m c below t' times the one in the same place of b'. *)
Definition energies_below (l : nat) (c t t' : R) (b b' : basis CC) : Prop :=
  exists h u h' u', b_arr b F_h = Some h /\ b_arr b F_u = Some u /\ b_arr b' F_h = Some h' /\ b_arr b' F_u = Some u' /\
  forall m, exists E Psi E' Psi',
    spectrum (2 * l) (many_body Spatial l (mat h) (ten u)) m (choose (2 * l) m) E Psi /\
    spectrum (2 * l) (many_body Spatial l (mat h') (ten u')) m (choose (2 * l) m) E' Psi' /\
    forall p, (p < choose (2 * l) m)%nat -> t * E p + INR m * c <= t' * E' p.
(** The least exact energy of b at weight t between b0 and b1 is at least the average of theirs. *)
Definition ground_concave (l : nat) (t : R) (b0 b1 b : basis CC) : Prop :=
  exists h0 u0 h1 u1 h u, b_arr b0 F_h = Some h0 /\ b_arr b0 F_u = Some u0 /\ b_arr b1 F_h = Some h1 /\ b_arr b1 F_u = Some u1 /\ b_arr b F_h = Some h /\ b_arr b F_u = Some u /\
  forall m, (m <= 2 * l)%nat -> exists E0 Psi0 E1 Psi1 E Psi,
    spectrum (2 * l) (many_body Spatial l (mat h0) (ten u0)) m (choose (2 * l) m) E0 Psi0 /\
    spectrum (2 * l) (many_body Spatial l (mat h1) (ten u1)) m (choose (2 * l) m) E1 Psi1 /\
    spectrum (2 * l) (many_body Spatial l (mat h) (ten u)) m (choose (2 * l) m) E Psi /\ (0 < choose (2 * l) m)%nat /\
    (1 - t) * E0 O + t * E1 O <= E O.
