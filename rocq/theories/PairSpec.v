(** The Coulomb integral of two electrons in the plane. *)
From Coq Require Import Reals.
From Coquelicot Require Import Coquelicot.
From Verif Require Import OrbitalSpec.
Open Scope R_scope.

(** The point with polar coordinates (r, t), as a complex number x + i y *)
Definition point (r t : R) : C := (r * cos t, r * sin t).
(** A function of the polar coordinates as a function of the point *)
Definition on_plane (f : R -> R -> C) (F : C -> C) : Prop := forall r t, 0 <= r -> F (point r t) = f r t.

(** The integral of F(x_1, x_2) / |x_1 - x_2| over both positions.  The coordinates are the
    centre X = (x_1 + x_2) / 2 and the separation x = x_1 - x_2, whose Jacobian is one:
    first the integral over X, then the one over x. *)
Definition coulomb_integral (F : C -> C -> C) (v : C) : Prop :=
  exists G : R -> R -> C,
    (forall r t, 0 <= r -> plane_integral (fun R T => F (point R T + point r t / RtoC 2)%C (point R T - point r t / RtoC 2)%C) (G r t)) /\
    plane_integral (fun r t => (RtoC (/ r)%R * G r t)%C) v.
(** <pq| 1/|x_1 - x_2| |rs> *)
Definition interaction (p q r s : C -> C) (v : C) : Prop :=
  coulomb_integral (fun x1 x2 => (Cconj (p x1) * Cconj (q x2) * r x1 * s x2)%C) v.
