(** Integrals over the plane, in polar coordinates: first over the angle, then
    r dr over the half line (real and imaginary parts). *)
From Coq Require Import ZArith Reals.
From Coquelicot Require Import Coquelicot.
Open Scope R_scope.

Definition plane_integral (f : R -> R -> C) (v : C) : Prop :=
  exists g : R -> C,
    (forall r, 0 <= r -> is_RInt (V := C_R_NormedModule) (fun theta => f r theta) 0 (2 * PI) (g r)) /\
    is_RInt_gen (fun r => r * fst (g r)) (at_point 0) (Rbar_locally p_infty) (fst v) /\
    is_RInt_gen (fun r => r * snd (g r)) (at_point 0) (Rbar_locally p_infty) (snd v).

(** <f| V |g> for functions of (r, theta) and a real multiplication operator V(x, y) *)
Definition matrix_element (f g : R -> R -> C) (V : R -> R -> R) (v : C) : Prop :=
  plane_integral (fun r t => (Cconj (f r t) * RtoC (V (r * cos t)%R (r * sin t)%R) * g r t)%C) v.

(** Partial derivatives of complex functions of polar coordinates away from the origin *)
Definition partial_r (f f' : R -> R -> C) : Prop :=
  forall r t : R, 0 < r -> is_derive (fun x : R => fst (f x t)) r (fst (f' r t)) /\ is_derive (fun x : R => snd (f x t)) r (snd (f' r t)).
Definition partial_t (f f' : R -> R -> C) : Prop :=
  forall r t : R, 0 < r -> is_derive (fun x : R => fst (f r x)) t (fst (f' r t)) /\ is_derive (fun x : R => snd (f r x)) t (snd (f' r t)).
(** g = -1/(2 mass) * Laplacian f + V f - b * L_z f (hbar = 1, L_z = -i d/dtheta) *)
Definition hamiltonian (mass b : R) (V : R -> R -> R) (f g : R -> R -> C) : Prop :=
  exists fr frr ft ftt, partial_r f fr /\ partial_r fr frr /\ partial_t f ft /\ partial_t ft ftt /\
    forall r t : R, 0 < r ->
    g r t = (RtoC (- / (2 * mass))%R * (frr r t + RtoC (/ r)%R * fr r t + RtoC (/ r ^ 2)%R * ftt r t)
             + RtoC (V (r * cos t)%R (r * sin t)%R) * f r t + RtoC b * (Ci * ft r t))%C.
