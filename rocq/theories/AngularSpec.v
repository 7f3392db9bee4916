(** What the angular integrals should be. *)
From Coq Require Import ZArith Reals.
From Coquelicot Require Import Coquelicot.
Open Scope R_scope.

(** exp(i x) *)
Definition cis (x : R) : C := (cos x, sin x).
(** v is the integral over [0, 2 pi] of f(t) conj(exp(i m_p t)) exp(i m_q t) *)
Definition angular_integral (f : R -> R) (m_p m_q : Z) (v : C) : Prop :=
  is_RInt (V := C_R_NormedModule) (fun t => (Cconj (cis (IZR m_p * t)) * RtoC (f t) * cis (IZR m_q * t))%C) 0 (2 * PI) v.
