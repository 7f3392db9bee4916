(** Angular integrals of the two-dimensional oscillator
    (quantum_systems/quantum_dots/two_dim/two_dim_helper.py:72-110). *)
From Coq Require Import ZArith Reals Bool.
From Coquelicot Require Import Coquelicot.
Open Scope R_scope.

(** two_dim_helper.py:72-74 *)
Definition smooth_theta_integral_1 (m_p m_q : Z) : R := IZR ((-1) ^ (Z.abs (m_p - m_q) mod 2)) * (3 * PI / 4).
(** two_dim_helper.py:77-79 *)
Definition smooth_theta_integral_2 (m_p m_q : Z) : R := IZR ((-1) ^ (Z.abs (m_p - m_q) mod 2)) * PI.
(** two_dim_helper.py:82-86 *)
Definition theta_1_integral (m_p m_q : Z) : C :=
  if (Z.abs (m_p - m_q) =? 1)%Z then RtoC PI else RtoC 0.
(** two_dim_helper.py:89-93 *)
Definition theta_2_integral (m_p m_q : Z) : C :=
  if (Z.abs (m_p - m_q) =? 1)%Z then (RtoC (IZR (- (m_p - m_q))) * Ci * RtoC PI)%C else RtoC 0.
(** two_dim_helper.py:96-102 *)
Definition theta_1_tilde_integral (m_p m_q : Z) : R :=
  if (Z.abs (m_p - m_q) mod 2 =? 1)%Z then 0
  else
    let sign := if ((Z.abs (m_p - m_q) / 2) mod 2 =? 0)%Z then 1%Z else (-1)%Z in
    IZR (sign * 4) / IZR (1 - (m_p - m_q) ^ 2).
(** two_dim_helper.py:105-109 *)
Definition theta_2_tilde_integral (m_p m_q : Z) : R :=
  if (Z.abs (m_p - m_q) mod 2 =? 1)%Z then 0
  else 4 / IZR (1 - (m_p - m_q) ^ 2).
