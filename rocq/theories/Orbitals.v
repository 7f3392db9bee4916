(** The two-dimensional oscillator functions and the matrices computed from
    them (quantum_systems/quantum_dots/two_dim/two_dim_helper.py:15-69, 307-344
    and two_dim_ho.py:82-140, 170-190), in exact arithmetic.  The quantum number
    n is a natural number, m an integer. *)
From Coq Require Import List Arith ZArith Reals Bool.
From Coquelicot Require Import Coquelicot.
From Verif Require Import TwoDim Angular.
Open Scope R_scope.

(** two_dim_helper.py:36-37 *)
Definition bohr_radius (mass omega : R) : R := sqrt (mass * omega).
(** two_dim_helper.py:25-33 *)
Definition spf_norm (n : nat) (m : Z) (mass omega : R) : R :=
  bohr_radius mass omega * sqrt (INR (fact n) / (PI * INR (fact (n + Z.abs_nat m)))).
(** two_dim_helper.py:40-41: np.exp(1j * m * theta) *)
Definition spf_theta (theta : R) (m : Z) : C := (cos (IZR m * theta), sin (IZR m * theta)).
(** scipy.special.assoc_laguerre(x, n, k) and sympy.assoc_laguerre(n, k, x) *)
Definition laguerre (n k : nat) (x : R) : R :=
  sum_f_R0 (fun i => (-1) ^ i * (INR (fact (n + k)) / (INR (fact (n - i)) * INR (fact (k + i)) * INR (fact i))) * x ^ i) n.
(** two_dim_helper.py:44-50 and 53-62 (the numeric and the symbolic function) *)
Definition spf_radial (n : nat) (m : Z) (mass omega : R) (r : R) : R :=
  let a := bohr_radius mass omega in
  (a * r) ^ Z.abs_nat m * laguerre n (Z.abs_nat m) (a ^ 2 * r ^ 2) * exp (- (a ^ 2) * r ^ 2 / 2).
(** two_dim_helper.py:15-22 for the state (n, m) *)
Definition spf_state (n : nat) (m : Z) (mass omega : R) (r theta : R) : C :=
  (RtoC (spf_norm n m mass omega) * spf_theta theta m * RtoC (spf_radial n m mass omega r))%C.
(** two_dim_helper.py:65-70: sympy.integrate over (0, oo); the radial functions are real *)
Definition radial_integral (r_p r_q : R -> R) (order : nat) : R :=
  RInt_gen (fun r => r * r ^ order * r_p r * r_q r) (at_point 0) (Rbar_locally p_infty).

(** A state of the table, as the two arguments n and m of the functions above *)
Definition qn (s : Z * Z) : nat := Z.to_nat (fst s).
Definition qm (s : Z * Z) : Z := snd s.

(** two_dim_ho.py:113-140: element [i, p, q] of the dipole array for the table of
    quantum numbers [nm] ([get_indices_nm]) *)
Definition dipole_element (nm : nat -> Z * Z) (mass omega : R) (i p q : nat) : C :=
  let '(n_p, m_p) := (qn (nm p), qm (nm p)) in
  let '(n_q, m_q) := (qn (nm q), qm (nm q)) in
  if negb (Z.abs (m_p - m_q) =? 1)%Z then RtoC 0
  else
    let norm := spf_norm n_p m_p mass omega * spf_norm n_q m_q mass omega in
    let I_r := radial_integral (spf_radial n_p m_p mass omega) (spf_radial n_q m_q mass omega) 1 in
    match i with
    | O => (RtoC (norm * I_r) * theta_1_integral m_p m_q)%C
    | _ => (RtoC (norm * I_r) * theta_2_integral m_p m_q)%C
    end.

(** two_dim_helper.py:307-344: element [p, q] of the double-well one-body matrix *)
Definition double_well_element (omega mass barrier : R) (axis : Z) (p q : nat) : R :=
  let '(n_p, m_p) := (qn (shell_state p), qm (shell_state p)) in
  let '(n_q, m_q) := (qn (shell_state q), qm (shell_state q)) in
  let diagonal := if (p =? q)%nat
    then omega * IZR (get_shell_energy (fst (shell_state p)) m_p) + omega ^ 2 * barrier ^ 2 / 8 else 0 in
  if (Z.abs (m_p - m_q) =? 1)%Z then diagonal
  else diagonal -
    1 / 2 * omega ^ 2 * barrier * spf_norm n_p m_p mass omega * spf_norm n_q m_q mass omega
    * radial_integral (spf_radial n_p m_p mass omega) (spf_radial n_q m_q mass omega) 1
    * (if (axis =? 0)%Z then theta_1_tilde_integral m_p m_q else theta_2_tilde_integral m_p m_q).

(** two_dim_helper.py:347-380: element [p, q] of the smooth double-well matrix *)
Definition smooth_well_element (omega mass a b : R) (p q : nat) : R :=
  let '(n_p, m_p) := (qn (shell_state p), qm (shell_state p)) in
  let '(n_q, m_q) := (qn (shell_state q), qm (shell_state q)) in
  let prefactor := omega ^ 2 / 4 in
  let norms := spf_norm n_p m_p mass omega * spf_norm n_q m_q mass omega in
  let I k := radial_integral (spf_radial n_p m_p mass omega) (spf_radial n_q m_q mass omega) k in
  (if (p =? q)%nat
   then omega * IZR (get_shell_energy (fst (shell_state p)) m_p) + omega ^ 2 * a ^ 2 / 64 else 0)
  + prefactor * (1 / a ^ 2) * norms * I 4%nat * smooth_theta_integral_1 m_p m_q
  - prefactor * (5 * b / 2) * norms * I 2%nat * smooth_theta_integral_2 m_p m_q.

(** two_dim_helper.py:176-184 with two_dim_ho.py:84: element [p, q] of the oscillator matrix h *)
Definition oscillator_element (omega : R) (p q : nat) : R :=
  omega * (if (p =? q)%nat then IZR (get_shell_energy (fst (shell_state p)) (snd (shell_state p))) else 0).
(** two_dim_ho.py:87: element [p, q] of s = np.eye(l) *)
Definition overlap_element (p q : nat) : R := if (p =? q)%nat then 1 else 0.
(** two_dim_helper.py:278-284 and two_dim_ho.py:281-296: element [p, q] of h in a magnetic
    field, for the rows [nm] of the table *)
Definition field_element (nm : nat -> Z * Z) (omega_0 omega_c : R) (p q : nat) : R :=
  if (p =? q)%nat then shell_energy_B (sqrt (omega_0 ^ 2 + omega_c ^ 2 / 4)) omega_c (nm p) else 0.
