(** C47-C50, C71-C75: the functions and matrices of the two-dimensional systems. *)
From Coq Require Import List Arith ZArith Reals Lra Bool.
From Coquelicot Require Import Coquelicot.
From Verif Require Import Py TwoDim Angular AngularSpec AngularProofs Orbitals OrbitalSpec OrbitalProofs MatrixProofs Wells WellProofs FieldProofs.
Open Scope R_scope.

(** C47. *)
Theorem C47_theta :
  forall m_p m_q,
  angular_integral cos m_p m_q (theta_1_integral m_p m_q) /\
  angular_integral sin m_p m_q (theta_2_integral m_p m_q) /\
  angular_integral (fun t => Rabs (cos t)) m_p m_q (RtoC (theta_1_tilde_integral m_p m_q)) /\
  angular_integral (fun t => Rabs (sin t)) m_p m_q (RtoC (theta_2_tilde_integral m_p m_q)).
Proof. exact (fun m m' => conj (theta_1_right m m') (conj (theta_2_right m m') (conj (theta_1_tilde_right m m') (theta_2_tilde_right m m')))). Qed.
Print Assumptions C47_theta.
Example C47_instance : theta_1_integral 3 2 = RtoC PI /\ theta_1_tilde_integral 3 1 = 4 / 3 /\ theta_2_tilde_integral 3 1 = - (4 / 3).
Proof. unfold theta_1_integral, theta_1_tilde_integral, theta_2_tilde_integral. cbn. repeat split; field. Qed.

(** C48. [nm] is the table of quantum numbers of the plain oscillator or of the one in a field. *)
Theorem C48_hermitian :
  forall nm mass omega i p q, 0 < mass -> 0 < omega -> dipole_element nm mass omega i q p = Cconj (dipole_element nm mass omega i p q).
Proof. exact (fun nm mass omega i p q Hm Hw => dipole_hermitian mass omega nm i p q Hm Hw). Qed.
Print Assumptions C48_hermitian.
Theorem C48_selection_rule :
  forall nm mass omega i p q, dipole_element nm mass omega i p q <> RtoC 0 -> Z.abs (snd (nm p) - snd (nm q)) = 1%Z.
Proof. exact (fun nm mass omega i p q => dipole_selection mass omega nm i p q). Qed.
Print Assumptions C48_selection_rule.
(** The elements are the integrals of x and y between the orbitals. *)
Theorem C48_values :
  forall nm mass omega p q, 0 < mass -> 0 < omega ->
  let phi p := spf_state (Z.to_nat (fst (nm p))) (snd (nm p)) mass omega in
  matrix_element (phi p) (phi q) (fun x _ => x) (dipole_element nm mass omega 0 p q) /\
  matrix_element (phi p) (phi q) (fun _ y => y) (dipole_element nm mass omega 1 p q).
Proof. exact (fun nm mass omega p q Hm Hw => conj (dipole_x mass omega Hm Hw nm p q) (dipole_y mass omega Hm Hw nm p q)). Qed.
Print Assumptions C48_values.

(** C71. Orbital p of the plain oscillator; those of any table without repetitions. *)
Theorem C71_orthonormal :
  forall mass omega p q, 0 < mass -> 0 < omega ->
  plane_integral (fun r t => (Cconj (orbital mass omega (shell_state p) r t) * orbital mass omega (shell_state q) r t)%C)
    (RtoC (overlap_element p q)).
Proof. exact (fun mass omega p q Hm Hw => oscillator_overlap mass omega Hm Hw p q). Qed.
Print Assumptions C71_orthonormal.
Theorem C71_orthonormal_table :
  forall mass omega nm p q, 0 < mass -> 0 < omega -> (forall p, 0 <= fst (nm p))%Z -> (nm p = nm q -> p = q) ->
  plane_integral (fun r t => (Cconj (orbital mass omega (nm p) r t) * orbital mass omega (nm q) r t)%C) (RtoC (overlap_element p q)).
Proof. exact (fun mass omega nm p q Hm Hw H I => table_overlap mass omega Hm Hw nm p q H I). Qed.
Print Assumptions C71_orthonormal_table.
Example C71_instance : (forall p, 0 <= fst (shell_state p))%Z /\ (shell_state 3 = shell_state 4 -> 3 = 4)%nat /\ overlap_element 3 4 = 0 /\ overlap_element 4 4 = 1.
Proof. repeat split; [exact shell_state_nonneg | apply shell_state_inj]. Qed.

(** C72. [g] is H phi_q away from the origin, and h[p, q] = <phi_p| H phi_q>. *)
Theorem C72_oscillator_matrix :
  forall mass omega p q, 0 < mass -> 0 < omega ->
  exists g, hamiltonian mass 0 (fun x y => mass * omega ^ 2 * (x ^ 2 + y ^ 2) / 2) (orbital mass omega (shell_state q)) g /\
    plane_integral (fun r t => (Cconj (orbital mass omega (shell_state p) r t) * g r t)%C) (RtoC (oscillator_element omega p q)).
Proof. exact (fun mass omega p q Hm Hw => oscillator_right mass omega Hm Hw p q). Qed.
Print Assumptions C72_oscillator_matrix.
(** In a magnetic field: cyclotron frequency omega_c, effective frequency sqrt(omega_0^2 + omega_c^2/4). *)
Theorem C72_field_matrix :
  forall mass omega_0 omega_c nm p q, 0 < mass -> omega_0 <> 0 -> (forall p, 0 <= fst (nm p))%Z -> (nm p = nm q -> p = q) ->
  let omega := sqrt (omega_0 ^ 2 + omega_c ^ 2 / 4) in
  exists g, hamiltonian mass (omega_c / 2) (fun x y => mass * omega ^ 2 * (x ^ 2 + y ^ 2) / 2) (orbital mass omega (nm q)) g /\
    plane_integral (fun r t => (Cconj (orbital mass omega (nm p) r t) * g r t)%C) (RtoC (field_element nm omega_0 omega_c p q)).
Proof. exact field_right. Qed.
Print Assumptions C72_field_matrix.
(** The rows of the table built by the constructor. *)
Theorem C72_field_rows :
  forall mass l omega_0 omega_c rows p q, 0 < mass -> omega_0 <> 0 -> field_states l omega_0 omega_c = Ok rows -> (p < l)%nat -> (q < l)%nat ->
  let nm := fun p => nth p rows (0, 0)%Z in let omega := sqrt (omega_0 ^ 2 + omega_c ^ 2 / 4) in
  plane_integral (fun r t => (Cconj (orbital mass omega (nm p) r t) * orbital mass omega (nm q) r t)%C) (RtoC (overlap_element p q)) /\
  exists g, hamiltonian mass (omega_c / 2) (fun x y => mass * omega ^ 2 * (x ^ 2 + y ^ 2) / 2) (orbital mass omega (nm q)) g /\
    plane_integral (fun r t => (Cconj (orbital mass omega (nm p) r t) * g r t)%C) (RtoC (field_element nm omega_0 omega_c p q)).
Proof. exact field_rows_right. Qed.
Print Assumptions C72_field_rows.
(** The matrix of a Hamiltonian in these orbitals is unique, so the above determine h. *)
Theorem C72_unique :
  forall mass omega b V h h', is_matrix_of mass omega b V h -> is_matrix_of mass omega b V h' -> forall p q, h p q = h' p q.
Proof. exact matrix_unique. Qed.
Print Assumptions C72_unique.
Example C72_instance : oscillator_element 2 4 4 = 6 /\ oscillator_element 2 3 4 = 0.
Proof. unfold oscillator_element. change (shell_state 4) with (1, 0)%Z. cbn. split; ring. Qed.

(** C49. *)
Theorem C49_hermitian :
  forall mass omega barrier axis p q, 0 < mass -> 0 < omega ->
  double_well_element omega mass barrier axis p q = double_well_element omega mass barrier axis q p.
Proof. exact double_well_sym. Qed.
Print Assumptions C49_hermitian.
Theorem C49_no_barrier :
  forall mass omega axis p q, double_well_element omega mass 0 axis p q = oscillator_element omega p q.
Proof. exact double_well_zero. Qed.
Print Assumptions C49_no_barrier.
Theorem C49_parity :
  forall mass omega barrier axis p q, double_well_element omega mass barrier axis p q <> 0 ->
  Z.even (snd (shell_state p) - snd (shell_state q)) = true.
Proof. exact double_well_even. Qed.
Print Assumptions C49_parity.
Theorem C49_values :
  forall mass omega b axis p q, 0 < mass -> 0 < omega ->
  exists g, hamiltonian mass 0 (fun x y => mass * omega ^ 2 * (x ^ 2 + y ^ 2) / 2 +
                                  omega ^ 2 / 2 * (b ^ 2 / 4 - b * Rabs (if (axis =? 0)%Z then x else y))) (orbital mass omega (shell_state q)) g /\
    plane_integral (fun r t => (Cconj (orbital mass omega (shell_state p) r t) * g r t)%C) (RtoC (double_well_element omega mass b axis p q)).
Proof. exact (fun mass omega b axis p q Hm Hw => double_well_right mass omega Hm Hw b axis p q). Qed.
Print Assumptions C49_values.
Example C49_instance : Z.even (snd (shell_state 3) - snd (shell_state 5)) = true /\ Z.even (snd (shell_state 0) - snd (shell_state 1)) = false /\ oscillator_element 1 0 0 < double_well_element 1 1 (-1) 0 0 0.
Proof. repeat split. apply ground_well; lra. Qed.

(** C50. Construction always fails, for all positional and keyword arguments. *)
Definition C50_claim : Prop := forall (Args S : Type) (args : Args) (l_ho_factor : R) (s : S), 1 <= l_ho_factor -> fst (smooth_init args l_ho_factor s) = Ok tt.
Theorem C50_refuted : ~ C50_claim.
Proof.
  exact (fun H => match eq_trans (eq_sym (H unit unit tt 1 tt (Rle_refl 1))) (proj1 (smooth_never tt 1 tt)) in _ = y return match y with Ok _ => True | Err _ => False end with eq_refl => I end).
Qed.
Print Assumptions C50_refuted.
Theorem C50_always_raises :
  forall (Args S : Type) (args : Args) (l_ho_factor : R) (s : S),
  fst (smooth_init args l_ho_factor s) = Err (if Rle_dec 1 l_ho_factor then NameError else AssertionError) /\
  snd (smooth_init args l_ho_factor s) = s.
Proof. exact (fun Args S args f s => smooth_never args f s). Qed.
Print Assumptions C50_always_raises.

(** C73. The double well when the mass multiplies the whole potential. *)
Definition C73_claim : Prop := forall mass omega b axis, 0 < mass -> 0 < omega ->
  is_matrix_of mass omega 0 (fun x y => mass * omega ^ 2 / 2 * (x ^ 2 + y ^ 2 + b ^ 2 / 4 - b * Rabs (if (axis =? 0)%Z then x else y))) (double_well_element omega mass b axis).
Theorem C73_refuted : ~ C73_claim.
Proof. exact (fun H => mass_ignored 2 1 (-1) 0 ltac:(lra) ltac:(lra) ltac:(lra) ltac:(lra) (H 2 1 (-1) 0%Z ltac:(lra) ltac:(lra))). Qed.
Print Assumptions C73_refuted.
Theorem C73_unit_mass_partial :
  forall omega b axis, 0 < omega ->
  is_matrix_of 1 omega 0 (fun x y => 1 * omega ^ 2 / 2 * (x ^ 2 + y ^ 2 + b ^ 2 / 4 - b * Rabs (if (axis =? 0)%Z then x else y))) (double_well_element omega 1 b axis).
Proof. exact unit_mass. Qed.
Print Assumptions C73_unit_mass_partial.
(** What the matrix would have to be. *)
Theorem C73_correct_matrix :
  forall mass omega b axis, 0 < mass -> 0 < omega ->
  is_matrix_of mass omega 0 (fun x y => mass * omega ^ 2 / 2 * (x ^ 2 + y ^ 2 + b ^ 2 / 4 - b * Rabs (if (axis =? 0)%Z then x else y)))
    (fun p q => oscillator_element omega p q + mass * (double_well_element omega mass b axis p q - oscillator_element omega p q)).
Proof. exact heavy_well. Qed.
Print Assumptions C73_correct_matrix.

(** C74. Oscillators with the same orbitals have the same interaction elements. *)
Definition C74_claim : Prop := forall mass omega mass' omega', 0 < mass -> 0 < omega -> 0 < mass' -> 0 < omega' ->
  (forall s r t, orbital mass omega s r t = orbital mass' omega' s r t) ->
  forall p q r s, interaction_element mass omega p q r s = interaction_element mass' omega' p q r s.
Theorem C74_refuted : ~ C74_claim.
Proof. exact interaction_refuted. Qed.
Print Assumptions C74_refuted.
Theorem C74_orbitals_depend_on_the_product :
  forall mass omega mass' omega', mass * omega = mass' * omega' -> forall s r t, orbital mass omega s r t = orbital mass' omega' s r t.
Proof. exact orbitals_of_product. Qed.
Print Assumptions C74_orbitals_depend_on_the_product.
(** With the mass fixed (the default 1) the claim holds. *)
Theorem C74_equal_mass_partial :
  forall mass omega omega' p q r s, 0 < mass -> 0 < omega -> 0 < omega' ->
  (forall s r t, orbital mass omega s r t = orbital mass omega' s r t) -> interaction_element mass omega p q r s = interaction_element mass omega' p q r s.
Proof. exact equal_mass. Qed.
Print Assumptions C74_equal_mass_partial.

(** C75. The smooth double-well matrix. *)
Definition C75_claim : Prop := forall mass omega a b, 0 < mass -> 0 < omega -> a <> 0 ->
  is_matrix_of mass omega 0 (fun x y => mass * omega ^ 2 * (x ^ 2 + y ^ 2) / 2 + smooth_potential omega a b x y) (smooth_well_element omega mass a b).
Theorem C75_refuted : ~ C75_claim.
Proof. exact smooth_wrong. Qed.
Print Assumptions C75_refuted.
Theorem C75_same_m_partial :
  forall mass omega a b p q, 0 < mass -> 0 < omega -> a <> 0 -> snd (shell_state p) = snd (shell_state q) ->
  exists g, hamiltonian mass 0 (fun x y => mass * omega ^ 2 * (x ^ 2 + y ^ 2) / 2 + smooth_potential omega a b x y) (orbital mass omega (shell_state q)) g /\
    plane_integral (fun r t => (Cconj (orbital mass omega (shell_state p) r t) * g r t)%C) (RtoC (smooth_well_element omega mass a b p q)).
Proof. exact (fun mass omega a b p q Hm Hw Ha E => smooth_right_same mass omega Hm Hw a b p q Ha E). Qed.
Print Assumptions C75_same_m_partial.
(** The true matrix vanishes between orbitals of different parity. *)
Theorem C75_parity_of_the_potential :
  forall mass omega a b p q, 0 < mass -> 0 < omega -> a <> 0 -> Z.even (snd (shell_state p) - snd (shell_state q)) = false ->
  exists g, hamiltonian mass 0 (fun x y => mass * omega ^ 2 * (x ^ 2 + y ^ 2) / 2 + smooth_potential omega a b x y) (orbital mass omega (shell_state q)) g /\
    plane_integral (fun r t => (Cconj (orbital mass omega (shell_state p) r t) * g r t)%C) (RtoC 0).
Proof. exact (fun mass omega a b p q Hm Hw Ha E => smooth_true_odd mass omega Hm Hw a b p q Ha E). Qed.
Print Assumptions C75_parity_of_the_potential.
Example C75_instance : snd (shell_state 0) = snd (shell_state 4) /\ Z.even (snd (shell_state 0) - snd (shell_state 1)) = false /\ smooth_well_element 1 1 2 2 0 1 <> 0.
Proof. repeat split. exact default_01. Qed.
