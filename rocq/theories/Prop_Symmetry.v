(** C107-C110: spin, rotations and reflections of two-dimensional systems. *)
From Coq Require Import List Arith ZArith Reals Lra Lia Bool.
From Coquelicot Require Import Coquelicot.
From Verif Require Import Scalar ScalarC Py Numpy BasisSet Spec BasisSpec Examples GridSpec GridExamples TwoDim FieldProofs Cache CacheExamples Orbitals MatrixProofs TwoDimBasis PlaneProofs.
From Verif Require Import Helpers EnergyFacts Systems SystemFacts SystemProofs SpinProofs DensityProofs DipoleTheorems SymmetryProofs SymmetryTheorems CacheProofs OneDim.
Import ListNotations.
Open Scope R_scope.

(** C107. *)
Theorem C107_parity : forall p q, spin_delta p q = if (p mod 2 =? q mod 2)%Z then 1%Z else 0%Z.
Proof. exact spin_delta_value. Qed.
Print Assumptions C107_parity.
Theorem C107_delta : forall p q, (delta p q = true <-> p = q) /\ delta p q = (delta (p / 2) (q / 2) && (spin_delta p q =? 1)%Z)%bool.
Proof. exact delta_split. Qed.
Print Assumptions C107_delta.
Theorem C107_elements :
  forall (K : scalar) (ab : option (list K * list K)) (anti : bool) (b : basis K) (l : nat) (s h u : arr K),
  (b_cls b = SincDVR -> ab = None) ->
  let va := match ab with Some p => fst p | None => default_a K end in
  let vb := match ab with Some p => snd p | None => default_b K end in
  orthonormal_pair va vb -> ready b l -> b_spin b = false -> b_arr b F_s = Some s -> b_arr b F_h = Some h -> b_arr b F_u = Some u ->
  exists b' h' u', change_to_general ab anti b = (Ok true, b') /\ b_arr b' F_h = Some h' /\ b_arr b' F_u = Some u' /\
    let d P Q := (spin_delta (Z.of_nat P) (Z.of_nat Q) =? 1)%Z in
    (forall P Q, mat h' P Q = if d P Q then mat h (P / 2)%nat (Q / 2)%nat else s0) /\
    (forall P Q R S, (P < 2 * l)%nat -> (Q < 2 * l)%nat -> (R < 2 * l)%nat -> (S < 2 * l)%nat ->
      let x := if d P R && d Q S then ten u (P / 2)%nat (Q / 2)%nat (R / 2)%nat (S / 2)%nat else s0 in
      let y := if d P S && d Q R then ten u (P / 2)%nat (Q / 2)%nat (S / 2)%nat (R / 2)%nat else s0 in
      ten u' P Q R S = if anti && negb (b_asym b) then ssub x y else x).
Proof. exact spin_delta_elements. Qed.
Print Assumptions C107_elements.
Example C107_instance : spin_delta (-3) 5 = 1%Z /\ spin_delta (-3) 4 = 0%Z /\ ready ex_basis 2 /\ b_spin ex_basis = false /\ b_arr ex_basis F_s = Some ex_s /\
  b_arr ex_basis F_h <> None /\ b_arr ex_basis F_u <> None /\ orthonormal_pair (default_a QI) (default_b QI).
Proof. split; [reflexivity|]. split; [reflexivity|]. split; [exact ex_ready|]. repeat split; try discriminate; qi. Qed.

(** C108. *)
Theorem C108_oscillator :
  forall (w : world CC) s n l x (b : basis CC) (h u : arr CC) f,
  sys_at w s Spatial n l x b -> b_arr b F_h = Some h -> b_arr b F_u = Some u -> buffer_ok f h u ->
  forall npm spin anti L N omega mass e (files : fs) t, (forall d n f, files d n = Some f -> f = image n) ->
  oscillator npm spin anti l L N omega mass e files = (Ok b, t) ->
  exists F, fock_matrix s h u f w = (Ok F, w) /\
    forall p q, (p < l)%nat -> (q < l)%nat -> snd (shell_state p) <> snd (shell_state q) -> mat F p q = RtoC 0.
Proof. exact oscillator_fock. Qed.
Print Assumptions C108_oscillator.
Theorem C108_field :
  forall (w : world CC) s n l x (b : basis CC) (h u : arr CC) f,
  sys_at w s Spatial n l x b -> b_arr b F_h = Some h -> b_arr b F_u = Some u -> buffer_ok f h u ->
  forall npm spin anti L N omega_0 mass omega_c rows, field_states l omega_0 omega_c = Ok rows ->
  field_oscillator npm spin anti l L N omega_0 mass omega_c = (Ok tt, b) ->
  exists F, fock_matrix s h u f w = (Ok F, w) /\
    forall p q, (p < l)%nat -> (q < l)%nat -> snd (nth p rows (0, 0)%Z) <> snd (nth q rows (0, 0)%Z) -> mat F p q = RtoC 0.
Proof. exact field_fock. Qed.
Print Assumptions C108_field.
(** The barrier of the double well, but not the interaction, mixes states with different m;
    it keeps their parity. *)
Theorem C108_double_well :
  forall (w : world CC) s n l x (b : basis CC) (h u : arr CC) f,
  sys_at w s Spatial n l x b -> b_arr b F_h = Some h -> b_arr b F_u = Some u -> buffer_ok f h u ->
  forall npm spin anti L N omega mass e barrier axis (files : fs) t, (forall d n f, files d n = Some f -> f = image n) ->
  double_well npm spin anti l L N omega mass e barrier axis files = (Ok b, t) ->
  exists F, fock_matrix s h u f w = (Ok F, w) /\ forall p q, (p < l)%nat -> (q < l)%nat ->
    (snd (shell_state p) <> snd (shell_state q) -> mat F p q = mat h p q) /\
    (Z.odd (snd (shell_state p) - snd (shell_state q)) = true -> mat F p q = RtoC 0).
Proof. exact double_well_fock. Qed.
Print Assumptions C108_double_well.
(** Closed shells: the matrix does not tell m from -m. *)
Theorem C108_oscillator_mirror :
  forall (w : world CC) s n l x (b : basis CC) (h u : arr CC) f,
  sys_at w s Spatial n l x b -> b_arr b F_h = Some h -> b_arr b F_u = Some u -> buffer_ok f h u ->
  forall k, (2 * n = k * (k + 1))%nat ->
  forall npm spin anti L N omega mass e (files : fs) t, (forall d n f, files d n = Some f -> f = image n) ->
  oscillator npm spin anti l L N omega mass e files = (Ok b, t) ->
  exists F, fock_matrix s h u f w = (Ok F, w) /\ forall p q p' q', (p < l)%nat -> (q < l)%nat -> (p' < l)%nat -> (q' < l)%nat ->
    shell_state p' = (fst (shell_state p), - snd (shell_state p))%Z -> shell_state q' = (fst (shell_state q), - snd (shell_state q))%Z ->
    mat F p' q' = mat F p q.
Proof. exact oscillator_mirror. Qed.
Print Assumptions C108_oscillator_mirror.
Theorem C108_double_well_mirror :
  forall (w : world CC) s n l x (b : basis CC) (h u : arr CC) f,
  sys_at w s Spatial n l x b -> b_arr b F_h = Some h -> b_arr b F_u = Some u -> buffer_ok f h u ->
  forall k, (2 * n = k * (k + 1))%nat ->
  forall npm spin anti L N omega mass e barrier axis (files : fs) t, (forall d n f, files d n = Some f -> f = image n) ->
  double_well npm spin anti l L N omega mass e barrier axis files = (Ok b, t) ->
  exists F, fock_matrix s h u f w = (Ok F, w) /\ forall p q p' q', (p < l)%nat -> (q < l)%nat -> (p' < l)%nat -> (q' < l)%nat ->
    shell_state p' = (fst (shell_state p), - snd (shell_state p))%Z -> shell_state q' = (fst (shell_state q), - snd (shell_state q))%Z ->
    mat F p' q' = mat F p q.
Proof. exact double_well_mirror. Qed.
Print Assumptions C108_double_well_mirror.
(** A dot with six orbitals, of which the lowest n are filled *)
Definition dot_system (n : nat) : system := System Spatial 0 (Some 0%nat) (Z.of_nat n) 6 (6 - Z.of_nat n) (PySlice 0 (Z.of_nat n)) (PySlice (Z.of_nat n) 6) None.
Lemma dot n : (n <= 6)%nat -> exists b t, oscillator 0 false false 6 8 201 1 1 (Setting false 0 true) no_files = (Ok b, t) /\
  sys_at (World [b] [dot_system n] []) 0 Spatial n 6 (dot_system n) b /\ b_arr b F_h <> None /\ b_arr b F_u <> None.
Proof.
  intros Hn. destruct (oscillator_ok 0 false false 6 8 201 1 1 (Setting false 0 true) no_files ltac:(discriminate) ltac:(left; reflexivity)) as (b & t & E & _ & H).
  destruct (plane_oscillator 0 false false 6 8 201 1 1 (Setting false 0 true) no_files ltac:(lra) ltac:(lra) ltac:(discriminate) ltac:(left; reflexivity)) as (b' & t' & E' & _ & _ & B).
  rewrite E in E'. injection E' as <- <-. exists b, t. split; [exact E|].
  destruct (ho_h _ _ _ _ _ _ _ _ _ _ _ H) as (h & Eh & _). destruct (ho_u _ _ _ _ _ _ _ _ _ _ _ H) as (u & Eu & _). split; [|rewrite Eh, Eu; split; discriminate].
  constructor; [reflexivity | reflexivity | reflexivity | exists 0%nat; reflexivity | reflexivity | reflexivity | exact Hn | exact (PlaneSpec.pb_ready _ _ _ _ _ _ _ _ _ _ B)].
Qed.
Example C108_instance : (exists b t, oscillator 0 false false 6 8 201 1 1 (Setting false 0 true) no_files = (Ok b, t) /\
    sys_at (World [b] [dot_system 3] []) 0 Spatial 3 6 (dot_system 3) b /\ b_arr b F_h <> None /\ b_arr b F_u <> None) /\
  (2 * 3 = 2 * (2 + 1))%nat /\ shell_state 2 = (fst (shell_state 1), - snd (shell_state 1))%Z /\ snd (shell_state 1) <> snd (shell_state 2).
Proof. split; [apply dot; lia|]. split; [reflexivity|]. split; [reflexivity | discriminate]. Qed.

(** C109. *)
Theorem C109_closed_shells :
  forall (w : world CC) s n l x (b : basis CC) (h : arr CC), sys_at w s Spatial n l x b -> b_arr b F_h = Some h ->
  forall k, (2 * n = k * (k + 1))%nat ->
  forall npm spin anti L N omega mass e (files : fs) t, 0 < mass -> 0 < omega -> (forall d n f, files d n = Some f -> f = image n) ->
  oscillator npm spin anti l L N omega mass e files = (Ok b, t) ->
  exists en, reference_energy s w = (Ok en, w) /\ nonneg (en - RtoC (omega * (INR k * (INR k + 1) * (2 * INR k + 1)) / 3))%C.
Proof. exact closed_shell_energy. Qed.
Print Assumptions C109_closed_shells.
Theorem C109_two_electrons :
  forall (w : world CC) s n l x (b : basis CC) (h u : arr CC), sys_at w s Spatial n l x b -> b_arr b F_h = Some h -> b_arr b F_u = Some u ->
  forall npm spin anti L N omega mass e (files : fs) t, 0 < omega -> (forall d n f, files d n = Some f -> f = image n) ->
  oscillator npm spin anti l L N omega mass e files = (Ok b, t) -> n = 1%nat ->
  reference_energy s w = (Ok (RtoC (2 * omega + sqrt (PI * omega / 2))), w).
Proof. exact oscillator_ground. Qed.
Print Assumptions C109_two_electrons.
Theorem C109_two_electrons_field :
  forall (w : world CC) s n l x (b : basis CC) (h u : arr CC), sys_at w s Spatial n l x b -> b_arr b F_h = Some h -> b_arr b F_u = Some u ->
  forall npm spin anti L N omega_0 mass omega_c rows, omega_0 <> 0 -> field_states l omega_0 omega_c = Ok rows ->
  field_oscillator npm spin anti l L N omega_0 mass omega_c = (Ok tt, b) -> n = 1%nat ->
  let omega := sqrt (omega_0 ^ 2 + omega_c ^ 2 / 4) in reference_energy s w = (Ok (RtoC (2 * omega + sqrt (PI * omega / 2))), w).
Proof. exact field_ground. Qed.
Print Assumptions C109_two_electrons_field.
Example C109_instance : (2 * 3 = 2 * (2 + 1))%nat /\ forall n, (n <= 6)%nat -> exists b t, oscillator 0 false false 6 8 201 1 1 (Setting false 0 true) no_files = (Ok b, t) /\
    sys_at (World [b] [dot_system n] []) 0 Spatial n 6 (dot_system n) b /\ b_arr b F_h <> None /\ b_arr b F_u <> None.
Proof. split; [reflexivity | exact dot]. Qed.

(** C110. Grid point [i; j] has angle i and radius j. *)
Theorem C110_oscillator :
  forall npm spin anti l L N omega mass e (files : fs) b t, (forall d n f, files d n = Some f -> f = image n) ->
  oscillator npm spin anti l L N omega mass e files = (Ok b, t) ->
  forall (rho d : arr CC) b', shape rho = [l; l] ->
  (forall p q, (p < l)%nat -> (q < l)%nat -> snd (shell_state p) <> snd (shell_state q) -> mat rho q p = RtoC 0) ->
  compute_particle_density rho None None b = (Ok d, b') ->
  forall i i' j, (i < N)%nat -> (i' < N)%nat -> (j < N)%nat -> get d [i; j] = get d [i'; j].
Proof. exact (fun npm spin anti l L N omega mass e files b t Hs E => round_density _ _ _ _ _ _ _ _ _ _ _ (oscillator_holds npm spin anti l L N omega mass e files b t Hs E)). Qed.
Print Assumptions C110_oscillator.
Theorem C110_double_well :
  forall npm spin anti l L N omega mass e barrier axis (files : fs) b t, (forall d n f, files d n = Some f -> f = image n) ->
  double_well npm spin anti l L N omega mass e barrier axis files = (Ok b, t) ->
  forall (rho d : arr CC) b', shape rho = [l; l] ->
  (forall p q, (p < l)%nat -> (q < l)%nat -> snd (shell_state p) <> snd (shell_state q) -> mat rho q p = RtoC 0) ->
  compute_particle_density rho None None b = (Ok d, b') ->
  forall i i' j, (i < N)%nat -> (i' < N)%nat -> (j < N)%nat -> get d [i; j] = get d [i'; j].
Proof. exact (fun npm spin anti l L N omega mass e barrier axis files b t Hs E => round_density _ _ _ _ _ _ _ _ _ _ _ (double_well_holds npm spin anti l L N omega mass e barrier axis files b t Hs E)). Qed.
Print Assumptions C110_double_well.
Theorem C110_field :
  forall npm spin anti l L N omega_0 mass omega_c rows b, field_states l omega_0 omega_c = Ok rows ->
  field_oscillator npm spin anti l L N omega_0 mass omega_c = (Ok tt, b) ->
  forall (rho d : arr CC) b', shape rho = [l; l] ->
  (forall p q, (p < l)%nat -> (q < l)%nat -> snd (nth p rows (0, 0)%Z) <> snd (nth q rows (0, 0)%Z) -> mat rho q p = RtoC 0) ->
  compute_particle_density rho None None b = (Ok d, b') ->
  forall i i' j, (i < N)%nat -> (i' < N)%nat -> (j < N)%nat -> get d [i; j] = get d [i'; j].
Proof. exact (fun npm spin anti l L N omega_0 mass omega_c rows b F E => round_density _ _ _ _ _ _ _ _ _ _ _ (field_holds npm spin anti l L N omega_0 mass omega_c rows b F E)). Qed.
Print Assumptions C110_field.
Example C110_instance : exists b t d b', oscillator 0 false false 6 8 201 1 1 (Setting false 0 true) no_files = (Ok b, t) /\
  compute_particle_density (astype Complex128 (@eye CC 6)) None None b = (Ok d, b') /\
  forall p q, (p < 6)%nat -> (q < 6)%nat -> snd (shell_state p) <> snd (shell_state q) -> mat (@eye CC 6) q p = RtoC 0.
Proof.
  set (b := raw 0 false false 6 (arr2 6 6 Float64 (fun p q => RtoC (oscillator_element 1 p q))) (scaled 1 (array_of 6 (coulomb_array 6)))
              (spf_array 6 8 201 1 shell_state 1) (dipole_array 6 1 shell_state 1)).
  destruct (density_formula CC b (astype Complex128 (eye 6)) (spf_array 6 8 201 1 shell_state 1) (aconj (spf_array 6 8 201 1 shell_state 1)) 6 [201; 201]%nat) as (d & b' & E & _); try reflexivity; [eexists; reflexivity|].
  exists b, (snd (get_coulomb_elements (Setting false 0 true) 6 no_files)), d, b'. split; [|split; [exact E|]].
  - destruct (call_sound (Setting false 0 true) 6 no_files ltac:(discriminate)) as [_ E1]. specialize (E1 (or_introl eq_refl)).
    unfold oscillator, bind. destruct (get_coulomb_elements (Setting false 0 true) 6 no_files) as [r s1]. cbn [fst snd] in *. subst r. reflexivity.
  - intros p q _ _ D. unfold mat. cbn. destruct (Nat.eqb_spec q p) as [->|]; [congruence|reflexivity].
Qed.
