(** C104-C106: transitions between oscillator states in an electric field. *)
From Coq Require Import List Arith ZArith Reals Lra Lia Bool.
From Coquelicot Require Import Coquelicot.
From Verif Require Import Scalar ScalarC Py Numpy BasisSet Spec BasisSpec GridSpec OneDim LineProofs TwoDim FieldProofs Cache CacheExamples Orbitals MatrixProofs TwoDimBasis PlaneProofs.
From Verif Require Import LadderSpec DipoleSpec DipoleProofs DipoleTheorems.
Import ListNotations.
Open Scope R_scope.

(** C104. *)
Theorem C104_oscillator :
  forall npm spin anti l L N omega mass e (files : fs) b t, 0 < mass -> 0 < omega -> (forall d n f, files d n = Some f -> f = image n) ->
  oscillator npm spin anti l L N omega mass e files = (Ok b, t) -> dipole_table l mass omega shell_state b.
Proof. exact oscillator_dipole. Qed.
Print Assumptions C104_oscillator.
Theorem C104_double_well :
  forall npm spin anti l L N omega mass e barrier axis (files : fs) b t, 0 < mass -> 0 < omega -> (forall d n f, files d n = Some f -> f = image n) ->
  double_well npm spin anti l L N omega mass e barrier axis files = (Ok b, t) -> dipole_table l mass omega shell_state b.
Proof. exact double_well_dipole. Qed.
Print Assumptions C104_double_well.
Theorem C104_field :
  forall npm spin anti l L N omega_0 mass omega_c rows b, 0 < mass -> omega_0 <> 0 -> field_states l omega_0 omega_c = Ok rows ->
  field_oscillator npm spin anti l L N omega_0 mass omega_c = (Ok tt, b) ->
  dipole_table l mass (sqrt (omega_0 ^ 2 + omega_c ^ 2 / 4)) (fun p => nth p rows (0, 0)%Z) b.
Proof. exact field_dipole. Qed.
Print Assumptions C104_field.
Example C104_instance :
  (exists b t, oscillator 0 false false 6 8 201 1 1 (Setting false 0 true) no_files = (Ok b, t)) /\
  (exists b t, double_well 0 false false 6 8 201 1 1 (Setting false 0 true) 2 0 no_files = (Ok b, t)) /\
  (forall d n f, no_files d n = Some f -> f = image n) /\
  shell_state 3 = (0, -2)%Z /\ shell_state 1 = (0, -1)%Z /\ turn_element 1 1 (shell_state 1) (shell_state 3) = sqrt 2 /\
  x_element 1 1 (shell_state 1) (shell_state 3) <> RtoC 0.
Proof.
  split; [|split; [|split; [discriminate|]]].
  - destruct (plane_oscillator 0 false false 6 8 201 1 1 (Setting false 0 true) no_files ltac:(lra) ltac:(lra) ltac:(discriminate) ltac:(left; reflexivity)) as (b & t & E & _). eauto.
  - destruct (plane_double_well 0 false false 6 8 201 1 1 (Setting false 0 true) 2 0 no_files ltac:(lra) ltac:(lra) ltac:(discriminate) ltac:(left; reflexivity)) as (b & t & E & _). eauto.
  - change (shell_state 3) with (0, -2)%Z. change (shell_state 1) with (0, -1)%Z. do 2 (split; [reflexivity|]).
    assert (T1 : turn_element 1 1 (0, -1)%Z (0, -2)%Z = sqrt 2) by (unfold turn_element; cbn; rewrite Rmult_1_l; f_equal; field).
    assert (T2 : turn_element 1 1 (0, -2)%Z (0, -1)%Z = 0) by (unfold turn_element; cbn; ring).
    split; [exact T1|]. unfold x_element. rewrite T1, T2. intros X. apply RtoC_inj in X. pose proof (sqrt_lt_R0 2 ltac:(lra)). lra.
Qed.

(** C105. *)
Theorem C105_line :
  forall npm spin anti l L N omega a alpha beta b, 0 < omega ->
  odho npm spin anti l L N omega a alpha beta = (Ok tt, b) -> connects 1 l [omega; - omega] b.
Proof. exact line_connects. Qed.
Print Assumptions C105_line.
Theorem C105_oscillator :
  forall npm spin anti l L N omega mass e (files : fs) b t, 0 < mass -> 0 < omega -> (forall d n f, files d n = Some f -> f = image n) ->
  oscillator npm spin anti l L N omega mass e files = (Ok b, t) -> connects 2 l [omega; - omega] b.
Proof. exact oscillator_connects. Qed.
Print Assumptions C105_oscillator.
Theorem C105_field :
  forall npm spin anti l L N omega_0 mass omega_c rows b, 0 < mass -> omega_0 <> 0 -> field_states l omega_0 omega_c = Ok rows ->
  field_oscillator npm spin anti l L N omega_0 mass omega_c = (Ok tt, b) ->
  let omega := sqrt (omega_0 ^ 2 + omega_c ^ 2 / 4) in
  connects 2 l [omega - omega_c / 2; omega + omega_c / 2; - (omega - omega_c / 2); - (omega + omega_c / 2)] b.
Proof. exact field_connects. Qed.
Print Assumptions C105_field.
(** Circularly polarised light *)
Theorem C105_field_turning :
  forall npm spin anti l L N omega_0 mass omega_c rows b, 0 < mass -> omega_0 <> 0 -> field_states l omega_0 omega_c = Ok rows ->
  field_oscillator npm spin anti l L N omega_0 mass omega_c = (Ok tt, b) ->
  let omega := sqrt (omega_0 ^ 2 + omega_c ^ 2 / 4) in
  connects_turning l [omega - omega_c / 2; - (omega + omega_c / 2)] b.
Proof. exact field_turning. Qed.
Print Assumptions C105_field_turning.
Example C105_instance :
  (exists b, odho 0 false false 10 8 201 1 1 1 0 = (Ok tt, b)) /\
  exists rows b, field_states 6 1 (1 / 2) = Ok rows /\ field_oscillator 0 false false 6 8 201 1 1 (1 / 2) = (Ok tt, b).
Proof.
  split; [eexists; apply odho_ok; lia|]. destruct (field_succeeds 6 1 (1 / 2)) as [rows F]; [lia | lra | |].
  - assert (1 <= sqrt (1 ^ 2 + (1 / 2) ^ 2 / 4)) by (rewrite <- sqrt_1 at 1; apply sqrt_le_1; lra). cbn [INR]. lra.
  - destruct (plane_field 0 false false 6 8 201 1 1 (1 / 2) rows ltac:(lra) ltac:(lra) F) as (b & E & _). eauto.
Qed.

(** C106. *)
Theorem C106_line :
  forall npm spin anti l L N omega a alpha beta b, 0 < omega ->
  odho npm spin anti l L N omega a alpha beta = (Ok tt, b) ->
  forall p, (p + 1 < l)%nat -> sum_rules 1 l 1 ((2 * INR p + 1) / (2 * omega)) b p.
Proof. exact line_sums. Qed.
Print Assumptions C106_line.
(** Orbitals of the first k shells, when the basis set holds k + 1 full shells *)
Theorem C106_oscillator :
  forall npm spin anti l L N omega mass e (files : fs) b t, 0 < mass -> 0 < omega -> (forall d n f, files d n = Some f -> f = image n) ->
  oscillator npm spin anti l L N omega mass e files = (Ok b, t) ->
  forall k p, (2 * p < k * (k + 1))%nat -> ((k + 1) * (k + 2) <= 2 * l)%nat ->
  sum_rules 2 l mass (IZR (2 * fst (shell_state p) + Z.abs (snd (shell_state p)) + 1) / (2 * mass * omega)) b p.
Proof. exact oscillator_sums. Qed.
Print Assumptions C106_oscillator.
(** Orbitals so low that the basis set reaches above the highest level light can lift them to *)
Theorem C106_field :
  forall npm spin anti l L N omega_0 mass omega_c rows b, 0 < mass -> omega_0 <> 0 -> field_states l omega_0 omega_c = Ok rows ->
  field_oscillator npm spin anti l L N omega_0 mass omega_c = (Ok tt, b) ->
  let omega := sqrt (omega_0 ^ 2 + omega_c ^ 2 / 4) in let state p := nth p rows (0, 0)%Z in
  forall p r, (p < l)%nat -> (r < l)%nat -> level omega (omega_c / 2) (state p) + omega + Rabs (omega_c / 2) < level omega (omega_c / 2) (state r) ->
  sum_rules 2 l mass (IZR (2 * fst (state p) + Z.abs (snd (state p)) + 1) / (2 * mass * omega)) b p.
Proof. exact field_sums. Qed.
Print Assumptions C106_field.
Example C106_instance : (2 * 2 < 2 * (2 + 1))%nat /\ ((2 + 1) * (2 + 2) <= 2 * 6)%nat /\ shell_state 2 = (0, 1)%Z /\
  exists b t, oscillator 0 false false 6 8 201 1 1 (Setting false 0 true) no_files = (Ok b, t).
Proof.
  split; [lia|]. split; [lia|]. split; [reflexivity|].
  destruct (plane_oscillator 0 false false 6 8 201 1 1 (Setting false 0 true) no_files ltac:(lra) ltac:(lra) ltac:(discriminate) ltac:(left; reflexivity)) as (b & t & E & _). eauto.
Qed.
