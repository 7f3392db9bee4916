(** C79, C80: the basis sets built by the two-dimensional constructors. *)
From Coq Require Import List Arith ZArith Reals Lra Lia Bool.
From Coquelicot Require Import Coquelicot.
From Verif Require Import Scalar ScalarC Py Numpy BasisSet Spec BasisSpec TwoDim FieldProofs Cache CacheExamples Orbitals MatrixProofs TwoDimBasis PlaneSpec PlaneProofs.
Import ListNotations.
Open Scope R_scope.

(** C79. [files] are cache files on disk, all of them complete; [flags] are the keyword
    arguments as they can be read off the object. *)
Theorem C79_oscillator :
  forall npm spin anti l L N omega mass e (files : fs), 0 < mass -> 0 < omega ->
  (forall d n f, files d n = Some f -> f = image n) -> cached e = false \/ writable e = true \/ files (dir e) l <> None ->
  exists b files', oscillator npm spin anti l L N omega mass e files = (Ok b, files') /\ (forall d n f, files' d n = Some f -> f = image n) /\
    flags npm spin anti b /\
    plane_basis l N L mass 0 (sqrt omega) (fun x y => mass * omega ^ 2 * (x ^ 2 + y ^ 2) / 2) shell_state (fun p => orbital mass omega (shell_state p)) b.
Proof. exact plane_oscillator. Qed.
Print Assumptions C79_oscillator.
Theorem C79_double_well :
  forall npm spin anti l L N omega mass e barrier axis (files : fs), 0 < mass -> 0 < omega ->
  (forall d n f, files d n = Some f -> f = image n) -> cached e = false \/ writable e = true \/ files (dir e) l <> None ->
  exists b files', double_well npm spin anti l L N omega mass e barrier axis files = (Ok b, files') /\ (forall d n f, files' d n = Some f -> f = image n) /\
    flags npm spin anti b /\
    plane_basis l N L mass 0 (sqrt omega)
      (fun x y => mass * omega ^ 2 * (x ^ 2 + y ^ 2) / 2 + omega ^ 2 / 2 * (barrier ^ 2 / 4 - barrier * Rabs (if (axis =? 0)%Z then x else y)))
      shell_state (fun p => orbital mass omega (shell_state p)) b.
Proof. exact plane_double_well. Qed.
Print Assumptions C79_double_well.
(** In a magnetic field: whenever the table of states can be built (C51 says when). *)
Theorem C79_field :
  forall npm spin anti l L N omega_0 mass omega_c rows, 0 < mass -> omega_0 <> 0 -> field_states l omega_0 omega_c = Ok rows ->
  let omega := sqrt (omega_0 ^ 2 + omega_c ^ 2 / 4) in let state p := nth p rows (0, 0)%Z in
  exists b, field_oscillator npm spin anti l L N omega_0 mass omega_c = (Ok tt, b) /\ flags npm spin anti b /\
    plane_basis l N L mass (omega_c / 2) (sqrt omega) (fun x y => mass * omega ^ 2 * (x ^ 2 + y ^ 2) / 2) state (fun p => orbital mass omega (state p)) b.
Proof. exact plane_field. Qed.
Print Assumptions C79_field.
Theorem C79_field_raises :
  forall npm spin anti l L N omega_0 mass omega_c e,
  fst (field_oscillator npm spin anti l L N omega_0 mass omega_c) = Err e <-> field_states l omega_0 omega_c = Err e.
Proof. exact field_raises. Qed.
Print Assumptions C79_field_raises.
Example C79_instance : (forall d n f, no_files d n = Some f -> f = image n) /\ cached (Setting false 0 true) = false /\
  exists rows, field_states 6 1 (1 / 2) = Ok rows.
Proof. split; [discriminate|]. split; [reflexivity|]. apply field_succeeds; [lia | lra |]. assert (1 <= sqrt (1 ^ 2 + (1 / 2) ^ 2 / 4)) by (rewrite <- sqrt_1 at 1; apply sqrt_le_1; lra). cbn [INR]. lra. Qed.

(** C80. No barrier, no field: everything a user can read agrees with the plain oscillator. *)
Theorem C80_no_barrier :
  forall npm spin anti l L N omega mass e e' axis (files files' : fs) b b' t t',
  (forall d n f, files d n = Some f -> f = image n) -> (forall d n f, files' d n = Some f -> f = image n) ->
  oscillator npm spin anti l L N omega mass e files = (Ok b, t) -> double_well npm spin anti l L N omega mass e' 0 axis files' = (Ok b', t') ->
  same_values b' b.
Proof. exact no_barrier. Qed.
Print Assumptions C80_no_barrier.
Theorem C80_no_field :
  forall npm spin anti l L N omega mass e (files : fs) b b' t, 0 < omega ->
  (forall d n f, files d n = Some f -> f = image n) ->
  oscillator npm spin anti l L N omega mass e files = (Ok b, t) -> field_oscillator npm spin anti l L N omega mass 0 = (Ok tt, b') ->
  same_values b' b.
Proof. exact no_field. Qed.
Print Assumptions C80_no_field.
Example C80_instance :
  (exists b t, oscillator 0 false false 6 8 201 1 1 (Setting false 0 true) no_files = (Ok b, t)) /\
  (exists b t, double_well 0 false false 6 8 201 1 1 (Setting false 0 true) 0 1 no_files = (Ok b, t)) /\
  exists b, field_oscillator 0 false false 6 8 201 1 1 0 = (Ok tt, b).
Proof.
  split; [|split].
  - destruct (plane_oscillator 0 false false 6 8 201 1 1 (Setting false 0 true) no_files ltac:(lra) ltac:(lra) ltac:(discriminate) ltac:(left; reflexivity)) as (b & t & E & _). eauto.
  - destruct (plane_double_well 0 false false 6 8 201 1 1 (Setting false 0 true) 0 1 no_files ltac:(lra) ltac:(lra) ltac:(discriminate) ltac:(left; reflexivity)) as (b & t & E & _). eauto.
  - destruct (field_succeeds 6 1 0) as [rows F]; [lia | lra | |].
    + assert (1 <= sqrt (1 ^ 2 + 0 ^ 2 / 4)) by (rewrite <- sqrt_1 at 1; apply sqrt_le_1; lra). cbn [INR]. lra.
    + destruct (plane_field 0 false false 6 8 201 1 1 0 rows ltac:(lra) ltac:(lra) F) as (b & E & _). eauto.
Qed.
