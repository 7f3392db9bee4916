(** C133: basis sets with more orbitals continue those with fewer. *)
From Coq Require Import List Arith ZArith Reals Lra Lia Bool.
From Coquelicot Require Import Coquelicot.
From Verif Require Import Scalar ScalarC Py Numpy BasisSet OneDim LineProofs DotProofs GridExamples SincDvr SincProofs TwoDim FieldProofs Cache CacheProofs CacheExamples TwoDimBasis PlaneProofs.
From Verif Require Import VariationalSpec NestedSpec NestedProofs.
Import ListNotations.
Open Scope R_scope.

(** Called with a larger l and otherwise equal arguments, these constructors keep the matrix
    elements, dipole moments and grid values of the first l orbitals. *)
Theorem C133_ODHO :
  forall npm spin anti l l' L N omega a alpha beta b b', (l <= l')%nat ->
  odho npm spin anti l L N omega a alpha beta = (Ok tt, b) -> odho npm spin anti l' L N omega a alpha beta = (Ok tt, b') -> continues l b b'.
Proof. exact line_continues. Qed.
Print Assumptions C133_ODHO.
Theorem C133_ODQD :
  forall npm spin anti l l' L N a alpha beta V eigh b b', (l <= l')%nat ->
  odqd npm spin anti l L N a alpha beta V eigh = (Ok tt, b) -> odqd npm spin anti l' L N a alpha beta V eigh = (Ok tt, b') -> continues l b b'.
Proof. exact dot_continues. Qed.
Print Assumptions C133_ODQD.
Theorem C133_TwoDim :
  forall npm spin anti l l' L N omega mass e e' (files files' : fs) b b' t t', (l <= l')%nat ->
  (forall d n f, files d n = Some f -> f = image n) -> (forall d n f, files' d n = Some f -> f = image n) ->
  oscillator npm spin anti l L N omega mass e files = (Ok b, t) -> oscillator npm spin anti l' L N omega mass e' files' = (Ok b', t') -> continues l b b'.
Proof. exact oscillator_continues. Qed.
Print Assumptions C133_TwoDim.
Theorem C133_TwoDimDW :
  forall npm spin anti l l' L N omega mass e e' barrier axis (files files' : fs) b b' t t', (l <= l')%nat ->
  (forall d n f, files d n = Some f -> f = image n) -> (forall d n f, files' d n = Some f -> f = image n) ->
  double_well npm spin anti l L N omega mass e barrier axis files = (Ok b, t) -> double_well npm spin anti l' L N omega mass e' barrier axis files' = (Ok b', t') -> continues l b b'.
Proof. exact double_well_continues. Qed.
Print Assumptions C133_TwoDimDW.
(** In a magnetic field the table of states is searched again for every l; its first rows stay. *)
Theorem C133_rows :
  forall l l' omega_0 omega_c rows rows' p, omega_0 <> 0 -> field_states l omega_0 omega_c = Ok rows -> field_states l' omega_0 omega_c = Ok rows' ->
  (p < l)%nat -> (p < l')%nat -> nth_error rows p = nth_error rows' p.
Proof. exact field_prefix. Qed.
Print Assumptions C133_rows.
Theorem C133_field :
  forall npm spin anti l l' L N omega_0 mass omega_c b b', omega_0 <> 0 -> (l <= l')%nat ->
  field_oscillator npm spin anti l L N omega_0 mass omega_c = (Ok tt, b) -> field_oscillator npm spin anti l' L N omega_0 mass omega_c = (Ok tt, b') -> continues l b b'.
Proof. exact field_continues. Qed.
Print Assumptions C133_field.
(** Hence more orbitals never raise an exact energy (C132) in a magnetic field either. *)
Theorem C132_field :
  forall npm spin anti l l' L N omega_0 mass omega_c b b', omega_0 <> 0 -> (l <= l')%nat ->
  field_oscillator npm spin anti l L N omega_0 mass omega_c = (Ok tt, b) -> field_oscillator npm spin anti l' L N omega_0 mass omega_c = (Ok tt, b') -> never_raised l l' b b'.
Proof. exact field_more. Qed.
Print Assumptions C132_field.
(** The sinc-DVR basis set is made of grid points, which all move: it never continues a smaller
    one. *)
Theorem C133_sinc_dvr :
  forall npm spin anti l l' L a alpha beta V repr b b', (l < l')%nat -> 0 < L ->
  odsincdvr npm spin anti l L a alpha beta V repr = (Ok tt, b) -> odsincdvr npm spin anti l' L a alpha beta V repr = (Ok tt, b') -> ~ continues l b b'.
Proof. exact dvr_differs. Qed.
Print Assumptions C133_sinc_dvr.

Example C133_instance :
  (exists b b', odho 0 false false 3 10 401 1 1 1 0 = (Ok tt, b) /\ odho 0 false false 7 10 401 1 1 1 0 = (Ok tt, b')) /\
  (exists b b', odqd 0 false false 1 1 5 1 1 0 (fun _ => 0) eigh1 = (Ok tt, b) /\ odqd 0 false false 3 1 5 1 1 0 (fun _ => 0) eigh1 = (Ok tt, b')) /\
  (exists b t b' t', oscillator 0 false false 6 8 201 1 1 (Setting false 0 true) no_files = (Ok b, t) /\ oscillator 0 false false 12 8 201 1 1 (Setting false 0 true) no_files = (Ok b', t')) /\
  (exists b b', field_oscillator 0 false false 6 8 201 1 1 (1 / 2) = (Ok tt, b) /\ field_oscillator 0 false false 20 8 201 1 1 (1 / 2) = (Ok tt, b')) /\
  (exists b b', odsincdvr 0 false false 11 10 1 1 0 (fun x => x ^ 2 / 2) U4d = (Ok tt, b) /\ odsincdvr 0 false false 21 10 1 1 0 (fun x => x ^ 2 / 2) U4d = (Ok tt, b')).
Proof.
  assert (F : forall l, (1 <= l)%nat -> exists b, field_oscillator 0 false false l 8 201 1 1 (1 / 2) = (Ok tt, b)).
  { intros l Hl. destruct (field_succeeds l 1 (1 / 2)) as [rows F]; [lia | lra | |].
    - assert (1 <= sqrt (1 ^ 2 + (1 / 2) ^ 2 / 4)) by (rewrite <- sqrt_1 at 1; apply sqrt_le_1; lra). pose proof (pos_INR l). nra.
    - destruct (plane_field 0 false false l 8 201 1 1 (1 / 2) rows ltac:(lra) ltac:(lra) F) as (b & E & _). eauto. }
  split; [|split; [|split; [|split]]].
  - eexists _, _. split; apply odho_ok; repeat constructor.
  - eexists _, _. split; apply dot_ok; lia.
  - destruct (plane_oscillator 0 false false 6 8 201 1 1 (Setting false 0 true) no_files ltac:(lra) ltac:(lra) ltac:(discriminate) ltac:(left; reflexivity)) as (b & t & E & _).
    destruct (plane_oscillator 0 false false 12 8 201 1 1 (Setting false 0 true) no_files ltac:(lra) ltac:(lra) ltac:(discriminate) ltac:(left; reflexivity)) as (b' & t' & E' & _). eauto 6.
  - destruct (F 6%nat ltac:(lia)) as (b & E). destruct (F 20%nat ltac:(lia)) as (b' & E'). eauto.
  - destruct (dvr_ok 0 false false 11 10 1 1 0 (fun x => x ^ 2 / 2) U4d) as (b & E & _); [discriminate | lia |].
    destruct (dvr_ok 0 false false 21 10 1 1 0 (fun x => x ^ 2 / 2) U4d) as (b' & E' & _); [discriminate | lia |]. eauto.
Qed.
