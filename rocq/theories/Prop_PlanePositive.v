(** C126: the Coulomb interaction in two-dimensional quantum dots is positive. *)
From Coq Require Import List Arith ZArith Reals Lra Lia Bool.
From Coquelicot Require Import Coquelicot.
From Verif Require Import Scalar ScalarC Py Numpy BasisSet Spec BasisSpec GridSpec TwoDim FieldProofs Coulomb Cache CacheExamples TwoDimBasis PlaneProofs PositiveSpec PlanePositive.
Import ListNotations.
Open Scope R_scope.

(** The elements computed for any list of orbitals, repeated or not *)
Theorem C126_coulomb :
  forall l (n : nat -> nat) (m : nat -> Z),
  positive_interaction l (fun p q r s => RtoC (coulomb_ho (n p) (m p) (n q) (m q) (n r) (m r) (n s) (m s))).
Proof. exact coulomb_positive. Qed.
Print Assumptions C126_coulomb.
(** The array u of every two-dimensional basis set a constructor returns.  [files] are cache
    files on disk, all of them complete. *)
Theorem C126_oscillator :
  forall npm spin anti l L N omega mass e (files : fs) b files',
  (forall d n f, files d n = Some f -> f = image n) -> oscillator npm spin anti l L N omega mass e files = (Ok b, files') ->
  exists u, b_arr b F_u = Some u /\ shape u = [l; l; l; l] /\ positive_interaction l (ten u).
Proof. exact oscillator_positive. Qed.
Print Assumptions C126_oscillator.
Theorem C126_double_well :
  forall npm spin anti l L N omega mass e barrier axis (files : fs) b files',
  (forall d n f, files d n = Some f -> f = image n) -> double_well npm spin anti l L N omega mass e barrier axis files = (Ok b, files') ->
  exists u, b_arr b F_u = Some u /\ shape u = [l; l; l; l] /\ positive_interaction l (ten u).
Proof. exact double_well_positive. Qed.
Print Assumptions C126_double_well.
Theorem C126_field :
  forall npm spin anti l L N omega_0 mass omega_c b,
  field_oscillator npm spin anti l L N omega_0 mass omega_c = (Ok tt, b) ->
  exists u, b_arr b F_u = Some u /\ shape u = [l; l; l; l] /\ positive_interaction l (ten u).
Proof. exact field_positive. Qed.
Print Assumptions C126_field.
(** Adding spin keeps any interaction positive (changing the basis does too, C122_change_basis). *)
Theorem C126_spin :
  forall (ab : option (list CC * list CC)) (b : basis CC) l (s u : arr CC),
  (b_cls b = SincDVR -> ab = None) ->
  let va := match ab with Some p => fst p | None => default_a CC end in
  let vb := match ab with Some p => snd p | None => default_b CC end in
  orthonormal_pair va vb -> ready b l -> b_spin b = false -> b_arr b F_s = Some s -> b_arr b F_u = Some u -> positive_interaction l (ten u) ->
  exists b' u', change_to_general ab false b = (Ok true, b') /\ b_arr b' F_u = Some u' /\ shape u' = [2 * l; 2 * l; 2 * l; 2 * l]%nat /\
    positive_interaction (2 * l) (ten u').
Proof. exact general_positive. Qed.
Print Assumptions C126_spin.
Example C126_instance :
  (exists b t, oscillator 0 false false 6 8 201 1 1 (Setting false 0 true) no_files = (Ok b, t) /\ ready b 6 /\ b_spin b = false /\ exists s, b_arr b F_s = Some s) /\
  (exists b, field_oscillator 0 false false 6 8 201 1 1 (1 / 2) = (Ok tt, b)) /\
  orthonormal_pair (default_a CC) (default_b CC) /\
  ~ positive_interaction 2 (fun p q r s => if (p =? s)%nat then RtoC 0 else RtoC 1).
Proof.
  split; [|split; [|split]].
  - destruct (plane_oscillator 0 false false 6 8 201 1 1 (Setting false 0 true) no_files ltac:(lra) ltac:(lra) ltac:(discriminate) ltac:(left; reflexivity)) as (b & t & E & _ & F & B).
    exists b, t. split; [exact E|]. split; [apply B|]. split; [apply F|]. destruct (PlaneSpec.pb_arrays _ _ _ _ _ _ _ _ _ _ B) as (h & s & _ & _ & _ & _ & Es & _). exists s. exact Es.
  - destruct (field_succeeds 6 1 (1 / 2)) as [rows F]; [lia | lra | |].
    + assert (1 <= sqrt (1 ^ 2 + (1 / 2) ^ 2 / 4)) by (rewrite <- sqrt_1 at 1; apply sqrt_le_1; lra). cbn [INR]. lra.
    + destruct (plane_field 0 false false 6 8 201 1 1 (1 / 2) rows ltac:(lra) ltac:(lra) F) as (b & E & _). eauto.
  - unfold orthonormal_pair, ip2, default_a, default_b. cbn. unfold Cplus, Cmult, Cconj, RtoC. cbn. repeat split; f_equal; ring.
  - intros H. destruct (H (fun p r => if (p =? 0)%nat then (if (r =? 1)%nat then RtoC 1 else RtoC 0) else (if (r =? 0)%nat then RtoC (-1) else RtoC 0))) as [_ H0]. cbn in H0. lra.
Qed.
