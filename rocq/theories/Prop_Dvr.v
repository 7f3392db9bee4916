(** C59-C62, C78: sinc-DVR bases. *)
From Coq Require Import List Arith ZArith Reals Lra Lia Bool.
From Coquelicot Require Import Coquelicot.
From Verif Require Import Scalar ScalarC Py Numpy Spec BasisSet BasisSpec Systems DoubleFacts DvrSpec DvrProofs DvrCompare
  OneDim OneDimSpec DotProofs SincDvr SincSpec SincProofs DvrSystem.
Import ListNotations.
Open Scope R_scope.

(** C59. The method on a compact matrix against the common method on the array it stands for. *)
Theorem C59_transform :
  forall (K : scalar) (b : basis K) u C Ct (anti : bool) l k,
  u_repr b = U2d -> shape u = [l; l] -> shape C = [l; k] -> tilde_shape C Ct k l ->
  exists u2 u4, transform_two_body_dvr b u C anti Ct = Ok u2 /\ transform_two_body_base (spread_arr l u) C Ct = Ok u4 /\
    shape u2 = [k; k; k; k] /\ shape u4 = [k; k; k; k] /\
    forall p q r s, (p < k)%nat -> (q < k)%nat -> (r < k)%nat -> (s < k)%nat ->
      ten u2 p q r s = if anti then exch (ten u4) p q r s else ten u4 p q r s.
Proof. exact method_compare. Qed.
Print Assumptions C59_transform.
Theorem C59_change :
  forall (K : scalar) (b : basis K) C Ct l k,
  compact b l -> shape C = [l; k] -> tilde_shape C Ct k l ->
  exists b2 b4, change_basis C Ct b = (Ok tt, b2) /\ change_basis C Ct (widened l b) = (Ok tt, b4) /\ same_spatial b2 b4.
Proof. exact change_compare. Qed.
Print Assumptions C59_change.
Theorem C59_doubled :
  forall (K : scalar) (b : basis K) C Ct l k,
  compact b l -> spinless b -> b_spin b = false -> b_arr b F_s <> None -> b_arr b F_spf <> None ->
  shape C = [2 * l; k]%nat -> tilde_shape C Ct k (2 * l) ->
  exists b2 b4 b2' b4', change_to_general None false b = (Ok true, b2) /\
    change_to_general None false (widened l b) = (Ok true, b4) /\
    change_basis C Ct b2 = (Ok tt, b2') /\ change_basis C Ct b4 = (Ok tt, b4') /\ same_spatial b2' b4'.
Proof. exact double_change_compare. Qed.
Print Assumptions C59_doubled.
(** The same for the two objects the constructor makes. *)
Theorem C59_constructed :
  forall npm spin anti l L a alpha beta V b2 b4,
  odsincdvr npm spin anti l L a alpha beta V U2d = (Ok tt, b2) ->
  odsincdvr npm spin anti l L a alpha beta V U4d = (Ok tt, b4) ->
  forall C Ct k, shape C = [l; k] -> tilde_shape C Ct k l ->
  exists b2' b4', change_basis C Ct b2 = (Ok tt, b2') /\ change_basis C Ct b4 = (Ok tt, b4') /\ same_spatial b2' b4'.
Proof. exact storages_change. Qed.
Print Assumptions C59_constructed.
Example C59_instance : compact small_dvr 2 /\ spinless small_dvr /\ b_spin small_dvr = false /\ b_arr small_dvr F_s <> None /\
  b_arr small_dvr F_spf <> None /\ u_repr small_dvr = U2d.
Proof.
  split; [exact (dvr_compact _ _ _ _ _ _ _ _ _ _ _ small_dvr_ok eq_refl)|].
  split; [exact (dvr_spinless _ _ _ _ _ _ _ _ _ _ _ small_dvr_ok)|].
  split; [exact (do_spin _ _ _ _ _ _ _ _ _ _ _ (proj1 (dvr_result _ _ _ _ _ _ _ _ _ _ _ small_dvr_ok)))|].
  split; [apply (dvr_has _ _ _ _ _ _ _ _ _ _ _ small_dvr_ok); cbn; tauto|].
  split; [apply (dvr_has _ _ _ _ _ _ _ _ _ _ _ small_dvr_ok); cbn; tauto|].
  exact (dvr_repr _ _ _ _ _ _ _ _ _ _ _ small_dvr_ok).
Qed.

(** C60. False: the new array is built and dropped. *)
Definition C60_claim : Prop :=
  forall npm spin anti l L a alpha beta V repr b r b',
  odsincdvr npm spin anti l L a alpha beta V repr = (Ok tt, b) -> r <> Uunknown ->
  set_u_repr r b = (Ok tt, b') -> u_repr b' = r.
Theorem C60_refuted : ~ C60_claim.
Proof.
  intros H. specialize (H _ _ _ _ _ _ _ _ _ _ _ U4d small_dvr small_dvr_ok).
  rewrite (dvr_repr _ _ _ _ _ _ _ _ _ _ _ small_dvr_ok) in H.
  discriminate (H ltac:(discriminate) (dvr_set_repr _ _ _ _ _ _ _ _ _ _ _ small_dvr_ok U4d ltac:(discriminate))).
Qed.
Print Assumptions C60_refuted.
(** What it does: nothing, on any object and for any argument. *)
Theorem C60_never_switches : forall (K : scalar) r (b : basis K), snd (set_u_repr r b) = b.
Proof. exact set_u_repr_noop. Qed.
Print Assumptions C60_never_switches.
Theorem C60_silent :
  forall npm spin anti l L a alpha beta V repr b,
  odsincdvr npm spin anti l L a alpha beta V repr = (Ok tt, b) ->
  forall r, r <> Uunknown -> set_u_repr r b = (Ok tt, b).
Proof. exact dvr_set_repr. Qed.
Print Assumptions C60_silent.

(** C61. False twice over. *)
Definition C61_constructs_claim : Prop :=
  forall npm anti0 l L a alpha beta V repr b,
  odsincdvr npm false anti0 l L a alpha beta V repr = (Ok tt, b) ->
  forall n i va vb anti w, nth_error (w_bs w) i = Some b -> orthonormal_pair va vb -> (0 <= n <= Z.of_nat (2 * l))%Z ->
  exists g w', general_init n i va vb anti w = (Ok g, w').
Theorem C61_constructs_refuted : ~ C61_constructs_claim.
Proof.
  intros H. destruct (H _ _ _ _ _ _ _ _ _ small_dvr small_dvr_ok 0%Z 0%nat (default_a CC) (default_b CC) false (World [small_dvr] [] [])) as (g & w' & E).
  - reflexivity.
  - split; [reflexivity|]. split; [reflexivity|]. unfold ip2. cbn.
    split; [|split]; apply injective_projections; cbn; ring.
  - lia.
  - destruct (dvr_result _ _ _ _ _ _ _ _ _ _ _ small_dvr_ok) as ([A1 _ _ _ A5 _ _ _] & _ & _).
    rewrite (general_init_dvr CC 0%Z 0%nat _ _ _ (World [small_dvr] [] []) small_dvr eq_refl A1 A5) in E. discriminate E.
Qed.
Print Assumptions C61_constructs_refuted.
(** It raises a TypeError, always, and leaves everything as it was. *)
Theorem C61_always_raises :
  forall (K : scalar) (n : Z) i (va vb : list K) (anti : bool) w bs,
  nth_error (w_bs w) i = Some bs -> b_cls bs = SincDVR -> b_spin bs = false ->
  general_init n i va vb anti w = (Err TypeError, w).
Proof. exact general_init_dvr. Qed.
Print Assumptions C61_always_raises.
(** Called directly without spin vectors, the doubling succeeds; but in compact storage
    the elements are flagged as anti-symmetric and are not. *)
Definition C61_antisymmetric_claim : Prop :=
  forall npm l L a alpha beta V repr b,
  odsincdvr npm false false l L a alpha beta V repr = (Ok tt, b) ->
  forall b1 C Ct k b2 u, change_to_general None true b = (Ok true, b1) -> change_basis C Ct b1 = (Ok tt, b2) ->
  b_arr b2 F_u = Some u -> shape u = [k; k; k; k] -> antisym_ket k (ten u).
Theorem C61_antisymmetric_refuted : ~ C61_antisymmetric_claim.
Proof.
  intros H. destruct doubled_identity_not_antisym as (b1 & b2 & u & E1 & E2 & _ & Eu & Su & G1 & G2).
  specialize (H _ _ _ _ _ _ _ _ small_dvr small_dvr_ok b1 (eye 4) None 4%nat b2 u E1 E2 Eu Su 0%nat 1%nat 0%nat 1%nat ltac:(lia) ltac:(lia) ltac:(lia) ltac:(lia)).
  rewrite G1, G2 in H. injection H as H. lra.
Qed.
Print Assumptions C61_antisymmetric_refuted.
Theorem C61_flagged_only :
  forall (K : scalar) (anti : bool) (b : basis K) l k C Ct,
  compact b l -> spinless b -> b_spin b = false -> b_arr b F_s <> None -> b_arr b F_spf <> None ->
  shape C = [2 * l; k]%nat -> tilde_shape C Ct k (2 * l) ->
  exists b1 b2 u u', change_to_general None anti b = (Ok true, b1) /\ change_basis C Ct b1 = (Ok tt, b2) /\
    b_asym b2 = b_asym b || anti /\ b_arr b F_u = Some u /\
    b_arr b2 F_u = Some u' /\ shape u' = [k; k; k; k] /\
    forall p q r s, (p < k)%nat -> (q < k)%nat -> (r < k)%nat -> (s < k)%nat ->
      ten u' p q r s = T2 (2 * l) (dbl2 (spread (mat u))) (mat C) (tilde C Ct) p q r s.
Proof. exact doubled_change_ok. Qed.
Print Assumptions C61_flagged_only.
(** In four-index storage the direct call gives what it should. *)
Theorem C61_full_storage :
  forall npm anti0 l L a alpha beta V b,
  odsincdvr npm false anti0 l L a alpha beta V U4d = (Ok tt, b) ->
  forall anti, exists s b', b_arr b F_s = Some s /\ change_to_general None anti b = (Ok true, b') /\
    spin_doubled l (default_a CC) (default_b CC) (anti && negb anti0) s b b'.
Proof. exact dvr_full_general. Qed.
Print Assumptions C61_full_storage.

(** C62. *)
Theorem C62_one_body :
  forall npm spin anti l L a alpha beta V repr b,
  odsincdvr npm spin anti l L a alpha beta V repr = (Ok tt, b) -> 0 < L ->
  exists h s d spf, b_arr b F_h = Some h /\ b_arr b F_s = Some s /\ b_arr b F_dip = Some d /\ b_arr b F_spf = Some spf /\
    shape h = [l; l] /\ shape s = [l; l] /\ shape d = [1; l; l]%nat /\ shape spf = [l; l] /\
    hermitian l (mat h) /\ (forall p q, (p < l)%nat -> (q < l)%nat -> mat s p q = kronecker p q) /\
    (forall p q, (p < l)%nat -> (q < l)%nat -> get d [0; p; q]%nat = (kronecker p q * RtoC (point L l p + beta * point L l p ^ 2))%C) /\
    (forall p i, (p < l)%nat -> (i < l)%nat -> get spf [p; i] = (kronecker p i * RtoC (/ sqrt (spacing L l)))%C).
Proof. exact dvr_one_body. Qed.
Print Assumptions C62_one_body.
Theorem C62_two_body :
  forall npm spin anti l L a alpha beta V repr b,
  odsincdvr npm spin anti l L a alpha beta V repr = (Ok tt, b) ->
  exists u, b_arr b F_u = Some u /\
  let v p q := RtoC (alpha / sqrt ((point L l p - point L l q) ^ 2 + a ^ 2)) in
  (forall p q, v p q = v q p) /\
  match repr with
  | U2d => shape u = [l; l] /\ forall p q, (p < l)%nat -> (q < l)%nat -> mat u p q = v p q
  | _ => shape u = [l; l; l; l] /\ forall p q r s, (p < l)%nat -> (q < l)%nat -> (r < l)%nat -> (s < l)%nat ->
           ten u p q r s = (kronecker p r * kronecker q s * v p q)%C
  end.
Proof. exact dvr_two_body. Qed.
Print Assumptions C62_two_body.
(** Exactly which arguments are refused. *)
Theorem C62_accepts :
  forall npm spin anti l L a alpha beta V repr,
  (exists e b, odsincdvr npm spin anti l L a alpha beta V repr = (Err e, b)) <-> repr = Uunknown \/ (l < 2)%nat.
Proof. exact dvr_raises_iff. Qed.
Print Assumptions C62_accepts.
Example C62_instance : exists b, odsincdvr 0 false false 11 10 1 1 0 (fun x => x ^ 2 / 2) U4d = (Ok tt, b).
Proof. destruct (dvr_ok 0 false false 11 10 1 1 0 (fun x => x ^ 2 / 2) U4d) as (b & E & _); [discriminate | lia | eauto]. Qed.

(** C78. Every basis function is the cardinal function of its grid point, and at every
    grid point h gives exactly the value of (-1/2 d^2/dx^2 + V) applied to it. *)
Theorem C78_collocation :
  forall npm spin anti l L a alpha beta V repr b,
  odsincdvr npm spin anti l L a alpha beta V repr = (Ok tt, b) -> 0 < L ->
  exists h spf, b_arr b F_h = Some h /\ b_arr b F_spf = Some spf /\
  let f p := cardinal_function (spacing L l) (point L l p) in
  (forall p i, (p < l)%nat -> (i < l)%nat -> get spf [p; i] = RtoC (f p (point L l i))) /\
  forall p, (p < l)%nat -> exists g, line_hamiltonian V (f p) g /\
    forall i, (i < l)%nat -> RtoC (g (point L l i)) = sumn (K := CC) l (fun j => (mat h i j * get spf [p; j])%C).
Proof. exact dvr_collocation. Qed.
Print Assumptions C78_collocation.
