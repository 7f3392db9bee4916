(** The two storages of a constructed sinc-DVR basis, and its use in systems. *)
From Coq Require Import List Arith ZArith Reals Lra Lia Bool.
From Coquelicot Require Import Coquelicot.
From Verif Require Import Scalar ScalarC Py Numpy NumpyFacts Spec TransformFacts BasisSet BasisSpec BasisFacts ChangeProofs ConvProofs
  DoubleFacts Systems SystemFacts DvrSpec DvrProofs DvrCompare OneDim OneDimSpec OneDimProofs SincDvr SincProofs.
Import ListNotations.
Open Scope R_scope.

Section Two.
  Variables (npm : nat) (spin anti : bool) (l : nat) (L a alpha beta : R) (V : R -> R).
  Variables (b2 b4 : basis CC).
  Hypothesis H2 : odsincdvr npm spin anti l L a alpha beta V U2d = (Ok tt, b2).
  Hypothesis H4 : odsincdvr npm spin anti l L a alpha beta V U4d = (Ok tt, b4).
  Lemma storages_same : same_spatial (widened l b2) b4.
  Proof.
    destruct (dvr_result _ _ _ _ _ _ _ _ _ _ _ H2) as ([A1 A2 A3 A4 A5 A6 A A8] & _ & _).
    destruct (dvr_result _ _ _ _ _ _ _ _ _ _ _ H4) as ([B1 B2 B3 B4 B5 B6 B B8] & _ & _).
    destruct (widened_meta CC l b2) as (W1 & W2 & W3 & W4 & W5 & W6 & W7 & W8).
    constructor; try congruence.
    - intros f Hf. destruct (field_eqb f F_u) eqn:Ef.
      + apply field_eqb_spec in Ef. subst f. unfold widened. rewrite A, B. cbn [dvr_stored b_arr].
        change (opt_aeq (Some (spread_arr l (astype Complex128 (dvr_coulomb l L a alpha U2d)))) (Some (astype Complex128 (dvr_coulomb l L a alpha U4d)))).
        split; [reflexivity|]. intros idx Hv. destruct (valid4 _ _ _ _ _ Hv) as (p & q & r & s & -> & _ & _ & _ & _). reflexivity.
      + assert (N : f <> F_u) by (intros ->; discriminate Ef). rewrite W8, A, B by exact N.
        cbn in Hf. destruct_or Hf; subst f; try apply opt_aeq_refl. congruence.
    - intros _. unfold bra_view. rewrite !W8, !A, !B by discriminate. apply opt_aeq_refl.
  Qed.
  Lemma storages_change C Ct k : shape C = [l; k] -> tilde_shape C Ct k l ->
    exists b2' b4', change_basis C Ct b2 = (Ok tt, b2') /\ change_basis C Ct b4 = (Ok tt, b4') /\ same_spatial b2' b4'.
  Proof.
    intros SC SD.
    pose proof (dvr_compact _ _ _ _ _ _ _ _ _ _ _ H2 eq_refl) as Cp.
    pose proof (dvr_full_ready _ _ _ _ _ _ _ _ _ _ _ H4 eq_refl) as Rd.
    destruct (change_compact_ok CC b2 C Ct l k Cp SC SD) as (b2' & E2 & B2).
    destruct (default_tilde_spec CC C Ct l k k SC SD) as [SD' _].
    destruct (change_basis_ok CC l k C _ SC SD' b4 Rd) as (b4' & E4 & B4).
    exists b2', b4'. split; [exact E2|]. split; [rewrite change_basis_default; exact E4|].
    exact (changed_same CC l k C _ _ _ _ _ SC SD' (cp_ready CC b2 l Cp) storages_same B2 B4).
  Qed.
End Two.

Section Use.
  Variables (npm : nat) (spin anti : bool) (l : nat) (L a alpha beta : R) (V : R -> R) (repr : urepr).
  Variable b : basis CC.
  Hypothesis Hb : odsincdvr npm spin anti l L a alpha beta V repr = (Ok tt, b).
  Lemma dvr_spinless : spinless b.
  Proof.
    destruct (dvr_result _ _ _ _ _ _ _ _ _ _ _ Hb) as ([_ _ _ _ _ _ A _] & _ & _).
    intros f Hf. rewrite A. cbn in Hf. destruct_or Hf; subst f; reflexivity.
  Qed.
  Lemma dvr_has f : In f [F_h; F_s; F_u; F_dip; F_spf] -> b_arr b f <> None.
  Proof.
    destruct (dvr_result _ _ _ _ _ _ _ _ _ _ _ Hb) as ([_ _ _ _ _ _ A _] & _ & _).
    intros Hf. rewrite A. cbn in Hf. destruct_or Hf; subst f; discriminate.
  Qed.
  (** set_u_repr changes nothing. *)
  Lemma dvr_set_repr r : r <> Uunknown -> set_u_repr r b = (Ok tt, b).
  Proof.
    intros Hr. destruct (dvr_result _ _ _ _ _ _ _ _ _ _ _ Hb) as ([A1 _ _ _ _ _ _ _] & Hp & _).
    destruct repr; [| |congruence].
    - pose proof (dvr_compact _ _ _ _ _ _ _ _ _ _ _ Hb eq_refl) as Cp. destruct r; [|apply (set_u_repr_compact CC b l Cp)|congruence].
      destruct (cp_u CC b l Cp) as (u & Eu & Su). unfold set_u_repr. rewrite (bind_ok CC _ _ _ b b) by reflexivity.
      rewrite (u_repr_2d CC b u l l Eu Su). reflexivity.
    - pose proof (dvr_full_ready _ _ _ _ _ _ _ _ _ _ _ Hb eq_refl) as Rd. destruct r; [apply (set_u_repr_full CC b l Rd A1)| |congruence].
      destruct (r_u CC b l Rd) as (u & Eu & Su). unfold set_u_repr. rewrite (bind_ok CC _ _ _ b b) by reflexivity.
      unfold u_repr. rewrite Eu. unfold ndim. rewrite Su. reflexivity.
  Qed.
  Lemma dvr_repr : u_repr b = repr.
  Proof.
    destruct (dvr_result _ _ _ _ _ _ _ _ _ _ _ Hb) as ([_ _ _ _ _ _ A _] & Hp & _).
    unfold u_repr. rewrite A. cbn [dvr_stored]. unfold ndim, dvr_coulomb. destruct repr; [reflexivity | reflexivity | congruence].
  Qed.
End Use.

Lemma dvr_full_general npm anti0 l L a alpha beta V b :
  odsincdvr npm false anti0 l L a alpha beta V U4d = (Ok tt, b) ->
  forall anti, exists s b', b_arr b F_s = Some s /\ change_to_general None anti b = (Ok true, b') /\
    spin_doubled l (default_a CC) (default_b CC) (anti && negb anti0) s b b'.
Proof.
  intros Hb anti. destruct (dvr_result _ _ _ _ _ _ _ _ _ _ _ Hb) as ([_ _ _ _ A5 A6 A _] & _ & _).
  assert (Es : b_arr b F_s = Some (astype Complex128 (eye l))) by (rewrite A; reflexivity).
  destruct (change_to_general_ok CC None anti b l _ ltac:(reflexivity) (default_accepted CC)
    (dvr_full_ready _ _ _ _ _ _ _ _ _ _ _ Hb eq_refl) A5 Es) as (b' & E & D).
  rewrite A6 in D. eauto.
Qed.

Section General.
  Variable K : scalar.
  Lemma general_init_dvr (n : Z) i (va vb : list K) (anti : bool) w (bs : basis K) : nth_error (w_bs w) i = Some bs ->
    b_cls bs = SincDVR -> b_spin bs = false -> general_init n i va vb anti w = (Err TypeError, w).
  Proof.
    intros Hi Hc Hs. unfold general_init.
    rewrite (wbind_ok K _ _ _ _ _ (on_basis_pure K i get_st w bs _ Hi eq_refl)), Hs.
    erewrite wbind_err; [reflexivity|].
    erewrite wbind_err; [reflexivity|].
    apply (on_basis_pure K i _ w bs); [exact Hi|]. unfold change_to_general.
    rewrite (bind_ok K _ _ _ bs bs) by reflexivity. rewrite Hc. reflexivity.
  Qed.
End General.

(** A witness: two grid points, bare numbers *)
Definition small_dvr : basis CC := snd (odsincdvr 0 false false 2 1 1 1 0 (fun _ => 0) U2d).
Lemma small_dvr_ok : odsincdvr 0 false false 2 1 1 1 0 (fun _ => 0) U2d = (Ok tt, small_dvr).
Proof.
  unfold small_dvr. destruct (dvr_ok 0 false false 2 1 1 1 0 (fun _ => 0) U2d) as (b & E & _); [discriminate | lia|]. rewrite E. reflexivity.
Qed.
Lemma doubled_identity_not_antisym :
  exists b1 b2 u', change_to_general None true small_dvr = (Ok true, b1) /\ change_basis (eye 4) None b1 = (Ok tt, b2) /\
    b_asym b2 = true /\ b_arr b2 F_u = Some u' /\ shape u' = [4; 4; 4; 4]%nat /\ ten u' 0 1 0 1 = RtoC 1 /\ ten u' 0 1 1 0 = RtoC 0.
Proof.
  pose proof (dvr_compact _ _ _ _ _ _ _ _ _ _ _ small_dvr_ok eq_refl) as Cp.
  destruct (dvr_result _ _ _ _ _ _ _ _ _ _ _ small_dvr_ok) as ([_ _ _ _ A5 A6 A _] & _ & _).
  destruct (doubled_change_ok CC true small_dvr 2 4 (eye 4) None Cp) as (b1 & b2 & u & u' & E1 & E2 & Ea & Eu & Eu' & Su' & G).
  - apply (dvr_spinless _ _ _ _ _ _ _ _ _ _ _ small_dvr_ok).
  - exact A5.
  - apply (dvr_has _ _ _ _ _ _ _ _ _ _ _ small_dvr_ok). cbn. tauto.
  - apply (dvr_has _ _ _ _ _ _ _ _ _ _ _ small_dvr_ok). cbn. tauto.
  - reflexivity.
  - reflexivity.
  - exists b1, b2, u'. split; [exact E1|]. split; [exact E2|]. split; [rewrite Ea, A6; reflexivity|]. split; [exact Eu'|]. split; [exact Su'|].
    rewrite A in Eu. injection Eu as <-.
    assert (D : forall p q r s, (p < 4)%nat -> (q < 4)%nat -> (r < 4)%nat -> (s < 4)%nat ->
      ten u' p q r s = dbl2 (spread (mat (astype Complex128 (dvr_coulomb 2 1 1 1 U2d)))) p q r s).
    { intros. rewrite G by assumption. transitivity (T2 4 (dbl2 (spread (mat (astype Complex128 (dvr_coulomb 2 1 1 1 U2d))))) delta delta p q r s); [|apply T2_delta; assumption]. apply T2_ext; auto.
      intros x _. split; cbn [tilde adj]; unfold adj; cbn [mat eye get]; unfold delta; rewrite (Nat.eqb_sym x); (destruct (_ =? _)%nat; [apply conj_1 | apply conj_0]). }
    rewrite !D by lia. unfold dbl2, spread. cbn [Nat.even same_parity Bool.eqb andb].
    split; [|reflexivity]. change (RtoC (dvr_data 2 1 1 1 0 0) = RtoC 1). f_equal. unfold dvr_data, shielded_coulomb.
    replace (linspace 1 2 0 - linspace 1 2 0) with 0 by ring. replace (0 ^ 2 + 1 ^ 2) with 1 by ring. rewrite sqrt_1. field.
Qed.
