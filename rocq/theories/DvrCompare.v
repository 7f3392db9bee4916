(** A compact basis and its four-index counterpart stay in step. *)
From Coq Require Import List Arith ZArith Lia Bool.
From Verif Require Import Scalar Py Numpy NumpyFacts Spec TransformFacts BasisSet BasisSpec BasisFacts
  ChangeProofs ConvProofs SpinFacts DoubleFacts DvrSpec DvrProofs.
Import ListNotations.

Section Compare.
  Variable K : scalar.
  Local Open Scope K_scope.
  Add Ring Kring : (s_ring K).
  Notation arr := (arr K).
  Notation basis := (basis K).
  Implicit Types (b : basis) (C D u : arr).

  Lemma mat_aeq (a c : arr) n m p q : shape a = [n; m] -> aeq a c -> (p < n)%nat -> (q < m)%nat -> mat a p q = mat c p q.
  Proof. intros S [_ G] Hp Hq. apply G. rewrite S. repeat constructor; assumption. Qed.
  Lemma ten_aeq (a c : arr) n m o t p q r s : shape a = [n; m; o; t] -> aeq a c ->
    (p < n)%nat -> (q < m)%nat -> (r < o)%nat -> (s < t)%nat -> ten a p q r s = ten c p q r s.
  Proof. intros S [_ G] Hp Hq Hr Hs. apply G. rewrite S. repeat constructor; assumption. Qed.

  Section Congr.
    Variables (l k : nat) (C D : arr).
    Lemma changed1_congr x x' y y' : (forall a, x = Some a -> shape a = [l; l]) -> opt_aeq x x' ->
      changed1 l k C D x y -> changed1 l k C D x' y' -> opt_aeq y y'.
    Proof.
      destruct x as [x|], x' as [x'|], y as [y|], y' as [y'|]; cbn; try tauto.
      intros Sx E [S1 G1] [S2 G2]. apply (aeq2 K y y' k k S1 S2). intros p q Hp Hq. rewrite G1, G2 by assumption.
      apply T1_ext; auto. intros. apply (mat_aeq x x' l l); auto.
    Qed.
    Lemma changed2_congr x x' y y' : (forall a, x = Some a -> shape a = [l; l; l; l]) -> opt_aeq x x' ->
      changed2 l k C D x y -> changed2 l k C D x' y' -> opt_aeq y y'.
    Proof.
      destruct x as [x|], x' as [x'|], y as [y|], y' as [y'|]; cbn; try tauto.
      intros Sx E [S1 G1] [S2 G2]. apply (aeq4 K y y' k k k k S1 S2). intros p q r s Hp Hq Hr Hs. rewrite G1, G2 by assumption.
      apply T2_ext; auto. intros. apply (ten_aeq x x' l l l l); auto.
    Qed.
    Lemma changed_dip_congr dim x x' y y' : (forall a, x = Some a -> shape a = [dim; l; l]) -> opt_aeq x x' ->
      changed_dip dim l k C D x y -> changed_dip dim l k C D x' y' -> opt_aeq y y'.
    Proof.
      destruct x as [x|], x' as [x'|], y as [y|], y' as [y'|]; cbn; try tauto.
      intros Sx [_ E] [S1 G1] [S2 G2]. split; [congruence|]. intros idx V. rewrite S1 in V.
      destruct (valid3 _ _ _ _ V) as (i & p & q & -> & Hi & Hp & Hq). rewrite G1, G2 by assumption.
      apply T1_ext; auto. intros. apply E. rewrite (Sx x eq_refl). repeat constructor; assumption.
    Qed.
    Lemma changed_spf_congr x x' y y' : (forall a, x = Some a -> exists g, shape a = l :: g) -> opt_aeq x x' ->
      changed_spf l k C x y -> changed_spf l k C x' y' -> opt_aeq y y'.
    Proof.
      destruct x as [x|], x' as [x'|], y as [y|], y' as [y'|]; cbn; try tauto.
      intros Sx [E0 E] (S1 & _ & G1) (S2 & _ & G2). split; [congruence|]. intros idx V. rewrite S1 in V.
      destruct (valid_cons _ _ _ V) as (p & t & -> & Hp & Vt). rewrite G1, G2 by assumption.
      destruct (Sx x eq_refl) as (g & Sg). rewrite Sg in Vt. cbn [tl] in Vt.
      apply sumn_ext. intros i Hi. f_equal. apply E. rewrite Sg. constructor; assumption.
    Qed.
    Lemma changed_bra_congr x x' y y' : (forall a, x = Some a -> exists g, shape a = l :: g) -> opt_aeq x x' ->
      changed_bra l k D x y -> changed_bra l k D x' y' -> opt_aeq y y'.
    Proof.
      destruct x as [x|], x' as [x'|], y as [y|], y' as [y'|]; cbn; try tauto.
      intros Sx [E0 E] (S1 & _ & G1) (S2 & _ & G2). split; [congruence|]. intros idx V. rewrite S1 in V.
      destruct (valid_cons _ _ _ V) as (p & t & -> & Hp & Vt). rewrite G1, G2 by assumption.
      destruct (Sx x eq_refl) as (g & Sg). rewrite Sg in Vt. cbn [tl] in Vt.
      apply sumn_ext. intros i Hi. f_equal. apply E. rewrite Sg. constructor; assumption.
    Qed.
  End Congr.

  Lemma same_spatial_refl b : same_spatial b b.
  Proof. constructor; auto using opt_aeq_refl. Qed.
  Lemma bra_shape b l : ready b l -> forall a, bra_view b = Some a -> exists g, shape a = l :: g.
  Proof.
    intros R a. unfold bra_view. destruct (b_arr b F_bra) as [c|] eqn:Ec.
    - intros E. injection E as <-. destruct (r_bra K b l R c Ec) as (g & Sg & _). eauto.
    - destruct (b_arr b F_spf) as [d|] eqn:Ed; [|discriminate]. intros E. injection E as <-.
      destruct (r_spf K b l R d Ed) as (g & Sg & _). exists g. exact Sg.
  Qed.
  Lemma changed_same l k C D b1 b2 b1' b2' : shape C = [l; k] -> shape D = [k; l] -> ready b1 l -> same_spatial b1 b2 ->
    basis_changed l k C D b1 b1' -> basis_changed l k C D b2 b2' -> same_spatial b1' b2'.
  Proof.
    intros SC SD R S B1 B2. constructor.
    - rewrite (bc_l B1), (bc_l B2). reflexivity.
    - rewrite (bc_dim B1), (bc_dim B2). apply S.
    - rewrite (bc_spin B1), (bc_spin B2). apply S.
    - rewrite (bc_asym B1), (bc_asym B2). apply S.
    - rewrite (bc_nuc B1), (bc_nuc B2). apply S.
    - rewrite (bc_cls B1), (bc_cls B2). apply S.
    - rewrite (bc_np B1), (bc_np B2). apply S.
    - intros f Hf. pose proof (ss_arr K b1 b2 S f Hf) as E. cbn in Hf. destruct_or Hf; subst f.
      + apply (changed1_congr l k C D _ _ _ _) with (2 := E) (3 := bc_h B1) (4 := bc_h B2).
        destruct (r_h K b1 l R) as (h & Eh & Sh). intros a Ha. congruence.
      + apply (changed1_congr l k C D _ _ _ _) with (2 := E) (3 := bc_s B1) (4 := bc_s B2). apply R.
      + apply (changed2_congr l k C D _ _ _ _) with (2 := E) (3 := bc_u B1) (4 := bc_u B2).
        destruct (r_u K b1 l R) as (h & Eh & Sh). intros a Ha. congruence.
      + pose proof (bc_dip B2) as D2. rewrite <- (ss_dim K b1 b2 S) in D2.
        apply (changed_dip_congr l k C D (b_dim b1) _ _ _ _) with (2 := E) (3 := bc_dip B1) (4 := D2).
        intros a Ha. apply (r_dip K b1 l R a Ha).
      + apply (changed_spf_congr l k C _ _ _ _) with (2 := E) (3 := bc_spf B1) (4 := bc_spf B2).
        intros a Ha. destruct (r_spf K b1 l R a Ha) as (g & Sg & _). eauto.
    - intros Hs.
      assert (Hs1 : b_arr b1 F_spf <> None).
      { intros E. pose proof (bc_spf B1) as X. rewrite E in X. destruct (b_arr b1' F_spf); [destruct X | congruence]. }
      assert (Hs2 : b_arr b2 F_spf <> None).
      { pose proof (ss_arr K b1 b2 S F_spf ltac:(cbn; tauto)) as E. intros E2. rewrite E2 in E.
        destruct (b_arr b1 F_spf); [destruct E | congruence]. }
      rewrite (changed_bra_view K l k C D b1 b1' B1 Hs1), (changed_bra_view K l k C D b2 b2' B2 Hs2).
      apply (changed_bra_congr l k D _ _ _ _) with (2 := ss_bra K b1 b2 S Hs1) (3 := bc_bra B1 Hs1) (4 := bc_bra B2 Hs2).
      apply bra_shape. exact R.
  Qed.

  (** The transformation, compact against full. *)
  Lemma method_compare b u C Ct (anti : bool) l k : u_repr b = U2d -> shape u = [l; l] -> shape C = [l; k] -> tilde_shape C Ct k l ->
    exists u2 u4, transform_two_body_dvr b u C anti Ct = Ok u2 /\ transform_two_body_base (spread_arr l u) C Ct = Ok u4 /\
      shape u2 = [k; k; k; k] /\ shape u4 = [k; k; k; k] /\
      forall p q r s, (p < k)%nat -> (q < k)%nat -> (r < k)%nat -> (s < k)%nat ->
        ten u2 p q r s = if anti then exch (ten u4) p q r s else ten u4 p q r s.
  Proof.
    intros Hr Su SC SD. destruct (transform_compact_ok K b u C Ct anti l k Hr Su SC SD) as (u2 & E2 & S2 & G2).
    destruct (two_body_formula K (spread_arr l u) C Ct l k eq_refl SC SD) as (u4 & E4 & S4 & G4).
    exists u2, u4. repeat (split; [assumption|]). intros p q r s Hp Hq Hr' Hs. rewrite G2 by assumption.
    destruct anti; [unfold exch|]; rewrite !G4 by assumption; reflexivity.
  Qed.

  (** Change of basis, compact against full. *)
  Lemma change_compare b C Ct l k : compact b l -> shape C = [l; k] -> tilde_shape C Ct k l ->
    exists b2 b4, change_basis C Ct b = (Ok tt, b2) /\ change_basis C Ct (widened l b) = (Ok tt, b4) /\
      same_spatial b2 b4.
  Proof.
    intros Cp SC SD. destruct (change_compact_ok K b C Ct l k Cp SC SD) as (b2 & E2 & B2).
    destruct (default_tilde_spec K C Ct l k k SC SD) as [SD' _].
    destruct (change_basis_ok K l k C _ SC SD' (widened l b) (cp_ready K b l Cp)) as (b4 & E4 & B4).
    exists b2, b4. split; [exact E2|]. split; [rewrite change_basis_default; exact E4|].
    apply (changed_same l k C _ _ _ _ _ SC SD' (cp_ready K b l Cp) (same_spatial_refl _) B2 B4).
  Qed.

  Lemma doubled1_same l x x' y y' : (forall a, x = Some a -> shape a = [l; l]) -> x = x' ->
    doubled1 (K := K) l x y -> doubled1 l x' y' -> opt_aeq y y'.
  Proof.
    intros Sx <-. destruct x as [x|], y as [y|], y' as [y'|]; cbn; try tauto.
    intros [S1 G1] [S2 G2]. apply (aeq2 K y y' _ _ S1 S2). intros. rewrite G1, G2. reflexivity.
  Qed.
  Lemma doubled_spf_same l x y y' : doubled_spf (K := K) l x y -> doubled_spf l x y' -> opt_aeq y y'.
  Proof.
    destruct x as [x|], y as [y|], y' as [y'|]; cbn; try tauto.
    intros [S1 G1] [S2 G2]. split; [congruence|]. intros idx V. rewrite S1 in V.
    destruct (valid_cons _ _ _ V) as (p & t & -> & Hp & Vt). rewrite G1, G2. reflexivity.
  Qed.
  (** Spin doubling, compact against full. *)
  Lemma double_compare b l : compact b l -> b_spin b = false -> b_arr b F_s <> None ->
    exists b2 b4, change_to_general None false b = (Ok true, b2) /\
      change_to_general None false (widened l b) = (Ok true, b4) /\
      compact_doubled l false b b2 /\ same_spatial (widened (2 * l) b2) b4 /\
      (b_arr b F_spf <> None -> ready b4 (2 * l)).
  Proof.
    intros Cp Hspin Hs. destruct (general_compact_ok K false b l Cp Hspin Hs) as (b2 & E2 & H2).
    destruct (widened_meta K l b) as (W1 & W2 & W3 & W4 & W5 & W6 & W7 & W8).
    destruct (b_arr b F_s) as [s|] eqn:Es; [clear Hs|congruence].
    destruct (change_to_general_ok K None false (widened l b) l s) as (b4 & E4 & H4); auto.
    { apply default_accepted. }
    { apply Cp. } { congruence. } { rewrite W8 by discriminate. exact Es. }
    exists b2, b4. split; [exact E2|]. split; [exact E4|]. split; [exact H2|].
    split; [|intros Hf; apply (doubled_ready K (widened l b) b4 l _ _ _ s) with (3 := H4);
      [apply Cp | rewrite W8 by discriminate; congruence]].
    destruct (widened_meta K (2 * l) b2) as (V1 & V2 & V3 & V4 & V5 & V6 & V7 & V8).
    destruct H2 as [A1 A2 A3 A4 A5 A6 A7 Ah As (u & u' & Eu & Eu' & Su' & Gu) Ad Af Ab An].
    destruct (cp_u K b l Cp) as (u0 & Eu0 & Su0).
    pose proof (sd_u H4) as B_u.
    assert (Fu : b_arr (widened l b) F_u = Some (spread_arr l u)) by (unfold widened; rewrite Eu; reflexivity).
    rewrite Fu in B_u.
    constructor.
    - rewrite V2, A1. symmetry. apply H4.
    - rewrite V3, A4, <- W3. symmetry. apply H4.
    - rewrite V5, A6. symmetry. apply H4.
    - rewrite V6, A7, (sd_asym H4), W6. reflexivity.
    - rewrite V7, A5, <- W7. symmetry. apply H4.
    - rewrite V4, A2, <- W4. symmetry. apply H4.
    - rewrite V1, A3, <- W1. symmetry. apply H4.
    - intros f Hf. cbn in Hf. destruct_or Hf; subst f.
      + rewrite V8 by discriminate. apply (doubled1_same l (b_arr b F_h) (b_arr (widened l b) F_h)); auto.
        * intros a Ha. destruct (r_h K _ l (cp_ready K b l Cp)) as (h & Eh & Sh). rewrite W8 in Eh by discriminate. congruence.
        * symmetry. apply W8. discriminate.
        * apply H4.
      + rewrite V8 by discriminate. apply (doubled1_same l (b_arr b F_s) (b_arr (widened l b) F_s)); auto.
        * intros a Ha. apply (r_s K _ l (cp_ready K b l Cp)). rewrite W8 by discriminate. exact Ha.
        * symmetry. apply W8. discriminate.
        * apply H4.
      + destruct (b_arr b4 F_u) as [v|]; [|destruct B_u]. destruct B_u as [Sv Gv].
        unfold widened. rewrite Eu'. cbn [b_arr field_eqb opt_aeq].
        apply (aeq4 K (spread_arr (2 * l) u') v _ _ _ _ eq_refl Sv). intros p q r t Hp Hq Hr Ht. rewrite Gv by assumption.
        cbn [andb]. change (ten (spread_arr (2 * l) u') p q r t) with (spread (mat u') p q r t).
        change (dbl2 (ten (spread_arr l u)) p q r t) with (dbl2 (spread (mat u)) p q r t).
        rewrite dbl2_spread. unfold spread. rewrite Gu. reflexivity.
      + rewrite V8 by discriminate. pose proof (sd_dip H4) as Bd. rewrite W3, W8 in Bd by discriminate.
        destruct (b_arr b F_dip) as [d|], (b_arr b2 F_dip) as [d2|], (b_arr b4 F_dip) as [d4|]; cbn in Ad, Bd |- *; try tauto.
        destruct Ad as [S1 G1], Bd as [S2 G2]. split; [congruence|]. intros idx V. rewrite S1 in V.
        destruct (valid3 _ _ _ _ V) as (i & p & q & -> & Hi & Hp & Hq). rewrite G1, G2 by assumption. reflexivity.
      + rewrite V8 by discriminate. pose proof (sd_spf H4) as Bf. rewrite W8 in Bf by discriminate.
        exact (doubled_spf_same l _ _ _ Af Bf).
    - intros Hf. rewrite V8 in Hf by discriminate.
      assert (Hf0 : b_arr b F_spf <> None).
      { intros E. rewrite E in Af. destruct (b_arr b2 F_spf); [destruct Af | congruence]. }
      specialize (Ab Hf0).
      assert (Bb : doubled_spf l (bra_view (widened l b)) (b_arr b4 F_bra)).
      { apply H4. rewrite W8 by discriminate. exact Hf0. }
      assert (Ev : bra_view (widened l b) = bra_view b).
      { unfold bra_view. rewrite !W8 by discriminate. reflexivity. }
      rewrite Ev in Bb.
      assert (Hv : exists a, bra_view b = Some a).
      { unfold bra_view. destruct (b_arr b F_bra), (b_arr b F_spf); eauto. congruence. }
      destruct Hv as (a & Ea). rewrite Ea in Ab, Bb.
      assert (X2 : bra_view (widened (2 * l) b2) = b_arr b2 F_bra).
      { unfold bra_view. rewrite !V8 by discriminate. destruct (b_arr b2 F_bra); [reflexivity | destruct Ab]. }
      assert (X4 : bra_view b4 = b_arr b4 F_bra).
      { unfold bra_view. destruct (b_arr b4 F_bra); [reflexivity | destruct Bb]. }
      rewrite X2, X4. exact (doubled_spf_same l _ _ _ Ab Bb).
  Qed.

  (** ... and a change of basis after that. *)
  Lemma double_change_compare b C Ct l k : compact b l -> spinless b -> b_spin b = false ->
    b_arr b F_s <> None -> b_arr b F_spf <> None -> shape C = [2 * l; k]%nat -> tilde_shape C Ct k (2 * l) ->
    exists b2 b4 b2' b4', change_to_general None false b = (Ok true, b2) /\
      change_to_general None false (widened l b) = (Ok true, b4) /\
      change_basis C Ct b2 = (Ok tt, b2') /\ change_basis C Ct b4 = (Ok tt, b4') /\ same_spatial b2' b4'.
  Proof.
    intros Cp Sp Hspin Hs Hf SC SD.
    destruct (double_compare b l Cp Hspin Hs) as (b2 & b4 & E2 & E4 & H2 & S24 & R4). specialize (R4 Hf).
    assert (Cp2 : compact b2 (2 * l)) by (apply (doubled_compact K false b b2 l Cp Sp H2); congruence).
    destruct (change_compact_ok K b2 C Ct (2 * l) k Cp2 SC SD) as (b2' & E2' & B2').
    destruct (default_tilde_spec K C Ct (2 * l) k k SC SD) as [SD' _].
    destruct (change_basis_ok K (2 * l) k C _ SC SD' b4 R4) as (b4' & E4' & B4').
    exists b2, b4, b2', b4'. split; [exact E2|]. split; [exact E4|]. split; [exact E2'|].
    split; [rewrite change_basis_default; exact E4'|].
    exact (changed_same (2 * l) k C _ _ _ _ _ SC SD' (cp_ready K b2 (2 * l) Cp2) S24 B2' B4').
  Qed.
End Compare.
