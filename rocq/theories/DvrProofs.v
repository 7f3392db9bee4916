(** Compact (two-index) storage of the sinc-DVR two-body elements. *)
From Coq Require Import List Arith ZArith Lia Bool.
From Verif Require Import Scalar Py Numpy NumpyFacts Spec TransformFacts BasisSet BasisSpec BasisFacts
  ChangeProofs ConvProofs SpinFacts DoubleFacts DvrSpec.
Import ListNotations.

Section Dvr.
  Variable K : scalar.
  Local Open Scope K_scope.
  Add Ring Kring : (s_ring K).
  Notation arr := (arr K).
  Notation basis := (basis K).
  Implicit Types (b : basis) (C D u : arr).

  Lemma T2_spread n (u C D : nat -> nat -> K) p q r s :
    T2 n (spread u) C D p q r s =
    sumn n (fun a => sumn n (fun c : nat => C c s * C a r * D q c * D p a * u a c)).
  Proof.
    unfold T2. apply sumn_ext. intros a Ha. apply sumn_ext. intros b0 Hb.
    rewrite (sumn_pick K n a); [|exact Ha|].
    - rewrite (sumn_pick K n b0); [|exact Hb|].
      + unfold spread. rewrite !Nat.eqb_refl. cbn [andb]. ring.
      + intros d Hd Hn. unfold spread. destruct (Nat.eqb_spec b0 d) as [->|_]; [congruence|].
        rewrite andb_false_r. ring.
    - intros c Hc Hn. apply sumn_zero'. intros d Hd. unfold spread.
      destruct (Nat.eqb_spec a c) as [->|_]; [congruence|]. cbn [andb]. ring.
  Qed.

  Lemma dbl2_spread (u : nat -> nat -> K) P Q R S :
    dbl2 (spread u) P Q R S = spread (fun p q => u (p / 2) (q / 2))%nat P Q R S.
  Proof.
    assert (H : forall x y, same_parity x y && (x / 2 =? y / 2)%nat = (x =? y)%nat).
    { intros x y. rewrite same_parity_mod2.
      pose proof (Nat.div_mod x 2 ltac:(lia)). pose proof (Nat.div_mod y 2 ltac:(lia)).
      destruct (Nat.eqb_spec (x mod 2) (y mod 2)), (Nat.eqb_spec (x / 2) (y / 2)), (Nat.eqb_spec x y);
        try reflexivity; exfalso; [lia | subst; congruence | subst; congruence | subst; congruence ]. }
    unfold dbl2, spread. rewrite <- (H P R), <- (H Q S).
    destruct (same_parity P R), (same_parity Q S); cbn [andb]; rewrite ?andb_false_r; reflexivity.
  Qed.

  Lemma einsum_dvr_ok swap C D u l k : shape C = [l; k] -> shape D = [k; l] -> shape u = [l; l] ->
    exists u', einsum_dvr swap C D u = Ok u' /\ shape u' = [k; k; k; k] /\
      dt u' = dmax (dmax (dt C) (dt D)) (dt u) /\
      forall p q r s, ten u' p q r s =
        if swap then T2 l (spread (mat u)) (mat C) (mat D) p q s r
        else T2 l (spread (mat u)) (mat C) (mat D) p q r s.
  Proof.
    intros HC HD Hu. unfold einsum_dvr. rewrite HC, HD, Hu, !Nat.eqb_refl. cbn [andb].
    eexists. split; [reflexivity|]. split; [reflexivity|]. split; [reflexivity|].
    intros p q r s. destruct swap; rewrite T2_spread; unfold ten; cbn [get]; reflexivity.
  Qed.

  Lemma u_repr_2d b u n m : b_arr b F_u = Some u -> shape u = [n; m] -> u_repr b = U2d.
  Proof. intros Hu Su. unfold u_repr. rewrite Hu. unfold ndim. rewrite Su. reflexivity. Qed.

  (** The method itself, with and without direct anti-symmetrization. *)
  Lemma transform_compact_ok b u C Ct (anti : bool) l k : u_repr b = U2d ->
    shape u = [l; l] -> shape C = [l; k] -> tilde_shape C Ct k l ->
    exists u', transform_two_body_dvr b u C anti Ct = Ok u' /\ shape u' = [k; k; k; k] /\
      forall p q r s, (p < k)%nat -> (q < k)%nat -> (r < k)%nat -> (s < k)%nat ->
        ten u' p q r s = (if anti then exch (T2 l (spread (mat u)) (mat C) (tilde C Ct))
                                  else T2 l (spread (mat u)) (mat C) (tilde C Ct)) p q r s.
  Proof.
    intros Hr Su SC Sd. unfold transform_two_body_dvr. rewrite Hr. cbn [urepr_eqb].
    destruct (default_tilde_spec K C Ct l k k SC Sd) as [SD GD]. set (D := default_tilde C Ct) in *.
    assert (X : forall p q r s, T2 l (spread (mat u)) (mat C) (mat D) p q r s =
                                T2 l (spread (mat u)) (mat C) (tilde C Ct) p q r s).
    { intros. apply T2_ext; auto. }
    destruct (einsum_dvr_ok false C D u l k SC SD Su) as (u1 & E1 & S1 & D1 & G1).
    rewrite E1. cbn [rbind]. destruct anti.
    - destruct (einsum_dvr_ok true C D u l k SC SD Su) as (u2 & E2 & S2 & D2 & G2).
      rewrite E2. cbn [rbind]. unfold isub.
      destruct (inplace_same K (fun x y => x - y) u1 u2) as (r & Er & Sr & _ & Gr).
      { congruence. } { rewrite D1, D2. apply castable_refl. }
      exists r. split; [exact Er|]. split; [congruence|]. intros p q r' s Hp Hq Hr' Hs.
      unfold ten at 1. rewrite Gr by (rewrite S1; repeat constructor; assumption).
      fold (ten u1 p q r' s). fold (ten u2 p q r' s). rewrite G1, G2. unfold exch. rewrite !X. reflexivity.
    - exists u1. split; [reflexivity|]. split; [exact S1|]. intros. rewrite G1. apply X.
  Qed.

  (** Every transformation the library itself makes. *)
  Lemma t2_compact b u C D l k : b_cls b = SincDVR -> u_repr b = U2d ->
    shape u = [l; l] -> shape C = [l; k] -> shape D = [k; l] ->
    exists u', transform_two_body b u C (Some D) = Ok u' /\ shape u' = [k; k; k; k] /\
      forall p q r s, (p < k)%nat -> (q < k)%nat -> (r < k)%nat -> (s < k)%nat ->
        ten u' p q r s = T2 l (spread (mat u)) (mat C) (mat D) p q r s.
  Proof.
    intros Hc Hr Su SC SD. unfold transform_two_body. rewrite Hc.
    exact (transform_compact_ok b u C (Some D) false l k Hr Su SC SD).
  Qed.

  Lemma widened_set b u l : b_arr b F_u = Some u ->
    forall f, b_arr (widened l b) f = b_arr (set_arr F_u (Some (spread_arr l u)) b) f.
  Proof. intros Hu f. unfold widened. rewrite Hu. destruct f; reflexivity. Qed.
  Lemma ready_ext b b' l : b_np b' = b_np b -> b_l b' = b_l b -> b_dim b' = b_dim b -> b_spin b' = b_spin b ->
    (forall f, b_arr b' f = b_arr b f) -> ready b l -> ready b' l.
  Proof.
    intros E1 E2 E3 E4 E [R1 R2 R3 R4 R5 R6 R7 R8 R9 R10].
    constructor; rewrite ?E1, ?E2, ?E3, ?E4, ?E; try assumption.
    - intros f a Hf. rewrite E. apply R9. exact Hf.
  Qed.
  Lemma changed_ext l k C D b1 b1' b2 : b_cls b1' = b_cls b1 -> b_np b1' = b_np b1 ->
    b_dim b1' = b_dim b1 -> b_nuc b1' = b_nuc b1 -> b_spin b1' = b_spin b1 -> b_asym b1' = b_asym b1 ->
    (forall f, b_arr b1' f = b_arr b1 f) -> basis_changed l k C D b1 b2 -> basis_changed l k C D b1' b2.
  Proof.
    intros E1 E2 E3 E4 E5 E6 E [X1 X2 X3 X4 X5 X6 X7 X8 X9 X10 X11 X12 X13 X14 X15 X16].
    assert (Eb : bra_view b1' = bra_view b1) by (unfold bra_view; rewrite !E; reflexivity).
    constructor; rewrite ?E1, ?E2, ?E3, ?E4, ?E5, ?E6, ?E, ?Eb; try assumption.
    intros f Hf. rewrite E. apply X16. exact Hf.
  Qed.

  Lemma change_compact_ok b C Ct l k : compact b l -> shape C = [l; k] -> tilde_shape C Ct k l ->
    exists b', change_basis C Ct b = (Ok tt, b') /\
      basis_changed l k C (default_tilde C Ct) (widened l b) b'.
  Proof.
    intros [Hc (u & Hu & Su) R Ht] SC SD. rewrite change_basis_default.
    destruct (default_tilde_spec K C Ct l k k SC SD) as [SD' _]. set (D := default_tilde C Ct) in *.
    destruct (change_basis_gen K l k C D SC SD' b (spread_arr l u)) as (b' & E & B).
    - revert R. apply ready_ext; try (unfold widened; rewrite Hu; reflexivity).
    - intros b1 (A1&A2&A3&A4&A5&A6&A7&A8). cbn [set_l b_cls b_np b_l b_dim b_nuc b_spin b_asym] in *.
      destruct R as [(m & Em) _ _ _ _ _ _ _ _ _].
      assert (Em' : b_np b = Some m) by (rewrite <- Em; unfold widened; rewrite Hu; reflexivity).
      assert (Hu1 : b_arr b1 F_u = Some u) by (rewrite A8 by notin; exact Hu).
      assert (Ht1 : b_arr b1 F_sp2tb = None) by (rewrite A8 by notin; exact Ht).
      destruct (t2_compact b1 u C D l k) as (u' & Eu & Su' & Gu); try congruence.
      { exact (u_repr_2d b1 u l l Hu1 Su). }
      exists (set_arr F_u (Some u') b1). split.
      + unfold change_basis_two_body.
        rewrite (bind_ok K _ _ _ m b1) by (apply need_np_ok; congruence).
        rewrite (bind_ok K _ _ _ (Some u) b1) by (unfold rd; rewrite Hu1; reflexivity).
        rewrite (bind_ok K _ _ _ u b1) by reflexivity.
        rewrite (bind_ok K _ _ _ b1 b1) by reflexivity.
        rewrite (bind_ok K _ _ _ u' b1) by (unfold lift; rewrite Eu; reflexivity).
        rewrite (bind_ok K _ _ _ tt (set_arr F_u (Some u') b1))
          by (apply set_sq_ok; rewrite A3; apply check_axes4; exact Su').
        rewrite (bind_ok K _ _ _ None (set_arr F_u (Some u') b1)) by (unfold rd; cbn; rewrite Ht1; reflexivity).
        reflexivity.
      + split; [sb|]. split; [split; [exact Su' | exact Gu]|]. cbn. rewrite Ht1. exact I.
    - exists b'. split; [exact E|]. revert B.
      apply changed_ext; try (unfold widened; rewrite Hu; reflexivity).
  Qed.

  (** Spin doubling of a compact basis. *)
  Lemma add_spin_compact u l : shape u = [l; l] ->
    exists u', add_spin_two_body SincDVR u = Ok u' /\ shape u' = [2 * l; 2 * l]%nat /\
      forall P Q, mat u' P Q = mat u (P / 2) (Q / 2).
  Proof.
    intros Su. unfold add_spin_two_body, ndim. rewrite Su. cbn [length Nat.eqb].
    eexists. split; [reflexivity|].
    destruct (kron22 K u (Arr [2; 2]%nat Float64 (fun _ => 1)) l l 2 2 Su eq_refl) as (S1 & _ & G1).
    split; [rewrite S1; f_equal; [lia | f_equal; lia]|]. intros P Q. rewrite G1. unfold mat at 2. cbn [get]. ring.
  Qed.
  Lemma widened_meta l b : b_np (widened l b) = b_np b /\ b_l (widened l b) = b_l b /\
    b_dim (widened l b) = b_dim b /\ b_cls (widened l b) = b_cls b /\ b_spin (widened l b) = b_spin b /\
    b_asym (widened l b) = b_asym b /\ b_nuc (widened l b) = b_nuc b /\
    (forall f, f <> F_u -> b_arr (widened l b) f = b_arr b f).
  Proof.
    unfold widened. destruct (b_arr b F_u); repeat split. intros f Hf. cbn. destruct f; try reflexivity. congruence.
  Qed.

  Lemma double_compact_ok (va vb : list K) (anti : bool) b l : compact b l -> b_spin b = false ->
    b_arr b F_s <> None ->
    exists b', to_general_base va vb anti b = (Ok true, b') /\ compact_doubled l anti b b'.
  Proof.
    intros [Hc (u & Hu & Su) R Ht] Hspin Hs0. destruct (b_arr b F_s) as [s|] eqn:Hs; [clear Hs0 | congruence].
    destruct (widened_meta l b) as (W1 & W2 & W3 & W4 & W5 & W6 & W7 & W8).
    destruct R as [(m & Em) Hl (h & Hh & Sh) _ Rs Rd Rspf Rbra Rsp Rtb].
    rewrite W1 in Em. rewrite W2 in Hl. rewrite W8 in Hh, Rs, Rd, Rspf, Rbra by discriminate.
    rewrite W3 in Rd, Rspf, Rbra.
    pose proof (Rs s Hs) as Ss.
    unfold to_general_base. rewrite (bind_ok K _ _ _ b b) by reflexivity. rewrite Hspin, Hl.
    rewrite (bind_ok K _ _ _ tt (set_spin true b)) by reflexivity.
    rewrite (bind_ok K _ _ _ tt (set_l (2 * l) (set_spin true b))) by reflexivity.
    set (b0 := set_l (2 * l) (set_spin true b)).
    rewrite (bind_ok K _ _ _ s b0) by (rewrite Hs; reflexivity).
    rewrite (bind_ok K _ _ _ m b0) by (apply need_np_ok; exact Em).
    rewrite (bind_ok K _ _ _ h b0) by (rewrite Hh; reflexivity).
    destruct (add_spin_one_body_spec K h l Sh) as (Sh' & _ & Gh'). set (h' := add_spin_one_body h) in *.
    rewrite (bind_ok K _ _ _ tt (set_arr F_h (Some h') b0)) by
      (apply set_sq_ok; apply check_axes2; exact Sh').
    set (b1 := set_arr F_h (Some h') b0).
    rewrite (bind_ok K _ _ _ (Some s) b1) by (unfold rd; cbn; rewrite Hs; reflexivity).
    rewrite (bind_ok K _ _ _ s b1) by reflexivity.
    destruct (add_spin_one_body_spec K s l Ss) as (Ss' & _ & Gs'). set (s' := add_spin_one_body s) in *.
    rewrite (bind_ok K _ _ _ tt (set_arr F_s (Some s') b1)) by
      (apply set_sq_ok; apply check_axes2; exact Ss').
    set (b2 := set_arr F_s (Some s') b1).
    rewrite (bind_ok K _ _ _ (Some u) b2) by (unfold rd; cbn; rewrite Hu; reflexivity).
    rewrite (bind_ok K _ _ _ u b2) by reflexivity.
    destruct (add_spin_compact u l Su) as (u' & Eu & Su' & Gu').
    rewrite (bind_ok K _ _ _ u' b2) by (unfold lift; rewrite Hc, Eu; reflexivity).
    rewrite (bind_ok K _ _ _ tt (set_arr F_u (Some u') b2)) by
      (apply set_sq_ok; apply check_axes2; exact Su').
    set (b3 := set_arr F_u (Some u') b2).
    rewrite (bind_ok K _ _ _ b3 b3) by reflexivity.
    assert (Eur : negb (urepr_eqb (u_repr_attr b3) U2d) = false).
    { unfold u_repr_attr, u_repr. cbn. rewrite Hc. unfold ndim. rewrite Su'. reflexivity. }
    rewrite Eur. cbn [when].
    rewrite (bind_ok K _ _ _ tt b3) by reflexivity.
    (* anti-symmetrization *)
    assert (A : exists b5, when anti anti_symmetrize_two_body b3 = (Ok tt, b5) /\
      same_but K [F_u] (set_asym (b_asym b || anti) b3) b5 /\ b_arr b5 F_u = Some u').
    { destruct anti; cbn [when andb].
      - destruct (b_asym b) eqn:Eb; cbn [negb orb].
        + exists b3. split; [apply anti_symmetrize_again; exact Eb|].
          split; [repeat split; cbn; congruence|]. reflexivity.
        + exists (set_asym true (set_arr F_u (Some u') b3)).
          split; [|split; [repeat split; intros f Hf; cbn [set_asym set_arr b_arr]; apply upd_other; intros E0; apply Hf; rewrite <- ?E0; cbn; auto | reflexivity]].
          unfold anti_symmetrize_two_body. rewrite (bind_ok K _ _ _ b3 b3) by reflexivity.
          change (b_asym b3) with (b_asym b). rewrite Eb.
          rewrite (bind_ok K _ _ _ u' b3) by reflexivity.
          rewrite (bind_ok K _ _ _ u' b3).
          2:{ change (b_cls b3) with (b_cls b). rewrite Hc. unfold anti_symmetrize_u, ndim. rewrite Su'. reflexivity. }
          rewrite (bind_ok K _ _ _ tt (set_arr F_u (Some u') b3)) by
            (apply set_sq_ok; apply check_axes2; exact Su').
          rewrite (bind_ok K _ _ _ None (set_arr F_u (Some u') b3)) by
            (unfold rd; cbn; rewrite Ht; reflexivity).
          reflexivity.
      - rewrite orb_false_r. exists b3. split; [reflexivity|].
        split; [repeat split; cbn; congruence|]. reflexivity. }
    destruct A as (b5 & E5 & (N1&N2&N3&N4&N5&N6&N7&N8) & HU5).
    cbn [set_asym b_cls b_np b_l b_dim b_nuc b_spin b_asym b_arr] in *.
    rewrite (bind_ok K _ _ _ tt b5) by exact E5.
    assert (Harr5 : forall f, ~ In f [F_h; F_s; F_u] -> b_arr b5 f = b_arr b f).
    { intros f Hf. rewrite N8 by (cbn in *; intuition congruence).
      destruct f; try reflexivity; exfalso; apply Hf; cbn; tauto. }
    assert (Hdim5 : b_dim b5 = b_dim b) by (rewrite N4; reflexivity).
    assert (Hl5 : b_l b5 = (2 * l)%nat) by (rewrite N3; reflexivity).
    assert (Hnp5 : b_np b5 = Some m) by (rewrite N2; exact Em).
    (* dipole *)
    assert (Dp : exists b6, (match b_arr b5 F_dip with
       | None => ret tt
       | Some d =>
           let* n := lift (alen d) in
           let* xs := lift (rmap (fun i => let! r := row d i in Ok (add_spin_one_body r)) (seq 0 n)) in
           let* d' := lift (stack xs) in
           set_dipole d'
       end) b5 = (Ok tt, b6) /\ same_but K [F_dip] b5 b6 /\
       doubled_dip (b_dim b) l (b_arr b F_dip) (b_arr b6 F_dip)).
    { rewrite (Harr5 F_dip) by (cbn; intuition discriminate).
      destruct (b_arr b F_dip) as [d|] eqn:Ed.
      - destruct (Rd d eq_refl) as [Sd Hdim]. rewrite <- Hdim5 in Sd, Hdim |- *.
        destruct (double_dip_ok K b5 d l Hl5 Hdim Sd) as (d' & E6 & G6).
        exists (set_arr F_dip (Some d') b5). split; [exact E6|]. split; [sb | exact G6].
      - exists b5. split; [reflexivity|]. split; [repeat split|]. rewrite Harr5, Ed by (cbn; intuition discriminate). exact I. }
    destruct Dp as (b6 & E6 & (P1&P2&P3&P4&P5&P6&P7&P8) & G6).
    rewrite (bind_ok K _ _ _ (b_arr b5 F_dip) b5) by reflexivity.
    rewrite (bind_ok K _ _ _ tt b6) by exact E6.
    (* orbitals *)
    assert (Harr6 : forall f, ~ In f (F_dip :: F_h :: F_s :: F_u :: nil) -> b_arr b6 f = b_arr b f).
    { intros f Hf. rewrite P8, Harr5 by (cbn in *; intuition congruence). reflexivity. }
    assert (Hspf6 : b_arr b6 F_spf = b_arr b F_spf) by (apply Harr6; cbn; intuition discriminate).
    assert (Hbra6 : b_arr b6 F_bra = b_arr b F_bra) by (apply Harr6; cbn; intuition discriminate).
    assert (O : exists b7, (match b_arr b6 F_spf with
       | None => ret tt
       | Some spf =>
           let* spf' := lift (add_spin_spf spf) in
           set_orbitals F_spf (Some spf') ;;
           let* bra := rd F_bra in
           match bra with
           | None => ret tt
           | Some bra =>
               let* bra' := lift (add_spin_spf bra) in
               set_orbitals F_bra (Some bra')
           end
       end) b6 = (Ok tt, b7) /\ same_but K [F_spf; F_bra] b6 b7 /\
       doubled_spf l (b_arr b F_spf) (b_arr b7 F_spf) /\
       (b_arr b F_spf = None -> b_arr b7 F_bra = b_arr b F_bra) /\
       (b_arr b F_spf <> None -> doubled_spf l (bra_view b) (bra_view b7))).
    { rewrite Hspf6. destruct (b_arr b F_spf) as [spf|] eqn:Espf.
      - destruct (Rspf spf eq_refl) as (g & Sg & Lg).
        destruct (add_spin_spf_spec K spf l g Sg) as (spf' & Ea & Sa & Da & Ga).
        rewrite (bind_ok K _ _ _ spf' b6) by (unfold lift; rewrite Ea; reflexivity).
        rewrite (bind_ok K _ _ _ tt (set_arr F_spf (Some spf') b6)) by
          (apply (set_orbitals_ok K F_spf spf' b6 g); [rewrite P3, Hl5; exact Sa | rewrite P4, Hdim5; exact Lg]).
        rewrite (bind_ok K _ _ _ (b_arr b F_bra) (set_arr F_spf (Some spf') b6)) by
          (unfold rd; cbn [set_arr b_arr]; rewrite upd_other by discriminate; rewrite Hbra6; reflexivity).
        destruct (b_arr b F_bra) as [bra|] eqn:Ebra.
        + destruct (Rbra bra eq_refl) as (g' & Sg' & Lg').
          destruct (add_spin_spf_spec K bra l g' Sg') as (bra' & Eb & Sb & Db & Gb).
          rewrite (bind_ok K _ _ _ bra' (set_arr F_spf (Some spf') b6)) by (unfold lift; rewrite Eb; reflexivity).
          exists (set_arr F_bra (Some bra') (set_arr F_spf (Some spf') b6)).
          split; [apply (set_orbitals_ok K F_bra bra' _ g'); cbn; [rewrite P3, Hl5; exact Sb | rewrite P4, Hdim5; exact Lg']|].
          split; [sb|]. split; [cbn; rewrite Sg; auto|]. split; [discriminate|]. intros _.
          unfold bra_view. cbn. rewrite Ebra. cbn. rewrite Sg'. auto.
        + exists (set_arr F_spf (Some spf') b6). split; [reflexivity|]. split; [sb|].
          split; [cbn; rewrite Sg; auto|]. split; [discriminate|]. intros _.
          unfold bra_view. cbn. rewrite Hbra6, Ebra, Espf. cbn. rewrite Sg. cbn. split; [exact Sa|].
          intros P x. rewrite Ga. reflexivity.
      - exists b6. split; [reflexivity|]. split; [repeat split|]. rewrite Hspf6. split; [exact I|].
        split; [intros _; exact Hbra6 | congruence]. }
    destruct O as (b7 & E7 & (Q1&Q2&Q3&Q4&Q5&Q6&Q7&Q8) & G7 & G7b0 & G7b).
    rewrite (bind_ok K _ _ _ (b_arr b6 F_spf) b6) by reflexivity.
    rewrite (bind_ok K _ _ _ tt b7) by exact E7.
    (* cast *)
    destruct (cast_to_complex_spec K b7) as (b8 & E8 & (T1'&T2'&T3'&T4'&T5'&T6'&T7') & A8); [congruence|].
    rewrite (bind_ok K _ _ _ tt b8) by exact E8.
    exists b8. split; [reflexivity|].
    assert (Harr7 : forall f, ~ In f [F_spf; F_bra] -> b_arr b7 f = b_arr b6 f) by exact Q8.
    assert (V7 : forall f, f <> F_bra -> fmem f conv_fields = true ->
        b_arr b8 f = option_map (astype Complex128) (b_arr b7 f)).
    { intros f Hf Hm. rewrite A8, Hm. f_equal. destruct f; try reflexivity. congruence. }
    assert (W : forall f, ~ In f [F_bra; F_spf; F_dip; F_u] -> b_arr b7 f = b_arr b3 f).
    { intros f Hf. rewrite Harr7, P8, N8 by (cbn in *; intuition congruence). reflexivity. }
    constructor.
    - congruence.
    - rewrite T1', Q1, P1, N1. reflexivity.
    - rewrite T2', Q2, P2, Hnp5. symmetry. exact Em.
    - rewrite T4', Q4, P4, N4. reflexivity.
    - rewrite T5', Q5, P5, N5. reflexivity.
    - rewrite T6', Q6, P6, N6. reflexivity.
    - rewrite T7', Q7, P7, N7. reflexivity.
    - rewrite Hh, V7, W by (try discriminate; try reflexivity; cbn; intuition discriminate). cbn. auto.
    - rewrite Hs, V7, W by (try discriminate; try reflexivity; cbn; intuition discriminate). cbn. auto.
    - exists u, (astype Complex128 u'). split; [exact Hu|].
      rewrite V7, Q8, P8, HU5 by (try discriminate; try reflexivity; cbn; intuition discriminate).
      split; [reflexivity|]. split; [exact Su' | exact Gu'].
    - rewrite V7, Q8 by (try discriminate; try reflexivity; cbn; intuition discriminate).
      destruct (b_arr b F_dip) as [d|], (b_arr b6 F_dip) as [d'|]; cbn in G6 |- *; exact G6.
    - rewrite V7 by (try discriminate; reflexivity).
      destruct (b_arr b F_spf) as [d|], (b_arr b7 F_spf) as [d'|]; cbn in G7 |- *; exact G7.
    - intros Hne. specialize (G7b Hne). rewrite A8. change (fmem F_bra conv_fields) with true. cbn [view].
      destruct (bra_view b) as [d|], (bra_view b7) as [d'|]; cbn in G7b |- *; exact G7b.
    - intros f Hf Hn. rewrite A8.
      assert (E9 : b_arr b7 f = None).
      { rewrite W by (cbn in Hf; destruct_or Hf; subst; notin). cbn in Hf; destruct_or Hf; subst; exact Hn. }
      assert (E10 : view K b7 f = b_arr b7 f) by (cbn in Hf; destruct_or Hf; subst; reflexivity).
      rewrite E10, E9. destruct (fmem f conv_fields); reflexivity.
  Qed.

  (** set_u_repr never changes the object. *)
  Lemma set_u_repr_noop r b : snd (set_u_repr r b) = b.
  Proof.
    unfold set_u_repr. rewrite (bind_ok K _ _ _ b b) by reflexivity.
    destruct (urepr_eqb r (u_repr b)); [reflexivity|].
    destruct (b_arr b F_u) as [u|]; [|reflexivity]. rewrite (bind_ok K _ _ _ u b) by reflexivity.
    destruct r; [destruct (4 <=? ndim u)%nat | destruct (2 <=? ndim u)%nat | ]; reflexivity.
  Qed.
  Lemma set_u_repr_compact b l : compact b l -> set_u_repr U4d b = (Ok tt, b).
  Proof.
    intros [Hc (u & Hu & Su) R Ht]. unfold set_u_repr. rewrite (bind_ok K _ _ _ b b) by reflexivity.
    rewrite (u_repr_2d b u l l Hu Su). cbn [urepr_eqb]. rewrite (bind_ok K _ _ _ u b) by (rewrite Hu; reflexivity).
    unfold ndim. rewrite Su. reflexivity.
  Qed.
  Lemma set_u_repr_full b l : ready b l -> b_cls b = SincDVR -> set_u_repr U2d b = (Ok tt, b).
  Proof.
    intros [_ _ _ (u & Hu & Su) _ _ _ _ _ _] Hc. unfold set_u_repr. rewrite (bind_ok K _ _ _ b b) by reflexivity.
    assert (E : u_repr b = U4d) by (unfold u_repr; rewrite Hu; unfold ndim; rewrite Su; reflexivity).
    rewrite E. cbn [urepr_eqb]. rewrite (bind_ok K _ _ _ u b) by (rewrite Hu; reflexivity).
    unfold ndim. rewrite Su. reflexivity.
  Qed.

  Lemma general_compact_ok (anti : bool) b l : compact b l -> b_spin b = false -> b_arr b F_s <> None ->
    exists b', change_to_general None anti b = (Ok true, b') /\ compact_doubled l anti b b'.
  Proof.
    intros Cp Hspin Hs. destruct (double_compact_ok (default_a K) (default_b K) anti b l Cp Hspin Hs) as (b' & E & H).
    exists b'. split; [|exact H]. unfold change_to_general. rewrite (bind_ok K _ _ _ b b) by reflexivity.
    rewrite (cp_cls K b l Cp).
    rewrite (bind_ok K _ _ _ tt b); [exact E|].
    destruct anti; [|reflexivity]. destruct (cp_u K b l Cp) as (u & Hu & Su).
    rewrite (u_repr_2d b u l l Hu Su). cbn [andb urepr_eqb when]. exact (set_u_repr_compact b l Cp).
  Qed.

  (** A doubled compact basis is compact. *)
  Lemma doubled_compact anti b b' l : compact b l -> spinless b -> compact_doubled l anti b b' ->
    (b_arr b F_spf = None -> b_arr b' F_bra = None) -> compact b' (2 * l).
  Proof.
    intros [Hc (u & Hu & Su) R Ht] Sp H Hb0.
    destruct H as [H1 H2 H3 H4 H5 H6 H7 Hh Hs (u0 & u' & Eu & Eu' & Su' & Gu) Hd Hf Hb Hn].
    destruct (widened_meta l b) as (W1 & W2 & W3 & W4 & W5 & W6 & W7 & W8).
    destruct (widened_meta (2 * l) b') as (V1 & V2 & V3 & V4 & V5 & V6 & V7 & V8).
    destruct R as [(m & Em) Hl (h & Eh & Sh) _ Rs Rd Rspf Rbra Rsp Rtb].
    rewrite W8 in Eh, Rs, Rd, Rspf, Rbra by discriminate. rewrite W3 in Rd, Rspf, Rbra.
    constructor.
    - congruence.
    - eauto.
    - constructor.
      + exists m. congruence.
      + rewrite V2. exact H1.
      + rewrite V8 by discriminate. rewrite Eh in Hh. destruct (b_arr b' F_h) as [h'|]; [|destruct Hh].
        exists h'. split; [reflexivity | apply Hh].
      + exists (spread_arr (2 * l) u'). unfold widened. rewrite Eu'. split; reflexivity.
      + rewrite V8 by discriminate. intros a Ha. rewrite Ha in Hs. destruct (b_arr b F_s); [|destruct Hs]. apply Hs.
      + rewrite V8 by discriminate. intros a Ha. rewrite Ha in Hd. destruct (b_arr b F_dip) as [d|]; [|destruct Hd].
        rewrite V3, H4. split; [apply Hd | exact (proj2 (Rd d eq_refl))].
      + rewrite V8 by discriminate. intros a Ha. rewrite Ha in Hf. destruct (b_arr b F_spf) as [d|]; [|destruct Hf].
        destruct (Rspf d eq_refl) as (g & Sg & Lg). exists g. rewrite V3, H4. destruct Hf as [Hf _].
        rewrite Hf, Sg. split; [reflexivity | exact Lg].
      + rewrite V8 by discriminate. intros a Ha.
        destruct (b_arr b F_spf) as [d|] eqn:Ed; [|rewrite Hb0 in Ha by reflexivity; discriminate].
        specialize (Hb ltac:(congruence)). rewrite Ha in Hb. unfold bra_view in Hb. rewrite Ed in Hb.
        rewrite V3, H4.
        destruct (b_arr b F_bra) as [c|] eqn:Ec.
        * destruct (Rbra c eq_refl) as (g & Sg & Lg). exists g. destruct Hb as [Hb _].
          rewrite Hb, Sg. split; [reflexivity | exact Lg].
        * destruct (Rspf d eq_refl) as (g & Sg & Lg). exists g. destruct Hb as [Hb _].
          rewrite Hb. cbn [aconj shape]. rewrite Sg. split; [reflexivity | exact Lg].
      + intros f a Hi. rewrite V8 by (cbn in Hi; destruct_or Hi; subst; discriminate).
        rewrite Hn; [discriminate | cbn in *; tauto | apply Sp; cbn in *; tauto].
      + rewrite V8 by discriminate. rewrite Hn; [discriminate | cbn; tauto | exact Ht].
    - apply Hn; [cbn; tauto | exact Ht].
  Qed.

  (** Spin doubling a compact basis and then changing basis gives the
      transformed, spin-doubled elements, anti-symmetrized never. *)
  Lemma doubled_change_ok (anti : bool) b l k C Ct : compact b l -> spinless b -> b_spin b = false ->
    b_arr b F_s <> None -> b_arr b F_spf <> None -> shape C = [2 * l; k]%nat -> tilde_shape C Ct k (2 * l) ->
    exists b1 b2 u u', change_to_general None anti b = (Ok true, b1) /\ change_basis C Ct b1 = (Ok tt, b2) /\
      b_asym b2 = b_asym b || anti /\ b_arr b F_u = Some u /\
      b_arr b2 F_u = Some u' /\ shape u' = [k; k; k; k] /\
      forall p q r s, (p < k)%nat -> (q < k)%nat -> (r < k)%nat -> (s < k)%nat ->
        ten u' p q r s = T2 (2 * l) (dbl2 (spread (mat u))) (mat C) (tilde C Ct) p q r s.
  Proof.
    intros Cp Sp Hspin Hs Hf SC SD.
    destruct (general_compact_ok anti b l Cp Hspin Hs) as (b1 & E1 & H1).
    assert (Cp1 : compact b1 (2 * l)) by (apply (doubled_compact anti b b1 l Cp Sp H1); congruence).
    destruct (change_compact_ok b1 C Ct (2 * l) k Cp1 SC SD) as (b2 & E2 & H2).
    destruct (cd_u K l anti b b1 H1) as (u & u1 & Eu & Eu1 & Su1 & Gu1).
    destruct (widened_meta (2 * l) b1) as (V1 & V2 & V3 & V4 & V5 & V6 & V7 & V8).
    pose proof (bc_u H2) as Hu. unfold widened in Hu. rewrite Eu1 in Hu. cbn [b_arr field_eqb] in Hu.
    destruct (b_arr b2 F_u) as [u'|] eqn:Eu'; [|destruct Hu]. destruct Hu as [Su' Gu'].
    destruct (default_tilde_spec K C Ct (2 * l) k k SC SD) as [_ GD].
    exists b1, b2, u, u'. split; [exact E1|]. split; [exact E2|]. split.
    { rewrite (bc_asym H2), V6. apply (cd_asym K l anti b b1 H1). }
    split; [exact Eu|]. split; [exact Eu'|]. split; [exact Su'|].
    intros p q r s Hp Hq Hr Hs'. rewrite Gu' by assumption. apply T2_ext; auto.
    intros a c d e Ha Hc Hd He. rewrite dbl2_spread. unfold ten. cbn [spread_arr get]. unfold spread.
    rewrite Gu1. reflexivity.
  Qed.
End Dvr.
