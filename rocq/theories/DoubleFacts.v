(** The complete effect of change_to_general_orbital_basis. *)
From Coq Require Import List Arith ZArith Lia Bool.
From Verif Require Import Scalar Py Numpy NumpyFacts Spec TransformFacts BasisSet BasisSpec BasisFacts
  ChangeProofs ConvProofs SpinFacts.
Import ListNotations.

Section Double.
  Variable K : scalar.
  Local Open Scope K_scope.
  Add Ring Kring : (s_ring K).
  Notation arr := (arr K).
  Notation basis := (basis K).
  Implicit Types (b : basis).

  Lemma double_dip_ok b (d : arr) l : b_l b = (2 * l)%nat -> (0 < b_dim b)%nat -> shape d = [b_dim b; l; l] ->
    exists d', (let* n := lift (alen d) in
           let* xs := lift (rmap (fun i => let! r := row d i in Ok (add_spin_one_body r)) (seq 0 n)) in
           let* d' := lift (stack xs) in
           set_dipole d') b = (Ok tt, set_arr F_dip (Some d') b) /\
      doubled_dip (b_dim b) l (Some d) (Some d').
  Proof.
    intros Hl Hdim Sd.
    rewrite (bind_ok K _ _ _ (b_dim b) b) by (unfold lift, alen; rewrite Sd; reflexivity).
    destruct (rmap_ok_ex (fun i => let! r := row d i in Ok (add_spin_one_body r))
      (fun i r' => shape r' = [2 * l; 2 * l]%nat /\
         forall P Q, mat r' P Q = dbl1 (fun p q => get d [i; p; q]) P Q) (seq 0 (b_dim b)))
      as (xs & E & F).
    { intros i Hi. apply in_seq in Hi.
      destruct (row_ok K d (b_dim b) [l; l] i Sd ltac:(lia)) as (r & -> & Sr & _ & Gr). cbn [rbind].
      destruct (add_spin_one_body_spec K r l Sr) as (S' & _ & G'). eexists. split; [reflexivity|].
      split; [exact S'|]. intros P Q. rewrite G'. unfold dbl1. destruct (same_parity P Q); [|reflexivity].
      unfold mat. rewrite Gr. reflexivity. }
    rewrite (bind_ok K _ _ _ xs b) by (unfold lift; rewrite E; reflexivity).
    assert (Hlen : length xs = b_dim b) by (rewrite <- (Forall2_len _ _ _ F), seq_length; reflexivity).
    destruct (stack_ok K xs [2 * l; 2 * l]%nat) as (d' & Ed & Sd' & Gd').
    { intros x Hx. apply In_nth_error in Hx. destruct Hx as [i Hi].
      destruct (Forall2_nth_r _ _ _ _ _ F Hi) as (j & _ & S' & _). exact S'. }
    { intros ->. cbn in Hlen. lia. }
    rewrite Hlen in Sd'.
    rewrite (bind_ok K _ _ _ d' b) by (unfold lift; rewrite Ed; reflexivity).
    exists d'. split; [apply set_dipole_ok; rewrite Hl; exact Sd'|].
    split; [exact Sd'|]. intros i P Q Hi.
    destruct (nth_error xs i) as [r'|] eqn:Ei; [|apply nth_error_None in Ei; lia].
    destruct (Forall2_nth_r _ _ _ _ _ F Ei) as (j & Hj & _ & G'). apply nth_error_seq in Hj. destruct Hj as [-> _].
    rewrite (Gd' _ _ _ Ei). apply G'.
  Qed.

  Lemma view_some_astype b f (x : option arr) : option_map (astype Complex128) x = Some f -> dt f = Complex128.
  Proof. destruct x; cbn; [|discriminate]. intros E. injection E as <-. reflexivity. Qed.

  (** The anti-symmetrization step acts at most once. *)
  Lemma to_general_ok (va vb : list K) (anti : bool) b l s : accepted K va vb -> ready b l ->
    b_spin b = false -> b_arr b F_s = Some s ->
    exists b', to_general_base va vb anti b = (Ok true, b') /\
      spin_doubled l va vb (anti && negb (b_asym b)) s b b'.
  Proof.
    intros Hacc R Hspin Hs.
    destruct R as [(m & Em) Hl (h & Hh & Sh) (u & Hu & Su) Rs Rd Rspf Rbra Rsp Rtb].
    pose proof (Rs s Hs) as Ss.
    unfold to_general_base. rewrite (bind_ok K _ _ _ b b) by reflexivity. rewrite Hspin, Hl.
    rewrite (bind_ok K _ _ _ tt (set_spin true b)) by reflexivity.
    rewrite (bind_ok K _ _ _ tt (set_l (2 * l) (set_spin true b))) by reflexivity.
    set (b0 := set_l (2 * l) (set_spin true b)).
    rewrite (bind_ok K _ _ _ s b0) by (rewrite Hs; reflexivity).
    rewrite (bind_ok K _ _ _ m b0) by (apply need_np_ok; exact Em).
    rewrite (bind_ok K _ _ _ h b0) by (rewrite Hh; reflexivity).
    destruct (add_spin_one_body_spec K h l Sh) as (Sh' & _ & Gh'). set (h' := add_spin_one_body h) in *.
    rewrite (bind_ok K _ _ _ tt (set_arr F_h (Some h') b0)) by
      (apply set_sq_ok; apply check_axes2; exact Sh').
    set (b1 := set_arr F_h (Some h') b0).
    rewrite (bind_ok K _ _ _ (Some s) b1) by (unfold rd; cbn; rewrite Hs; reflexivity).
    rewrite (bind_ok K _ _ _ s b1) by reflexivity.
    destruct (add_spin_one_body_spec K s l Ss) as (Ss' & _ & Gs'). set (s' := add_spin_one_body s) in *.
    rewrite (bind_ok K _ _ _ tt (set_arr F_s (Some s') b1)) by
      (apply set_sq_ok; apply check_axes2; exact Ss').
    set (b2 := set_arr F_s (Some s') b1).
    rewrite (bind_ok K _ _ _ (Some u) b2) by (unfold rd; cbn; rewrite Hu; reflexivity).
    rewrite (bind_ok K _ _ _ u b2) by reflexivity.
    destruct (add_spin_two_body_spec K (b_cls b) u l Su) as (u' & Eu & Su' & Gu').
    rewrite (bind_ok K _ _ _ u' b2) by (unfold lift; rewrite Eu; reflexivity).
    rewrite (bind_ok K _ _ _ tt (set_arr F_u (Some u') b2)) by
      (apply set_sq_ok; apply check_axes4; exact Su').
    set (b3 := set_arr F_u (Some u') b2).
    rewrite (bind_ok K _ _ _ b3 b3) by reflexivity.
    assert (Eur : negb (urepr_eqb (u_repr_attr b3) U2d) = true).
    { unfold u_repr_attr, u_repr. cbn. destruct (b_cls b); [reflexivity|]. unfold ndim. rewrite Su'. reflexivity. }
    rewrite Eur. cbn [when].
    destruct (setup_spin_ops_ok K va vb s s' l b3 Hacc Ss eq_refl eq_refl eq_refl Ss')
      as (b4 & E4 & (M1&M2&M3&M4&M5&M6&M7&M8) & Gx & Gy & Gz & Gsx & Gsy & Gsz & (s2 & H2 & S2 & G2) & (tb & Htb & Stb & Gtb)).
    rewrite (bind_ok K _ _ _ tt b4) by exact E4.
    assert (Hsp4 : b_spin b4 = true) by (rewrite M6; reflexivity).
    assert (Hl4 : b_l b4 = (2 * l)%nat) by (rewrite M3; reflexivity).
    assert (Ha4 : b_asym b4 = b_asym b) by (rewrite M7; reflexivity).
    assert (Hu4 : b_arr b4 F_u = Some u') by (rewrite M8 by (cbn; intuition discriminate); reflexivity).
    (* anti-symmetrization *)
    assert (A : exists b5 u5 tb5, when anti anti_symmetrize_two_body b4 = (Ok tt, b5) /\
      same_but K [F_u; F_sp2tb] (set_asym (b_asym b || (anti && negb (b_asym b))) b4) b5 /\
      b_arr b5 F_u = Some u5 /\ shape u5 = [2 * l; 2 * l; 2 * l; 2 * l]%nat /\
      (forall P Q R S, (P < 2 * l)%nat -> (Q < 2 * l)%nat -> (R < 2 * l)%nat -> (S < 2 * l)%nat ->
          ten u5 P Q R S = (if anti && negb (b_asym b) then exch (ten u') else ten u') P Q R S) /\
      b_arr b5 F_sp2tb = Some tb5 /\ shape tb5 = [2 * l; 2 * l; 2 * l; 2 * l]%nat /\
      (forall P Q R S, (P < 2 * l)%nat -> (Q < 2 * l)%nat -> (R < 2 * l)%nat -> (S < 2 * l)%nat ->
          ten tb5 P Q R S = (if anti && negb (b_asym b) then exch (ten tb) else ten tb) P Q R S)).
    { destruct anti; cbn [when andb].
      - destruct (b_asym b) eqn:Eb; cbn [negb orb].
        + exists b4, u', tb. split; [apply anti_symmetrize_again; exact Ha4|].
          split; [repeat split; cbn; congruence|]. auto 10.
        + destruct (anti_symmetrize_ok K b4 (2 * l) u' Ha4 Hl4 Hu4 Su') as (b5 & u5 & E5 & A5 & SB & U5 & US5 & UG5 & T5).
          { intros a Ha. rewrite Htb in Ha. injection Ha as <-. split; [exact Stb | exact Hsp4]. }
          rewrite Htb in T5. destruct (b_arr b5 F_sp2tb) as [tb5|] eqn:E6; [|contradiction]. destruct T5 as [TS5 TG5].
          exists b5, u5, tb5. split; [exact E5|]. split; [exact SB|]. auto 10.
      - rewrite orb_false_r. exists b4, u', tb. split; [reflexivity|].
        split; [repeat split; cbn; congruence|]. auto 10. }
    destruct A as (b5 & u5 & tb5 & E5 & (N1&N2&N3&N4&N5&N6&N7&N8) & HU5 & SU5 & GU5 & HT5 & ST5 & GT5).
    cbn [set_asym b_cls b_np b_l b_dim b_nuc b_spin b_asym b_arr] in *.
    rewrite (bind_ok K _ _ _ tt b5) by exact E5.
    assert (Harr5 : forall f, ~ In f (F_h :: F_s :: F_u :: spin_fields) -> b_arr b5 f = b_arr b f).
    { intros f Hf. rewrite N8 by (cbn in *; intuition congruence). rewrite M8 by (cbn in *; intuition congruence).
      destruct f; try reflexivity; exfalso; apply Hf; cbn; tauto. }
    assert (Hdim5 : b_dim b5 = b_dim b) by (rewrite N4, M4; reflexivity).
    assert (Hl5 : b_l b5 = (2 * l)%nat) by congruence.
    assert (Hnp5 : b_np b5 = Some m) by (rewrite N2, M2; exact Em).
    (* dipole *)
    assert (Dp : exists b6, (match b_arr b5 F_dip with
       | None => ret tt
       | Some d =>
           let* n := lift (alen d) in
           let* xs := lift (rmap (fun i => let! r := row d i in Ok (add_spin_one_body r)) (seq 0 n)) in
           let* d' := lift (stack xs) in
           set_dipole d'
       end) b5 = (Ok tt, b6) /\ same_but K [F_dip] b5 b6 /\
       doubled_dip (b_dim b) l (b_arr b F_dip) (b_arr b6 F_dip)).
    { rewrite (Harr5 F_dip) by (cbn; intuition discriminate).
      destruct (b_arr b F_dip) as [d|] eqn:Ed.
      - destruct (Rd d eq_refl) as [Sd Hdim]. rewrite <- Hdim5 in Sd, Hdim |- *.
        destruct (double_dip_ok b5 d l Hl5 Hdim Sd) as (d' & E6 & G6).
        exists (set_arr F_dip (Some d') b5). split; [exact E6|]. split; [sb | exact G6].
      - exists b5. split; [reflexivity|]. split; [repeat split|]. rewrite Harr5, Ed by (cbn; intuition discriminate). exact I. }
    destruct Dp as (b6 & E6 & (P1&P2&P3&P4&P5&P6&P7&P8) & G6).
    rewrite (bind_ok K _ _ _ (b_arr b5 F_dip) b5) by reflexivity.
    rewrite (bind_ok K _ _ _ tt b6) by exact E6.
    (* orbitals *)
    assert (Harr6 : forall f, ~ In f (F_dip :: F_h :: F_s :: F_u :: spin_fields) -> b_arr b6 f = b_arr b f).
    { intros f Hf. rewrite P8, Harr5 by (cbn in *; intuition congruence). reflexivity. }
    assert (Hspf6 : b_arr b6 F_spf = b_arr b F_spf) by (apply Harr6; cbn; intuition discriminate).
    assert (Hbra6 : b_arr b6 F_bra = b_arr b F_bra) by (apply Harr6; cbn; intuition discriminate).
    assert (O : exists b7, (match b_arr b6 F_spf with
       | None => ret tt
       | Some spf =>
           let* spf' := lift (add_spin_spf spf) in
           set_orbitals F_spf (Some spf') ;;
           let* bra := rd F_bra in
           match bra with
           | None => ret tt
           | Some bra =>
               let* bra' := lift (add_spin_spf bra) in
               set_orbitals F_bra (Some bra')
           end
       end) b6 = (Ok tt, b7) /\ same_but K [F_spf; F_bra] b6 b7 /\
       doubled_spf l (b_arr b F_spf) (b_arr b7 F_spf) /\
       (b_arr b F_spf = None -> b_arr b7 F_bra = b_arr b F_bra) /\
       (b_arr b F_spf <> None -> doubled_spf l (bra_view b) (bra_view b7))).
    { rewrite Hspf6. destruct (b_arr b F_spf) as [spf|] eqn:Espf.
      - destruct (Rspf spf eq_refl) as (g & Sg & Lg).
        destruct (add_spin_spf_spec K spf l g Sg) as (spf' & Ea & Sa & Da & Ga).
        rewrite (bind_ok K _ _ _ spf' b6) by (unfold lift; rewrite Ea; reflexivity).
        rewrite (bind_ok K _ _ _ tt (set_arr F_spf (Some spf') b6)) by
          (apply (set_orbitals_ok K F_spf spf' b6 g); [rewrite P3, Hl5; exact Sa | rewrite P4, Hdim5; exact Lg]).
        rewrite (bind_ok K _ _ _ (b_arr b F_bra) (set_arr F_spf (Some spf') b6)) by
          (unfold rd; cbn [set_arr b_arr]; rewrite upd_other by discriminate; rewrite Hbra6; reflexivity).
        destruct (b_arr b F_bra) as [bra|] eqn:Ebra.
        + destruct (Rbra bra eq_refl) as (g' & Sg' & Lg').
          destruct (add_spin_spf_spec K bra l g' Sg') as (bra' & Eb & Sb & Db & Gb).
          rewrite (bind_ok K _ _ _ bra' (set_arr F_spf (Some spf') b6)) by (unfold lift; rewrite Eb; reflexivity).
          exists (set_arr F_bra (Some bra') (set_arr F_spf (Some spf') b6)).
          split; [apply (set_orbitals_ok K F_bra bra' _ g'); cbn; [rewrite P3, Hl5; exact Sb | rewrite P4, Hdim5; exact Lg']|].
          split; [sb|]. split; [cbn; rewrite Sg; auto|]. split; [discriminate|]. intros _.
          unfold bra_view. cbn. rewrite Ebra. cbn. rewrite Sg'. auto.
        + exists (set_arr F_spf (Some spf') b6). split; [reflexivity|]. split; [sb|].
          split; [cbn; rewrite Sg; auto|]. split; [discriminate|]. intros _.
          unfold bra_view. cbn. rewrite Hbra6, Ebra, Espf. cbn. rewrite Sg. cbn. split; [exact Sa|].
          intros P x. rewrite Ga. reflexivity.
      - exists b6. split; [reflexivity|]. split; [repeat split|]. rewrite Hspf6. split; [exact I|].
        split; [intros _; exact Hbra6 | congruence]. }
    destruct O as (b7 & E7 & (Q1&Q2&Q3&Q4&Q5&Q6&Q7&Q8) & G7 & G7b0 & G7b).
    rewrite (bind_ok K _ _ _ (b_arr b6 F_spf) b6) by reflexivity.
    rewrite (bind_ok K _ _ _ tt b7) by exact E7.
    (* cast *)
    destruct (cast_to_complex_spec K b7) as (b8 & E8 & (T1'&T2'&T3'&T4'&T5'&T6'&T7') & A8); [congruence|].
    rewrite (bind_ok K _ _ _ tt b8) by exact E8.
    exists b8. split; [reflexivity|].
    assert (Harr7 : forall f, ~ In f [F_spf; F_bra] -> b_arr b7 f = b_arr b6 f) by exact Q8.
    assert (V7 : forall f, f <> F_bra -> fmem f conv_fields = true ->
        b_arr b8 f = option_map (astype Complex128) (b_arr b7 f)).
    { intros f Hf Hm. rewrite A8, Hm. f_equal. destruct f; try reflexivity. congruence. }
    assert (W : forall f, ~ In f [F_bra; F_spf; F_dip; F_u; F_sp2tb] -> b_arr b7 f = b_arr b4 f).
    { intros f Hf. rewrite Harr7, P8, N8 by (cbn in *; intuition congruence). reflexivity. }
    assert (Wst : forall f sh g, ~ In f [F_bra; F_spf; F_dip; F_u; F_sp2tb] -> stored sh g (b_arr b4 f) -> stored sh g (b_arr b8 f)).
    { intros f sh g Hf (a & Ea & Sa & Ga). rewrite A8. destruct (fmem f conv_fields) eqn:Ef.
      - exists (astype Complex128 a). split; [|split; [exact Sa | exact Ga]].
        assert (view K b7 f = b_arr b7 f) as -> by (destruct f; try reflexivity; exfalso; apply Hf; cbn; tauto).
        rewrite W, Ea by exact Hf. reflexivity.
      - exists a. rewrite W by exact Hf. auto. }
    assert (H7 : forall f, In f [F_h; F_s] -> b_arr b7 f = b_arr b3 f).
    { intros f Hf. cbn in Hf. rewrite W, M8; [destruct_or Hf; subst; reflexivity | |]; destruct_or Hf; subst; cbn; intuition discriminate. }
    constructor.
    - congruence.
    - rewrite T1', Q1, P1, N1, M1. reflexivity.
    - rewrite T2', Q2, P2, Hnp5. symmetry. exact Em.
    - rewrite T4', Q4, P4, N4, M4. reflexivity.
    - rewrite T5', Q5, P5, N5, M5. reflexivity.
    - rewrite T6', Q6, P6, N6, M6. reflexivity.
    - rewrite T7', Q7, P7, N7. reflexivity.
    - rewrite Hh, V7, H7 by (cbn; auto; discriminate). cbn. auto.
    - rewrite Hs, V7, H7 by (cbn; auto; discriminate). cbn. auto.
    - rewrite Hu, V7, Q8, P8, HU5 by (try discriminate; try reflexivity; cbn; intuition discriminate).
      cbn [option_map doubled2 astype shape]. split; [exact SU5|]. intros P Q R S HP HQ HR HS.
      change (ten (astype Complex128 u5) P Q R S) with (ten u5 P Q R S). rewrite GU5 by assumption.
      destruct (anti && negb (b_asym b)); unfold exch; rewrite !Gu'; reflexivity.
    - rewrite V7, Q8 by (try discriminate; try reflexivity; cbn; intuition discriminate).
      destruct (b_arr b F_dip) as [d|], (b_arr b6 F_dip) as [d'|]; cbn in G6 |- *; exact G6.
    - rewrite V7 by (try discriminate; reflexivity).
      destruct (b_arr b F_spf) as [d|], (b_arr b7 F_spf) as [d'|]; cbn in G7 |- *; exact G7.
    - intros Hne. specialize (G7b Hne). rewrite A8. change (fmem F_bra conv_fields) with true. cbn [view].
      destruct (bra_view b) as [d|], (bra_view b7) as [d'|]; cbn in G7b |- *; exact G7b.
    - intros Hne. rewrite A8. change (fmem F_bra conv_fields) with true. cbn [view]. f_equal.
      unfold bra_view. rewrite (G7b0 Hne). destruct (b_arr b F_bra); [reflexivity|].
      rewrite Hne in G7. destruct (b_arr b7 F_spf); [destruct G7 | reflexivity].
    - rewrite A8. change (fmem F_grid conv_fields) with false. cbv iota.
      rewrite Q8, Harr6 by (cbn; intuition discriminate). reflexivity.
    - apply Wst; [cbn; intuition discriminate | exact Gx].
    - apply Wst; [cbn; intuition discriminate | exact Gy].
    - apply Wst; [cbn; intuition discriminate | exact Gz].
    - apply Wst; [cbn; intuition discriminate | exact Gsx].
    - apply Wst; [cbn; intuition discriminate | exact Gsy].
    - apply Wst; [cbn; intuition discriminate | exact Gsz].
    - exists (astype Complex128 s2). split; [|split; [exact S2|]].
      + rewrite V7, W, H2 by (try discriminate; try reflexivity; cbn; intuition discriminate). reflexivity.
      + intros P Q HP HQ. change (mat (astype Complex128 s2) P Q) with (mat s2 P Q). rewrite G2 by assumption.
        cbv zeta. assert (E9 : forall A : nat -> nat -> K,
          mmul (2 * l) (mmul (2 * l) A (mat s')) A P Q = mmul (2 * l) (mmul (2 * l) A (dbl1 (mat s))) A P Q).
        { intros A. unfold mmul. apply sumn_ext. intros X HX. f_equal. apply sumn_ext. intros Y HY.
          rewrite Gs'. reflexivity. }
        rewrite !E9. reflexivity.
    - exists (astype Complex128 tb5). split; [|split; [exact ST5|]].
      + rewrite V7, Q8, P8, HT5 by (try discriminate; try reflexivity; cbn; intuition discriminate). reflexivity.
      + intros P Q R T HP HQ HR HT. change (ten (astype Complex128 tb5) P Q R T) with (ten tb5 P Q R T).
        rewrite GT5 by assumption. destruct (anti && negb (b_asym b)); unfold exch; rewrite !Gtb by assumption; reflexivity.
    - intros f a Hf Ha. rewrite A8 in Ha.
      assert (E9 : fmem f conv_fields = true) by (apply fmem_spec; cbn in Hf |- *; tauto).
      rewrite E9 in Ha. destruct (view K b7 f); [|discriminate]. injection Ha as <-. reflexivity.
  Qed.

  (** Through the public entry point: every class, with four-index u. *)
  Lemma change_to_general_ok ab (anti : bool) b l s :
    (b_cls b = SincDVR -> ab = None) ->
    let va := match ab with Some p => fst p | None => default_a K end in
    let vb := match ab with Some p => snd p | None => default_b K end in
    accepted K va vb -> ready b l -> b_spin b = false -> b_arr b F_s = Some s ->
    exists b', change_to_general ab anti b = (Ok true, b') /\
      spin_doubled l va vb (anti && negb (b_asym b)) s b b'.
  Proof.
    intros Hab va vb Hacc R Hspin Hs.
    destruct (to_general_ok va vb anti b l s Hacc R Hspin Hs) as (b' & E & D).
    exists b'. split; [|exact D]. unfold change_to_general. rewrite (bind_ok K _ _ _ b b) by reflexivity.
    destruct (b_cls b).
    - destruct ab as [[x y]|]; exact E.
    - specialize (Hab eq_refl). subst ab. destruct (r_u K b l R) as (u & Hu & Su).
      assert (E1 : urepr_eqb (u_repr b) U2d = false).
      { unfold u_repr. rewrite Hu. unfold ndim. rewrite Su. reflexivity. }
      rewrite E1, andb_false_r. cbn [when]. rewrite (bind_ok K _ _ _ tt b) by reflexivity. exact E.
  Qed.

  Lemma default_accepted : accepted K (default_a K) (default_b K).
  Proof.
    apply orthonormal_accepted. unfold orthonormal_pair, ip2, default_a, default_b. cbn.
    rewrite conj_0, conj_1. repeat split; ring.
  Qed.

  (** Doubled objects are ready objects again. *)
  Lemma doubled_ready b b' l va vb anti s : ready b l -> (b_arr b F_spf = None -> b_arr b F_bra = None) ->
    spin_doubled l va vb anti s b b' -> ready b' (2 * l).
  Proof.
    intros [(m & Em) Hl (h & Hh & Sh) (u & Hu & Su) Rs Rd Rspf Rbra Rsp Rtb] Hbra0 D.
    constructor.
    - exists m. rewrite (sd_np D). exact Em.
    - exact (sd_l D).
    - pose proof (sd_h D) as G. rewrite Hh in G. destruct (b_arr b' F_h) as [h'|]; [|destruct G].
      exists h'. split; [reflexivity | exact (proj1 G)].
    - pose proof (sd_u D) as G. rewrite Hu in G. destruct (b_arr b' F_u) as [h'|]; [|destruct G].
      exists h'. split; [reflexivity | exact (proj1 G)].
    - intros a Ha. pose proof (sd_s D) as G. rewrite Ha in G. destruct (b_arr b F_s); [exact (proj1 G) | destruct G].
    - intros a Ha. pose proof (sd_dip D) as G. rewrite Ha in G. destruct (b_arr b F_dip) as [d|] eqn:Ed; [|destruct G].
      rewrite (sd_dim D). split; [exact (proj1 G) | exact (proj2 (Rd d eq_refl))].
    - intros a Ha. pose proof (sd_spf D) as G. rewrite Ha in G. destruct (b_arr b F_spf) as [d|] eqn:Ed; [|destruct G].
      destruct (Rspf d eq_refl) as (g & Sg & Lg). exists g. rewrite (proj1 G), Sg, (sd_dim D). auto.
    - intros a Ha. destruct (b_arr b F_spf) as [spf|] eqn:Espf.
      + pose proof (sd_bra D ltac:(congruence)) as G. rewrite Ha in G. destruct (bra_view b) as [d|] eqn:Ed; [|destruct G].
        rewrite (proj1 G), (sd_dim D). exists (tl (shape d)). split; [reflexivity|].
        unfold bra_view in Ed. rewrite Espf in Ed. destruct (b_arr b F_bra) as [bra|] eqn:Ebra.
        * injection Ed as <-. destruct (Rbra bra eq_refl) as (g & Sg & Lg). rewrite Sg. exact Lg.
        * injection Ed as <-. destruct (Rspf spf eq_refl) as (g & Sg & Lg). cbn. rewrite Sg. exact Lg.
      + rewrite (sd_bra0 D Espf), (Hbra0 eq_refl) in Ha. discriminate.
    - intros f a Hf Ha. cbn in Hf. destruct_or Hf; subst f.
      1: destruct (sd_spx D) as (x & Ex & Sx & _). 2: destruct (sd_spy D) as (x & Ex & Sx & _).
      3: destruct (sd_spz D) as (x & Ex & Sx & _). 4: destruct (sd_sp2 D) as (x & Ex & Sx & _).
      1-4: rewrite Ex in Ha; injection Ha as <-; exact Sx.
    - intros a Ha. destruct (sd_tb D) as (x & Ex & Sx & _). rewrite Ex in Ha. injection Ha as <-.
      split; [exact Sx | exact (sd_spin D)].
  Qed.
End Double.
