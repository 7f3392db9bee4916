(** Proofs about basis changes (properties C01-C06, C08, C67, C69). *)
From Coq Require Import List Arith ZArith Lia Bool.
From Verif Require Import Scalar Py Numpy NumpyFacts Spec TransformFacts BasisSet BasisSpec BasisFacts.
Import ListNotations.

Section Proofs.
  Variable K : scalar.
  Local Open Scope K_scope.
  Add Ring Kring : (s_ring K).
  Notation arr := (arr K).
  Notation basis := (basis K).
  Implicit Types (C D h u : arr) (b : basis).

  Lemma default_tilde_spec C Ct l k k' : shape C = [l; k] ->
    tilde_shape C Ct k' l ->
    shape (default_tilde C Ct) = [k'; l] /\ forall p q, mat (default_tilde C Ct) p q = tilde C Ct p q.
  Proof.
    intros HC HD. destruct Ct as [D|]; cbn in *.
    - split; [exact HD|]. reflexivity.
    - assert (k' = k) by congruence. subst k'. destruct (dagger_spec K C l k HC) as [H1 H2].
      split; [exact H1|]. exact H2.
  Qed.

  Lemma default_tilde_some C Ct : default_tilde C (Some (default_tilde C Ct)) = default_tilde C Ct.
  Proof. reflexivity. Qed.
  Lemma transform_one_body_default h C Ct :
    transform_one_body h C Ct = transform_one_body h C (Some (default_tilde C Ct)).
  Proof. reflexivity. Qed.
  Lemma transform_two_body_default u C Ct :
    transform_two_body_base u C Ct = transform_two_body_base u C (Some (default_tilde C Ct)).
  Proof. reflexivity. Qed.
  Lemma transform_two_body_default' b u C Ct :
    transform_two_body b u C Ct = transform_two_body b u C (Some (default_tilde C Ct)).
  Proof. unfold transform_two_body, transform_two_body_dvr. destruct (b_cls b); reflexivity. Qed.
  Lemma change_basis_default C Ct b :
    change_basis C Ct b = change_basis C (Some (default_tilde C Ct)) b.
  Proof. reflexivity. Qed.

  (** C01 *)
  Lemma one_body_formula h C Ct l k k' :
    shape h = [l; l] -> shape C = [l; k] -> tilde_shape C Ct k' l ->
    exists r, transform_one_body h C Ct = Ok r /\ shape r = [k'; k] /\
      forall p q, (p < k')%nat -> (q < k)%nat ->
        mat r p q = T1 l (mat h) (mat C) (tilde C Ct) p q.
  Proof.
    intros Hh HC HD. destruct (default_tilde_spec C Ct l k k' HC HD) as [S G].
    rewrite transform_one_body_default.
    destruct (transform_one_body_ok K h C _ l k k' Hh HC S) as (r & E & Sr & _ & Gr).
    exists r. split; [exact E|]. split; [exact Sr|]. intros p q _ _. rewrite Gr.
    apply T1_ext; intros; [reflexivity|reflexivity|apply G].
  Qed.

  Lemma one_body_mismatch h C Ct l n k k' n' :
    shape h = [l; l] -> shape C = [n; k] ->
    (match Ct with None => k' = k /\ n' = n | Some D => shape D = [k'; n'] end) ->
    n <> l \/ n' <> l ->
    transform_one_body h C Ct = Err ValueError.
  Proof.
    intros Hh HC HD Hne. unfold transform_one_body.
    destruct (Nat.eq_dec n l) as [->|Hn].
    - destruct (dot22 K h C l l k Hh HC) as (x & -> & Hx & _ & _). cbn [rbind].
      assert (Hs : shape (default_tilde C Ct) = [k'; n']).
      { destruct Ct as [D|]; cbn; [exact HD|]. destruct HD as [-> ->]. apply (dagger_spec K C _ _ HC). }
      apply (dot22_mismatch K _ _ k' n' l k Hs Hx). destruct Hne; [contradiction | assumption].
    - rewrite (dot22_mismatch K h C l l n k Hh HC) by congruence. reflexivity.
  Qed.

  (** C02 *)
  Lemma two_body_formula u C Ct l k :
    shape u = [l; l; l; l] -> shape C = [l; k] -> tilde_shape C Ct k l ->
    exists r, transform_two_body_base u C Ct = Ok r /\ shape r = [k; k; k; k] /\
      forall p q r' s, (p < k)%nat -> (q < k)%nat -> (r' < k)%nat -> (s < k)%nat ->
        ten r p q r' s = T2 l (ten u) (mat C) (tilde C Ct) p q r' s.
  Proof.
    intros Hu HC HD. destruct (default_tilde_spec C Ct l k k HC HD) as [S G].
    rewrite transform_two_body_default.
    destruct (transform_two_body_ok K u C _ l k Hu HC S) as (r & E & Sr & Gr).
    exists r. split; [exact E|]. split; [exact Sr|]. intros p q r' s _ _ _ _. rewrite Gr.
    apply T2_ext; intros; [reflexivity|auto|split; apply G].
  Qed.

  Lemma opt_aeq_refl (x : option arr) : opt_aeq x x.
  Proof. destruct x; cbn; [apply aeq_refl | exact I]. Qed.

  (** One change of basis followed by another *)
  Section Compose.
    Variables (l k m : nat) (C1 D1 C2 D2 C3 D3 : arr).
    Hypothesis (HC1 : shape C1 = [l; k]) (HD1 : shape D1 = [k; l]).
    Hypothesis (HC2 : shape C2 = [k; m]) (HD2 : shape D2 = [m; k]).
    Hypothesis (HC3 : shape C3 = [l; m]) (HD3 : shape D3 = [m; l]).
    Hypothesis (EC : forall a q, (a < l)%nat -> (q < m)%nat -> mat C3 a q = mmul k (mat C1) (mat C2) a q).
    Hypothesis (ED : forall p a, (p < m)%nat -> (a < l)%nat -> mat D3 p a = mmul k (mat D2) (mat D1) p a).

    Lemma changed1_compose x y z w :
      changed1 l k C1 D1 x y -> changed1 k m C2 D2 y z -> changed1 l m C3 D3 x w -> opt_aeq z w.
    Proof.
      destruct x as [x|], y as [y|], z as [z|], w as [w|]; cbn; try tauto.
      intros [Sy Gy] [Sz Gz] [Sw Gw]. apply (aeq2 K z w m m Sz Sw). intros p q Hp Hq.
      rewrite Gz, Gw by assumption.
      rewrite (T1_ext K k (mat y) (T1 l (mat x) (mat C1) (mat D1)) (mat C2) (mat C2) (mat D2) (mat D2));
        [|intros; apply Gy; assumption|reflexivity|reflexivity].
      rewrite T1_compose. symmetry. apply T1_ext; [reflexivity| |]; intros.
      - apply EC; assumption.
      - apply ED; assumption.
    Qed.
    Lemma changed2_compose x y z w :
      changed2 l k C1 D1 x y -> changed2 k m C2 D2 y z -> changed2 l m C3 D3 x w -> opt_aeq z w.
    Proof.
      destruct x as [x|], y as [y|], z as [z|], w as [w|]; cbn; try tauto.
      intros [Sy Gy] [Sz Gz] [Sw Gw]. apply (aeq4 K z w m m m m Sz Sw). intros p q r s Hp Hq Hr Hs.
      rewrite Gz, Gw by assumption.
      rewrite (T2_ext K k (ten y) (T2 l (ten x) (mat C1) (mat D1)) (mat C2) (mat C2) (mat D2) (mat D2));
        [|intros; apply Gy; assumption|auto|auto].
      rewrite T2_compose. symmetry. apply T2_ext; [reflexivity| |]; intros.
      - split; apply EC; assumption.
      - split; apply ED; assumption.
    Qed.
    Lemma changed_dip_compose dim x y z w :
      changed_dip dim l k C1 D1 x y -> changed_dip dim k m C2 D2 y z -> changed_dip dim l m C3 D3 x w ->
      opt_aeq z w.
    Proof.
      destruct x as [x|], y as [y|], z as [z|], w as [w|]; cbn; try tauto.
      intros [Sy Gy] [Sz Gz] [Sw Gw]. split; [congruence|]. intros idx V. rewrite Sz in V.
      destruct (valid3 _ _ _ _ V) as (i & p & q & -> & Hi & Hp & Hq).
      rewrite Gz, Gw by assumption.
      rewrite (T1_ext K k _ (T1 l (fun a a' => get x [i; a; a']) (mat C1) (mat D1)) (mat C2) (mat C2) (mat D2) (mat D2));
        [|intros; apply Gy; assumption|reflexivity|reflexivity].
      rewrite T1_compose. symmetry. apply T1_ext; [reflexivity| |]; intros.
      - apply EC; assumption.
      - apply ED; assumption.
    Qed.
    Lemma changed_spf_compose x y z w :
      changed_spf l k C1 x y -> changed_spf k m C2 y z -> changed_spf l m C3 x w ->
      opt_aeq z w.
    Proof.
      destruct x as [x|], y as [y|], z as [z|], w as [w|]; cbn; try tauto.
      intros (Sy & _ & Gy) (Sz & _ & Gz) (Sw & _ & Gw). rewrite Sy in Sz. cbn in Sz.
      split; [congruence|]. intros idx V. rewrite Sz in V.
      destruct (valid_cons _ _ _ V) as (p & x' & -> & Hp & _). rewrite Gz, Gw by assumption.
      transitivity (sumn k (fun j => sumn l (fun i => mat C2 j p * (mat C1 i j * get x (i :: x'))))).
      { apply sumn_ext; intros j Hj. rewrite Gy by assumption. apply sumn_mul_l. }
      rewrite sumn_swap. apply sumn_ext; intros i Hi. rewrite EC by assumption. unfold mmul.
      rewrite sumn_mul_r. apply sumn_ext; intros. ring.
    Qed.
    Lemma changed_bra_compose x y z w :
      changed_bra l k D1 x y -> changed_bra k m D2 y z -> changed_bra l m D3 x w ->
      opt_aeq z w.
    Proof.
      destruct x as [x|], y as [y|], z as [z|], w as [w|]; cbn; try tauto.
      intros (Sy & _ & Gy) (Sz & _ & Gz) (Sw & _ & Gw). rewrite Sy in Sz. cbn in Sz.
      split; [congruence|]. intros idx V. rewrite Sz in V.
      destruct (valid_cons _ _ _ V) as (p & x' & -> & Hp & _). rewrite Gz, Gw by assumption.
      transitivity (sumn k (fun j => sumn l (fun i => mat D2 p j * (mat D1 j i * get x (i :: x'))))).
      { apply sumn_ext; intros j Hj. rewrite Gy by assumption. apply sumn_mul_l. }
      rewrite sumn_swap. apply sumn_ext; intros i Hi. rewrite ED by assumption. unfold mmul.
      rewrite sumn_mul_r. apply sumn_ext; intros. ring.
    Qed.

    Lemma changed_bra_view b b' : basis_changed l k C1 D1 b b' -> b_arr b F_spf <> None ->
      bra_view b' = b_arr b' F_bra.
    Proof.
      intros H Hs. pose proof (bc_bra H Hs) as Hb. unfold bra_view at 1.
      destruct (b_arr b' F_bra) eqn:E; [reflexivity|]. exfalso.
      unfold bra_view in Hb. destruct (b_arr b F_bra), (b_arr b F_spf); cbn in Hb; try tauto; congruence.
    Qed.
  End Compose.

  (** A change of basis keeps a ready object ready. *)
  Lemma changed_ready b b' C D l k : basis_changed l k C D b b' -> ready b l -> spin_mats_ok b l k ->
    (b_arr b F_spf = None -> b_arr b F_bra = None) ->
    ready b' k.
  Proof.
    intros [L Cl Np Dim Nuc Spin Asym Hh Hs Hu Ht Hd Hsp Hbr Hbr0 Hr] [Rnp Rl (h & Rh & Sh) (u & Ru & Su) Rs Rd Rsp Rbr Rspin Rtb] HS Hnb.
    constructor.
    - rewrite Np. exact Rnp.
    - exact L.
    - rewrite Rh in Hh. destruct (b_arr b' F_h) as [h'|]; [|destruct Hh]. exists h'. split; [reflexivity|]. apply Hh.
    - rewrite Ru in Hu. destruct (b_arr b' F_u) as [u'|]; [|destruct Hu]. exists u'. split; [reflexivity|]. apply Hu.
    - intros a Ha. rewrite Ha in Hs. destruct (b_arr b F_s); [|destruct Hs]. apply Hs.
    - intros a Ha. rewrite Ha in Hd. rewrite Dim. destruct (b_arr b F_dip) as [d|] eqn:Ed; [|destruct Hd].
      split; [apply Hd|]. apply (Rd d eq_refl).
    - intros a Ha. rewrite Ha in Hsp. rewrite Dim. destruct (b_arr b F_spf) as [d|] eqn:Ed; [|destruct Hsp].
      destruct (Rsp d eq_refl) as (g & Sg & Lg). destruct Hsp as (S & _). rewrite Sg in S. eauto.
    - intros a Ha. rewrite Dim. destruct (b_arr b F_spf) as [d|] eqn:Ed.
      + specialize (Hbr ltac:(discriminate)). rewrite Ha in Hbr. unfold bra_view in Hbr. rewrite Ed in Hbr.
        destruct (b_arr b F_bra) as [br|] eqn:Eb.
        * destruct (Rbr br eq_refl) as (g & Sg & Lg). destruct Hbr as (S & _). rewrite Sg in S. eauto.
        * destruct (Rsp d eq_refl) as (g & Sg & Lg). destruct Hbr as (S & _). cbn in S. rewrite Sg in S. eauto.
      + rewrite Hbr0, Hnb in Ha by reflexivity. discriminate.
    - intros f a Hf Ha. rewrite Hr in Ha by (cbn in *; tauto). destruct HS as [<-|HS].
      + apply (Rspin f a Hf Ha).
      + rewrite HS in Ha by exact Hf. discriminate.
    - intros a Ha. rewrite Ha in Ht. rewrite Spin. destruct (b_arr b F_sp2tb) as [t|]; [|destruct Ht].
      split; [apply Ht|]. apply (Rtb t eq_refl).
  Qed.

  Lemma compose_default C1 D1 C2 D2 C3 D3 b l k m :
    shape C1 = [l; k] -> shape D1 = [k; l] -> shape C2 = [k; m] -> shape D2 = [m; k] ->
    shape C3 = [l; m] -> shape D3 = [m; l] ->
    (forall a q, (a < l)%nat -> (q < m)%nat -> mat C3 a q = mmul k (mat C1) (mat C2) a q) ->
    (forall p a, (p < m)%nat -> (a < l)%nat -> mat D3 p a = mmul k (mat D2) (mat D1) p a) ->
    ready b l -> spin_mats_ok b l k ->
    (b_arr b F_spf = None -> b_arr b F_bra = None) ->
    exists b1 b2 b3,
      change_basis C1 (Some D1) b = (Ok tt, b1) /\ change_basis C2 (Some D2) b1 = (Ok tt, b2) /\
      change_basis C3 (Some D3) b = (Ok tt, b3) /\ same_values b2 b3.
  Proof.
    intros HC1 HD1 HC2 HD2 HC3 HD3 EC ED R HS Hnb.
    destruct (change_basis_ok K l k C1 D1 HC1 HD1 b R) as (b1 & E1 & B1).
    pose proof (changed_ready _ _ _ _ _ _ B1 R HS Hnb) as R1.
    destruct (change_basis_ok K k m C2 D2 HC2 HD2 b1 R1) as (b2 & E2 & B2).
    destruct (change_basis_ok K l m C3 D3 HC3 HD3 b R) as (b3 & E3 & B3).
    exists b1, b2, b3. split; [exact E1|]. split; [exact E2|]. split; [exact E3|].
    assert (Hs1 : b_arr b F_spf <> None -> b_arr b1 F_spf <> None).
    { pose proof (bc_spf B1) as X. destruct (b_arr b F_spf), (b_arr b1 F_spf); cbn in X; try tauto; congruence. }
    assert (Hs1' : b_arr b F_spf = None -> b_arr b1 F_spf = None).
    { pose proof (bc_spf B1) as X. destruct (b_arr b F_spf), (b_arr b1 F_spf); cbn in X; try tauto; congruence. }
    constructor.
    - rewrite (bc_l B2), (bc_l B3). reflexivity.
    - rewrite (bc_dim B2), (bc_dim B3), (bc_dim B1). reflexivity.
    - rewrite (bc_spin B2), (bc_spin B3), (bc_spin B1). reflexivity.
    - rewrite (bc_asym B2), (bc_asym B3), (bc_asym B1). reflexivity.
    - rewrite (bc_nuc B2), (bc_nuc B3), (bc_nuc B1). reflexivity.
    - rewrite (bc_cls B2), (bc_cls B3), (bc_cls B1). reflexivity.
    - rewrite (bc_np B2), (bc_np B3), (bc_np B1). reflexivity.
    - intros f Hf.
      destruct f; try congruence;
        try (rewrite (bc_rest B2), (bc_rest B3), (bc_rest B1)
               by (cbn; tauto); apply opt_aeq_refl).
      + eapply (changed1_compose l k m C1 D1 C2 D2 C3 D3 EC ED);
          [apply (bc_h B1) | apply (bc_h B2) | apply (bc_h B3)].
      + eapply (changed2_compose l k m C1 D1 C2 D2 C3 D3 EC ED);
          [apply (bc_u B1) | apply (bc_u B2) | apply (bc_u B3)].
      + eapply (changed1_compose l k m C1 D1 C2 D2 C3 D3 EC ED);
          [apply (bc_s B1) | apply (bc_s B2) | apply (bc_s B3)].
      + eapply (changed_dip_compose l k m C1 D1 C2 D2 C3 D3 EC ED);
          [apply (bc_dip B1) | | apply (bc_dip B3)].
        rewrite <- (bc_dim B1). apply (bc_dip B2).
      + eapply (changed2_compose l k m C1 D1 C2 D2 C3 D3 EC ED);
          [apply (bc_tb B1) | apply (bc_tb B2) | apply (bc_tb B3)].
      + eapply (changed_spf_compose l k m C1 C2 C3 EC);
          [apply (bc_spf B1) | apply (bc_spf B2) | apply (bc_spf B3)].
    - destruct (b_arr b F_spf) as [spf|] eqn:Es.
      + assert (N : Some spf <> None) by discriminate.
        assert (N0 : b_arr b F_spf <> None) by congruence.
        rewrite (changed_bra_view _ _ _ _ _ _ B2 (Hs1 N)), (changed_bra_view _ _ _ _ _ _ B3 N0).
        eapply (changed_bra_compose l k m D1 D2 D3 ED);
          [apply (bc_bra B1 N0) | | apply (bc_bra B3 N0)].
        rewrite <- (changed_bra_view _ _ _ _ _ _ B1 N0). apply (bc_bra B2 (Hs1 N)).
      + pose proof (Hs1' eq_refl) as N1.
        assert (N2 : b_arr b2 F_bra = None).
        { rewrite (bc_bra0 B2 N1), (bc_bra0 B1 Es). apply Hnb. reflexivity. }
        assert (N3 : b_arr b3 F_bra = None) by (rewrite (bc_bra0 B3 Es); apply Hnb; reflexivity).
        assert (N4 : b_arr b2 F_spf = None).
        { pose proof (bc_spf B2) as X. rewrite N1 in X. destruct (b_arr b2 F_spf); [destruct X|reflexivity]. }
        assert (N5 : b_arr b3 F_spf = None).
        { pose proof (bc_spf B3) as X. rewrite Es in X. destruct (b_arr b3 F_spf); [destruct X|reflexivity]. }
        unfold bra_view. rewrite N2, N3, N4, N5. exact I.
  Qed.

  Lemma aeq_opt_trans (x y z : option arr) : opt_aeq x y -> opt_aeq y z -> opt_aeq x z.
  Proof. destruct x, y, z; cbn; try tauto. apply aeq_trans. Qed.
  Lemma opt_aeq_sym (x y : option arr) : opt_aeq x y -> opt_aeq y x.
  Proof. destruct x, y; cbn; try tauto. apply aeq_sym. Qed.
  Lemma same_values_trans b1 b2 b3 : same_values b1 b2 -> same_values b2 b3 -> same_values b1 b3.
  Proof.
    intros [A1 A2 A3 A4 A5 A6 A7 A8 A9] [B1 B2 B3 B4 B5 B6 B7 B8 B9]. constructor; try congruence.
    - intros f Hf. eapply aeq_opt_trans; eauto.
    - eapply aeq_opt_trans; eauto.
  Qed.
  Lemma same_values_sym b1 b2 : same_values b1 b2 -> same_values b2 b1.
  Proof.
    intros [A1 A2 A3 A4 A5 A6 A7 A8 A9]. constructor; try congruence.
    - intros f Hf. apply opt_aeq_sym. auto.
    - apply opt_aeq_sym. auto.
  Qed.

  Lemma mat_eye n p q : mat (eye n) p q = delta (K:=K) p q.
  Proof. reflexivity. Qed.

  (** Changing to the same basis. *)
  Lemma change_basis_eye b b' l : ready b l -> basis_changed l l (eye l) (eye l) b b' ->
    (b_arr b F_spf = None -> b_arr b F_bra = None) -> same_values b b'.
  Proof.
    intros R B Hnb.
    assert (H1 : forall x y : option arr, (forall a, x = Some a -> shape a = [l; l]) ->
              changed1 l l (eye l) (eye l) x y -> opt_aeq x y).
    { intros [x|] [y|] Sx; cbn; try tauto. intros [Sy Gy]. apply (aeq2 K x y l l); auto.
      intros p q Hp Hq. rewrite Gy by assumption. symmetry. apply (T1_delta K l); assumption. }
    assert (H2 : forall x y : option arr, (forall a, x = Some a -> shape a = [l; l; l; l]) ->
              changed2 l l (eye l) (eye l) x y -> opt_aeq x y).
    { intros [x|] [y|] Sx; cbn; try tauto. intros [Sy Gy]. apply (aeq4 K x y l l l l); auto.
      intros p q r s Hp Hq Hr Hs. rewrite Gy by assumption. symmetry. apply (T2_delta K l); assumption. }
    assert (H3 : forall x y : option arr, (forall a, x = Some a -> exists g, shape a = l :: g /\ length g = b_dim b) ->
              changed_spf l l (eye l) x y -> opt_aeq x y).
    { intros [x|] [y|] Sx; cbn; try tauto. intros (Sy & _ & Gy). destruct (Sx x eq_refl) as (g & Sg & _).
      rewrite Sg in Sy. cbn in Sy. split; [congruence|]. intros idx V. rewrite Sg in V.
      destruct (valid_cons _ _ _ V) as (p & x' & -> & Hp & _). rewrite Gy by assumption.
      symmetry. apply (sumn_delta K l p (fun i => get x (i :: x')) Hp). }
    assert (H4 : forall x y : option arr, (forall a, x = Some a -> exists g, shape a = l :: g /\ length g = b_dim b) ->
              changed_bra l l (eye l) x y -> opt_aeq x y).
    { intros [x|] [y|] Sx; cbn; try tauto. intros (Sy & _ & Gy). destruct (Sx x eq_refl) as (g & Sg & _).
      rewrite Sg in Sy. cbn in Sy. split; [congruence|]. intros idx V. rewrite Sg in V.
      destruct (valid_cons _ _ _ V) as (p & x' & -> & Hp & _). rewrite Gy by assumption.
      symmetry. rewrite <- (sumn_delta K l p (fun i => get x (i :: x')) Hp).
      apply sumn_ext; intros i _. rewrite Nat.eqb_sym. reflexivity. }
    destruct R as [Rnp Rl (h & Rh & Sh) (u & Ru & Su) Rs Rd Rsp Rbr Rspin Rtb].
    constructor.
    - rewrite (bc_l B). exact Rl.
    - rewrite (bc_dim B). reflexivity.
    - rewrite (bc_spin B). reflexivity.
    - rewrite (bc_asym B). reflexivity.
    - rewrite (bc_nuc B). reflexivity.
    - rewrite (bc_cls B). reflexivity.
    - rewrite (bc_np B). reflexivity.
    - intros f Hf.
      destruct f; try congruence; try (rewrite (bc_rest B) by (cbn; tauto); apply opt_aeq_refl).
      + apply H1; [|apply (bc_h B)]. intros a Ha. congruence.
      + apply H2; [|apply (bc_u B)]. intros a Ha. congruence.
      + apply H1; [|apply (bc_s B)]. apply Rs.
      + pose proof (bc_dip B) as X. destruct (b_arr b F_dip) as [x|] eqn:E1, (b_arr b' F_dip) as [y|]; cbn in X |- *; try tauto.
        destruct X as [Sy Gy]. destruct (Rd x eq_refl) as [Sx _]. split; [congruence|]. intros idx V. rewrite Sx in V.
        destruct (valid3 _ _ _ _ V) as (i & p & q & -> & Hi & Hp & Hq). rewrite Gy by assumption.
        symmetry. apply (T1_delta K l (fun a c => get x [i; a; c])); assumption.
      + apply H2; [|apply (bc_tb B)]. intros a Ha. apply (Rtb a Ha).
      + apply H3; [|apply (bc_spf B)]. apply Rsp.
    - destruct (b_arr b F_spf) as [spf|] eqn:Es.
      + assert (N0 : b_arr b F_spf <> None) by congruence.
        rewrite (changed_bra_view _ _ _ _ _ _ B N0).
        apply H4; [|apply (bc_bra B N0)]. unfold bra_view. rewrite Es.
        destruct (b_arr b F_bra) as [bra|] eqn:Eb.
        * intros a Ha. injection Ha as <-. apply (Rbr bra eq_refl).
        * intros a Ha. injection Ha as <-. apply (Rsp spf eq_refl).
      + unfold bra_view. rewrite (bc_bra0 B Es), Es, (Hnb eq_refl).
        pose proof (bc_spf B) as X. rewrite Es in X. destruct (b_arr b' F_spf); [destruct X|exact I].
  Qed.

  (** C04 *)
  Lemma inverse_round_trip C D b l k :
    shape C = [l; k] -> shape D = [k; l] ->
    (forall a q, (a < l)%nat -> (q < l)%nat -> mmul k (mat C) (mat D) a q = delta a q) ->
    ready b l -> spin_mats_ok b l k -> (b_arr b F_spf = None -> b_arr b F_bra = None) ->
    exists b1 b2, change_basis C (Some D) b = (Ok tt, b1) /\ change_basis D (Some C) b1 = (Ok tt, b2) /\
      same_values b2 b.
  Proof.
    intros HC HD E R HS Hnb.
    destruct (compose_default C D D C (eye l) (eye l) b l k l) as (b1 & b2 & b3 & E1 & E2 & E3 & SV); auto.
    - intros. rewrite E by assumption. reflexivity.
    - intros. rewrite E by assumption. reflexivity.
    - exists b1, b2. split; [exact E1|]. split; [exact E2|].
      destruct (change_basis_ok K l l (eye l) (eye l) eq_refl eq_refl b R) as (b3' & E3' & B3).
      rewrite E3 in E3'. injection E3' as <-.
      eapply same_values_trans; [exact SV|]. apply same_values_sym. apply (change_basis_eye b b3 l R B3 Hnb).
  Qed.

  (** C05 *)
  Lemma T1_hermitian l k (h C D : nat -> nat -> K) :
    (forall p x, (p < k)%nat -> (x < l)%nat -> D p x = adj C p x) ->
    hermitian l h -> hermitian k (T1 l h C D).
  Proof.
    intros HD Hh p q Hp Hq. rewrite T1_conj. apply T1_ext.
    - intros. unfold adj. apply Hh; assumption.
    - intros b Hb. unfold adj. rewrite HD by assumption. unfold adj. rewrite conj_invol. reflexivity.
    - intros a Ha. apply HD; assumption.
  Qed.
  Lemma T2_hermitian l k (u : nat -> nat -> nat -> nat -> K) (C D : nat -> nat -> K) :
    (forall p x, (p < k)%nat -> (x < l)%nat -> D p x = adj C p x) ->
    hermitian2 l u -> hermitian2 k (T2 l u C D).
  Proof.
    intros HD Hu p q r s Hp Hq Hr Hs. rewrite T2_conj. apply T2_ext.
    - intros. apply Hu; assumption.
    - intros b Hb. unfold adj. rewrite !HD by assumption. unfold adj. rewrite !conj_invol. auto.
    - intros a Ha. split; apply HD; assumption.
  Qed.
  Lemma T2_particle_sym l k (u : nat -> nat -> nat -> nat -> K) (C D : nat -> nat -> K) :
    particle_sym l u -> particle_sym k (T2 l u C D).
  Proof.
    intros Hu p q r s Hp Hq Hr Hs. rewrite <- T2_particle. apply T2_ext; auto.
  Qed.

  Lemma hermitian_ext n (A B : nat -> nat -> K) :
    (forall p q, (p < n)%nat -> (q < n)%nat -> A p q = B p q) -> hermitian n A -> hermitian n B.
  Proof. intros E H p q Hp Hq. rewrite <- !E by assumption. apply H; assumption. Qed.
  Lemma hermitian2_ext n (A B : nat -> nat -> nat -> nat -> K) :
    (forall p q r s, (p < n)%nat -> (q < n)%nat -> (r < n)%nat -> (s < n)%nat -> A p q r s = B p q r s) ->
    hermitian2 n A -> hermitian2 n B.
  Proof. intros E H p q r s Hp Hq Hr Hs. rewrite <- !E by assumption. apply H; assumption. Qed.
  Lemma particle_sym_ext n (A B : nat -> nat -> nat -> nat -> K) :
    (forall p q r s, (p < n)%nat -> (q < n)%nat -> (r < n)%nat -> (s < n)%nat -> A p q r s = B p q r s) ->
    particle_sym n A -> particle_sym n B.
  Proof. intros E H p q r s Hp Hq Hr Hs. rewrite <- !E by assumption. apply H; assumption. Qed.

  Lemma hermiticity_preserved C b l k : shape C = [l; k] -> ready b l ->
    exists b', change_basis C None b = (Ok tt, b') /\
      (arr_sat (b_arr b F_h) (fun h => hermitian l (mat h)) ->
       arr_sat (b_arr b' F_h) (fun h => hermitian k (mat h))) /\
      (arr_sat (b_arr b F_s) (fun s => hermitian l (mat s)) ->
       arr_sat (b_arr b' F_s) (fun s => hermitian k (mat s))) /\
      (arr_sat (b_arr b F_dip) (fun d => forall i, (i < b_dim b)%nat -> hermitian l (fun p q => get d [i; p; q])) ->
       arr_sat (b_arr b' F_dip) (fun d => forall i, (i < b_dim b)%nat -> hermitian k (fun p q => get d [i; p; q]))) /\
      (arr_sat (b_arr b F_u) (fun u => particle_sym l (ten u)) ->
       arr_sat (b_arr b' F_u) (fun u => particle_sym k (ten u))) /\
      (arr_sat (b_arr b F_u) (fun u => hermitian2 l (ten u)) ->
       arr_sat (b_arr b' F_u) (fun u => hermitian2 k (ten u))) /\
      (arr_sat (b_arr b F_s) (fun s => forall p q, (p < l)%nat -> (q < l)%nat -> mat s p q = delta p q) ->
       (forall p q, (p < k)%nat -> (q < k)%nat -> mmul l (adj (mat C)) (mat C) p q = delta p q) ->
       arr_sat (b_arr b' F_s) (fun s => forall p q, (p < k)%nat -> (q < k)%nat -> mat s p q = delta p q)).
  Proof.
    intros HC R. destruct (dagger_spec K C l k HC) as [SD GD].
    destruct (change_basis_ok K l k C (dagger C) HC SD b R) as (b' & E & B).
    exists b'. split; [rewrite change_basis_default; exact E|].
    assert (HD : forall p x, (p < k)%nat -> (x < l)%nat -> mat (dagger C) p x = adj (mat C) p x)
      by (intros; apply GD).
    unfold arr_sat. repeat split.
    - intros Hh h' Hh'. pose proof (bc_h B) as X. rewrite Hh' in X.
      destruct (b_arr b F_h) as [h|] eqn:Eh; [|destruct X]. destruct X as [_ G].
      apply (hermitian_ext k (T1 l (mat h) (mat C) (mat (dagger C)))); [intros; symmetry; apply G; assumption|].
      apply T1_hermitian; auto.
    - intros Hh h' Hh'. pose proof (bc_s B) as X. rewrite Hh' in X.
      destruct (b_arr b F_s) as [h|] eqn:Eh; [|destruct X]. destruct X as [_ G].
      apply (hermitian_ext k (T1 l (mat h) (mat C) (mat (dagger C)))); [intros; symmetry; apply G; assumption|].
      apply T1_hermitian; auto.
    - intros Hh h' Hh' i Hi. pose proof (bc_dip B) as X. rewrite Hh' in X.
      destruct (b_arr b F_dip) as [h|] eqn:Eh; [|destruct X]. destruct X as [_ G].
      apply (hermitian_ext k (T1 l (fun p q => get h [i; p; q]) (mat C) (mat (dagger C))));
        [intros; symmetry; apply G; assumption|].
      apply T1_hermitian; auto.
    - intros Hh h' Hh'. pose proof (bc_u B) as X. rewrite Hh' in X.
      destruct (b_arr b F_u) as [h|] eqn:Eh; [|destruct X]. destruct X as [_ G].
      apply (particle_sym_ext k (T2 l (ten h) (mat C) (mat (dagger C)))); [intros; symmetry; apply G; assumption|].
      apply T2_particle_sym; auto.
    - intros Hh h' Hh'. pose proof (bc_u B) as X. rewrite Hh' in X.
      destruct (b_arr b F_u) as [h|] eqn:Eh; [|destruct X]. destruct X as [_ G].
      apply (hermitian2_ext k (T2 l (ten h) (mat C) (mat (dagger C)))); [intros; symmetry; apply G; assumption|].
      apply T2_hermitian; auto.
    - intros Hs Hon h' Hh' p q Hp Hq. pose proof (bc_s B) as X. rewrite Hh' in X.
      destruct (b_arr b F_s) as [h|] eqn:Eh; [|destruct X]. destruct X as [_ G].
      rewrite G by assumption. rewrite <- Hon by assumption.
      rewrite T1_mmul. apply mmul_ext; [intros; apply GD|]. intros x Hx.
      rewrite <- (mmul_delta_l K l (mat C) x q Hx). apply mmul_ext; [|reflexivity].
      intros y Hy. apply Hs; auto.
  Qed.

  (** C06: what really happens to the spin matrices. *)
  Lemma spin_matrices_untouched C D b l k : shape C = [l; k] -> shape D = [k; l] -> ready b l ->
    exists b', change_basis C (Some D) b = (Ok tt, b') /\ b_l b' = k /\
      forall f, In f [F_spx; F_spy; F_spz; F_sp2] -> b_arr b' f = b_arr b f.
  Proof.
    intros HC HD R. destruct (change_basis_ok K l k C D HC HD b R) as (b' & E & B).
    exists b'. split; [exact E|]. split; [apply (bc_l B)|].
    intros f Hf. apply (bc_rest B). cbn in *. tauto.
  Qed.
  Lemma spin_2_tb_transformed C D b l k t : shape C = [l; k] -> shape D = [k; l] -> ready b l ->
    b_arr b F_sp2tb = Some t ->
    exists b' t', change_basis C (Some D) b = (Ok tt, b') /\ b_arr b' F_sp2tb = Some t' /\
      shape t' = [k; k; k; k] /\
      forall p q r s, (p < k)%nat -> (q < k)%nat -> (r < k)%nat -> (s < k)%nat ->
        ten t' p q r s = T2 l (ten t) (mat C) (mat D) p q r s.
  Proof.
    intros HC HD R Et. destruct (change_basis_ok K l k C D HC HD b R) as (b' & E & B).
    pose proof (bc_tb B) as X. rewrite Et in X. destruct (b_arr b' F_sp2tb) as [t'|] eqn:Et'; [|destruct X].
    exists b', t'. split; [exact E|]. split; [exact Et'|]. exact X.
  Qed.

  (** C08: the state after a rejected call. *)
  Lemma change_basis_rejected C D b l n k k' n' : ready b l ->
    shape C = [n; k] -> shape D = [k'; n'] -> ~ (n = l /\ n' = l /\ k' = k) ->
    exists e, change_basis C (Some D) b = (Err e, set_l k b) /\ (e = ValueError \/ e = AssertionError).
  Proof.
    intros [[m Rnp] Rl (h & Rh & Sh) _ _ _ _ _ _ _] HC HD Hne.
    unfold change_basis.
    rewrite (bind_ok K _ _ _ k b) by (unfold lift, shape_at; rewrite HC; reflexivity).
    rewrite (bind_ok K _ _ _ tt (set_l k b)) by reflexivity. cbn [default_tilde].
    enough (exists e, change_basis_one_body C D (set_l k b) = (Err e, set_l k b) /\ (e = ValueError \/ e = AssertionError))
      as (e & E & He).
    { exists e. split; [|exact He]. apply bind_err. exact E. }
    unfold change_basis_one_body.
    rewrite (bind_ok K _ _ _ m (set_l k b)) by (apply need_np_ok; exact Rnp).
    rewrite (bind_ok K _ _ _ (Some h) (set_l k b)) by (unfold rd; cbn; rewrite Rh; reflexivity).
    rewrite (bind_ok K _ _ _ h (set_l k b)) by reflexivity.
    destruct (Nat.eq_dec n l) as [->|Hn].
    - destruct (Nat.eq_dec n' l) as [->|Hn'].
      + assert (Hk : k' <> k) by tauto.
        destruct (transform_one_body_ok K h C D l k k' Sh HC HD) as (h' & Eh & Sh' & _).
        rewrite (bind_ok K _ _ _ h' (set_l k b)) by (unfold lift; rewrite Eh; reflexivity).
        exists AssertionError. split; [|auto]. apply bind_err. apply set_sq_err.
        unfold check_axes. rewrite Sh'. cbn. destruct (Nat.eqb_spec k k'); [congruence|reflexivity].
      + exists ValueError. split; [|auto]. apply bind_err. unfold lift.
        rewrite (one_body_mismatch h C (Some D) l l k k' n' Sh HC HD) by auto. reflexivity.
    - exists ValueError. split; [|auto]. apply bind_err. unfold lift.
      rewrite (one_body_mismatch h C (Some D) l n k k' n' Sh HC HD) by auto. reflexivity.
  Qed.

  (** C67 *)
  Lemma previews C b l k : shape C = [l; k] -> ready b l ->
    exists h1 u1 b' h2 u2,
      get_transformed_h C b = (Ok h1, b) /\ get_transformed_u C b = (Ok u1, b) /\
      change_basis C None b = (Ok tt, b') /\
      b_arr b' F_h = Some h2 /\ b_arr b' F_u = Some u2 /\ aeq h1 h2 /\ aeq u1 u2.
  Proof.
    intros HC R. pose proof R as R0. destruct R as [[m Rnp] Rl (h & Rh & Sh) (u & Ru & Su) _ _ _ _ _ _].
    destruct (dagger_spec K C l k HC) as [SD GD].
    destruct (change_basis_ok K l k C (dagger C) HC SD b R0) as (b' & E & B).
    destruct (transform_one_body_ok K h C (dagger C) l k k Sh HC SD) as (h1 & Eh1 & Sh1 & _ & Gh1).
    destruct (t2_some K l k C (dagger C) HC SD b u u Ru) as (u1 & Eu1 & Su1 & Gu1); [rewrite Su; reflexivity|exact Su|].
    pose proof (bc_h B) as Xh. pose proof (bc_u B) as Xu. rewrite Rh in Xh. rewrite Ru in Xu.
    destruct (b_arr b' F_h) as [h2|] eqn:Eh2; [|destruct Xh]. destruct (b_arr b' F_u) as [u2|] eqn:Eu2; [|destruct Xu].
    exists h1, u1, b', h2, u2.
    split.
    { unfold get_transformed_h, bind, need_np. rewrite Rnp. unfold rd. rewrite Rh. cbn.
      rewrite transform_one_body_default. unfold lift, default_tilde. rewrite Eh1. reflexivity. }
    split.
    { unfold get_transformed_u, bind, need_np. rewrite Rnp. unfold rd. rewrite Ru. cbn.
      rewrite transform_two_body_default'. unfold lift, default_tilde. rewrite Eu1. reflexivity. }
    split; [exact E|]. split; [exact Eh2|]. split; [exact Eu2|].
    destruct Xh as [S2 G2], Xu as [S4 G4]. split.
    - apply (aeq2 K h1 h2 k k); auto. intros. rewrite Gh1, G2 by assumption. reflexivity.
    - apply (aeq4 K u1 u2 k k k k); auto. intros. rewrite Gu1, G4 by assumption. reflexivity.
  Qed.

  (** C69: a second change of basis after a rectangular one, with spin
      matrices present. *)
  Lemma second_rectangular_change C1 D1 C2 D2 b l k m sx : ready b l ->
    shape C1 = [l; k] -> shape D1 = [k; l] -> shape C2 = [k; m] -> shape D2 = [m; k] -> l <> k ->
    b_arr b F_spx = Some sx ->
    exists b1 b2, change_basis C1 (Some D1) b = (Ok tt, b1) /\ change_basis C2 (Some D2) b1 = (Err ValueError, b2) /\
      b_l b2 = m /\ arr_sat (b_arr b2 F_h) (fun h => shape h = [m; m]) /\
      arr_sat (b_arr b2 F_u) (fun u => shape u = [k; k; k; k]).
  Proof.
    intros R HC1 HD1 HC2 HD2 Hlk Hsx.
    destruct (change_basis_ok K l k C1 D1 HC1 HD1 b R) as (b1 & E1 & B1).
    destruct R as [[mm Rnp] Rl (h & Rh & Sh) (u & Ru & Su) Rs Rd Rsp Rbr Rspin Rtb].
    pose proof (bc_h B1) as Xh. pose proof (bc_u B1) as Xu. pose proof (bc_s B1) as Xs. rewrite Rh in Xh. rewrite Ru in Xu.
    destruct (b_arr b1 F_h) as [h1|] eqn:Eh1; [|destruct Xh]. destruct (b_arr b1 F_u) as [u1|] eqn:Eu1; [|destruct Xu].
    destruct Xh as [Sh1 _], Xu as [Su1 _].
    assert (Hsx1 : b_arr b1 F_spx = Some sx) by (rewrite (bc_rest B1) by (cbn; tauto); exact Hsx).
    assert (Hnp1 : b_np b1 = Some mm) by (rewrite (bc_np B1); exact Rnp).
    pose proof (Rspin F_spx sx ltac:(cbn; tauto) Hsx) as Ssx.
    destruct (t1_some K k m C2 D2 HC2 HD2 h1 Sh1) as (h2 & Eh2 & Sh2 & _).
    enough (exists b2, change_basis_one_body C2 D2 (set_l m b1) = (Err ValueError, b2) /\ b_l b2 = m /\
              b_arr b2 F_h = Some h2 /\ b_arr b2 F_u = Some u1) as (b2 & E2 & L2 & A2 & A3).
    { exists b1, b2. split; [exact E1|]. split.
      { unfold change_basis.
        rewrite (bind_ok K _ _ _ m b1) by (unfold lift, shape_at; rewrite HC2; reflexivity).
        rewrite (bind_ok K _ _ _ tt (set_l m b1)) by reflexivity. cbn [default_tilde].
        apply bind_err. exact E2. }
      split; [exact L2|]. unfold arr_sat. rewrite A2, A3. split; intros a Ha; injection Ha as <-; assumption. }
    unfold change_basis_one_body.
    rewrite (bind_ok K _ _ _ mm (set_l m b1)) by (apply need_np_ok; exact Hnp1).
    rewrite (bind_ok K _ _ _ (Some h1) (set_l m b1)) by (unfold rd; cbn; rewrite Eh1; reflexivity).
    rewrite (bind_ok K _ _ _ h1 (set_l m b1)) by reflexivity.
    rewrite (bind_ok K _ _ _ h2 (set_l m b1)) by (unfold lift; rewrite Eh2; reflexivity).
    rewrite (bind_ok K _ _ _ tt (set_arr F_h (Some h2) (set_l m b1)))
      by (apply set_sq_ok; apply check_axes2; exact Sh2).
    set (b2 := set_arr F_h (Some h2) (set_l m b1)).
    rewrite (bind_ok K _ _ _ (b_arr b1 F_s) b2) by reflexivity.
    assert (Loop : forall bb, b_arr bb F_spx = Some sx ->
      (let* b := get_st in
       for_each [b_arr b F_spx; b_arr b F_spy; b_arr b F_spz; b_arr b F_sp2]
        (fun spin => match spin with
           | None => ret tt
           | Some x => let* _ := lift (transform_one_body x C2 (Some D2)) in ret tt
           end)) bb = (Err ValueError, bb)).
    { intros bb Hbb. unfold bind at 1. cbn [get_st]. rewrite Hbb. cbn [for_each].
      apply bind_err. apply bind_err. unfold lift.
      rewrite (one_body_mismatch sx C2 (Some D2) l k m m k Ssx HC2 HD2) by auto. reflexivity. }
    destruct (b_arr b1 F_s) as [s1|] eqn:Es1.
    - destruct (b_arr b F_s) as [s|]; [|destruct Xs]. destruct Xs as [Ss1 _].
      destruct (t1_some K k m C2 D2 HC2 HD2 s1 Ss1) as (s2 & Es2 & Ss2 & _).
      exists (set_arr F_s (Some s2) b2). split; [|cbn; auto].
      rewrite (bind_ok K _ _ _ tt (set_arr F_s (Some s2) b2)).
      + apply Loop. exact Hsx1.
      + rewrite (bind_ok K _ _ _ s2 b2) by (unfold lift; rewrite Es2; reflexivity).
        apply set_sq_ok. apply check_axes2. exact Ss2.
    - exists b2. split; [|cbn; auto].
      rewrite (bind_ok K _ _ _ tt b2) by reflexivity. apply Loop. exact Hsx1.
  Qed.
End Proofs.
