(** C11: the anti_symmetrized_u flag along histories, exceptions included. *)
From Coq Require Import List Arith ZArith Lia Bool.
From Verif Require Import Scalar Py Numpy NumpyFacts Spec TransformFacts BasisSet BasisSpec BasisFacts
  ChangeProofs ConvProofs SpinFacts Histories Frame SizeProofs.
Import ListNotations.

Section Flag.
  Variable K : scalar.
  Local Open Scope K_scope.
  Add Ring Kring : (s_ring K).
  Notation arr := (arr K).
  Notation basis := (basis K).
  Implicit Types (b : basis) (C D u : arr).

  (** Which shapes a successful two-body transformation implies. *)
  Lemma transform_base_shapes u C D u' n : shape u = [n; n; n; n] -> transform_two_body_base u C (Some D) = Ok u' ->
    exists k k', shape C = [n; k] /\ shape D = [k'; n] /\ shape u' = [k'; k'; k; k].
  Proof.
    destruct u as [su du gu], C as [sc dc gc], D as [sd dd gd]; cbn [shape]; intros ->.
    unfold transform_two_body_base, default_tilde, tensordot, transpose, ndim. cbn -[Nat.eqb sumn].
    destruct sc as [|c0 sc]; [discriminate|]. cbn -[Nat.eqb sumn].
    destruct (Nat.eqb_spec n c0) as [<-|]; [|discriminate]. cbn -[Nat.eqb sumn]. rewrite Nat.eqb_refl. cbn -[Nat.eqb sumn].
    destruct sc as [|k [|k2 sc]]; cbn -[Nat.eqb sumn]; [cbn; discriminate| |].
    2:{ match goal with |- context [if 4 =? ?x then _ else _] => destruct (Nat.eqb_spec 4 x) as [E|E] end;
        [|discriminate]. rewrite app_length in E. cbn in E. lia. }
    change (4 =? 4) with true. cbn [rbind shape]. 
    destruct sd as [|k' sd]; [discriminate|]. cbn -[Nat.eqb sumn].
    destruct sd as [|d1 sd]; [discriminate|]. cbn -[Nat.eqb sumn].
    destruct (Nat.eqb_spec n d1) as [<-|]; [|discriminate]. cbn -[Nat.eqb sumn].
    destruct sd as [|d2 sd]; [|cbn; discriminate].
    cbn -[sumn]. rewrite Nat.eqb_refl. intros E. injection E as <-. exists k, k'. repeat split.
  Qed.

  (** The invariant carried along. *)
  Definition flag_inv b : Prop :=
    b_np b <> None /\ (forall u, b_arr b F_u = Some u -> exists n, axes_all n (shape u)) /\ flag_truthful b.
  Lemma kf_frame {A} fs (m : M basis A) : frame K fs m -> ~ In F_u fs -> keeps flag_inv m.
  Proof.
    intros Hf H. eapply keeps_frame; [exact Hf|]. intros b b' (_&N&_&_&_&_&As&Ar) (H1 & H2 & H3).
    unfold flag_inv, flag_truthful. rewrite N, As, Ar by exact H. auto.
  Qed.
  Lemma same_u_inv b b' u u' : b_np b' <> None -> b_arr b F_u = Some u -> b_arr b' F_u = Some u' ->
    shape u' = shape u -> get u' = get u -> b_asym b' = b_asym b -> flag_inv b -> flag_inv b'.
  Proof.
    intros N Hu Hu' S G As (H1 & H2 & H3). split; [exact N|]. split.
    - intros v Hv. rewrite Hu' in Hv. injection Hv as <-. rewrite S. auto.
    - intros Ht v Hv. rewrite Hu' in Hv. injection Hv as <-. rewrite As in Ht.
      destruct (H3 Ht u Hu) as (n & Sn & An). exists n. rewrite S. split; [exact Sn|]. unfold ten in *. rewrite G. exact An.
  Qed.
  Lemma kf_cast : keeps flag_inv cast_to_complex.
  Proof.
    intros b Hb. pose proof Hb as (H1 & H2 & H3).
    destruct (cast_to_complex_spec K b H1) as (b' & -> & (_&N&_&_&_&_&As) & Ar). cbn.
    specialize (Ar F_u). cbn in Ar. destruct (b_arr b F_u) as [u|] eqn:Eu; cbn in Ar.
    - apply (same_u_inv b b' u (astype Complex128 u)); try assumption; try reflexivity. congruence.
    - split; [congruence|]. split; [congruence|]. intros _. congruence.
  Qed.
  Lemma kf_module m : keeps flag_inv (change_module m).
  Proof.
    intros b (H1 & H2 & H3). destruct (change_module_spec K m b) as (b' & -> & (_&N&_&_&_&_&As) & Ar & _). cbn in *.
    split; [congruence|]. unfold flag_truthful. rewrite As, Ar by discriminate. auto.
  Qed.

  (** Anti-symmetrization, whatever its outcome. *)
  Lemma kf_antisym b : not_compact b -> flag_inv b -> flag_inv (snd (anti_symmetrize_two_body b)).
  Proof.
    intros Hc (H1 & H2 & H3). unfold anti_symmetrize_two_body. unfold bind at 1. cbn [get_st].
    destruct (b_asym b) eqn:Ea; [split; [exact H1|]; split; [exact H2|]; exact H3|].
    unfold bind at 1. unfold need. destruct (b_arr b F_u) as [u|] eqn:Eu; cbn [ret raise].
    2:{ cbn. split; [exact H1|]. split; [intros; congruence|]. intros X; congruence. }
    unfold bind at 1, lift. destruct (anti_symmetrize_u (b_cls b) u) as [u'|e] eqn:Eq.
    2:{ split; [exact H1|]. split; [cbn; intros v Hv; apply H2; congruence|]. intros X; cbn in X; congruence. }
    assert (Su : exists n, shape u = [n; n; n; n]).
    { destruct (H2 u eq_refl) as (n & Hn). exists n.
      assert (L4 : length (shape u) = 4%nat).
      { unfold anti_symmetrize_u in Eq.
        assert (Eb : anti_symmetrize_u_base u = Ok u').
        { destruct (b_cls b) eqn:Ecl; [exact Eq|]. unfold ndim in Eq. destruct (Nat.eqb_spec (length (shape u)) 2) as [X|X]; [|exact Eq].
          exfalso. exact (Hc Ecl u Eu X). }
        unfold anti_symmetrize_u_base, transpose, ndim in Eb; destruct (Nat.eqb_spec (length [0%nat; 1%nat; 3%nat; 2%nat]) (length (shape u))); [auto|discriminate]. }
      destruct (shape u) as [|a0 [|a1 [|a2 [|a3 [|]]]]]; try discriminate L4.
      unfold axes_all in Hn. rewrite (Hn a0), (Hn a1), (Hn a2), (Hn a3) by (cbn; tauto). reflexivity. }
    destruct Su as (n & Su). destruct (anti_symmetrize_u_spec K (b_cls b) u n Su) as (u2 & Eq2 & Su2 & Gu).
    rewrite Eq in Eq2. injection Eq2 as <-.
    assert (Anti : antisymmetric_array u').
    { exists n. split; [exact Su2|]. intros p q r s Hp Hq Hr Hs. rewrite !Gu by assumption. unfold exch. ring. }
    assert (G : forall b1, b_np b1 = b_np b -> b_arr b1 F_u = Some u' -> flag_inv b1).
    { intros b1 N E1. split; [congruence|]. split.
      - intros v Hv. rewrite E1 in Hv. injection Hv as <-. exists n. rewrite Su2. intros x Hx. cbn in Hx. intuition congruence.
      - intros _ v Hv. rewrite E1 in Hv. injection Hv as <-. exact Anti. }
    unfold bind at 1. destruct (check_axes u' (b_l b)) eqn:Ech.
    2:{ rewrite set_sq_err by exact Ech. cbn. split; [exact H1|]. split; [intros v Hv; apply H2; congruence|]. intros X; cbn in X; congruence. }
    rewrite set_sq_ok by exact Ech. unfold bind at 1, rd at 1. cbn [b_arr set_arr].
    set (b1 := set_arr F_u (Some u') b).
    match goal with |- flag_inv (snd (bind ?m _ b1)) => assert (F : frame K [F_sp2tb] m); [|set (mm := m) in *; clearbody mm] end.
    { rewrite upd_other by discriminate. destruct (b_arr b F_sp2tb); [|frame_step]. apply frame_bind; [apply frame_lift|]. intros t'.
      apply frame_set_spin_op. cbn. auto. }
    destruct (F b1) as (_&N&_&_&_&_&_&Ar). unfold bind. destruct (mm b1) as [[y|e] b2];
      cbn [snd modify] in *; apply G; cbn; try exact N; rewrite Ar by (cbn; intuition discriminate); reflexivity.
  Qed.

  (** Basis change, whatever its outcome. *)
  Lemma kf_two_body C D : keeps flag_inv (change_basis_two_body C D).
  Proof.
    intros b Hb. pose proof Hb as (H1 & H2 & H3). unfold change_basis_two_body.
    unfold bind at 1. unfold need_np. destruct (b_np b) as [m|] eqn:En; [|congruence].
    unfold bind at 1, rd at 1. unfold bind at 1. unfold need. destruct (b_arr b F_u) as [u|] eqn:Eu; [|exact Hb].
    cbn [ret]. unfold bind at 1. cbn [get_st]. unfold bind at 1, lift at 1.
    destruct (transform_two_body b u C (Some D)) as [u'|e] eqn:Et; [|exact Hb].
    unfold bind at 1. destruct (check_axes u' (b_l b)) eqn:Ech.
    2:{ rewrite set_sq_err by exact Ech. exact Hb. }
    rewrite set_sq_ok by exact Ech. set (b1 := set_arr F_u (Some u') b).
    assert (Hb1 : flag_inv b1).
    { apply check_axes_all in Ech. split; [cbn; congruence|]. split.
      - intros v Hv. injection Hv as <-. eauto.
      - intros Ha v Hv. injection Hv as <-. change (b_asym b = true) in Ha.
        destruct (H3 Ha u Eu) as (n & Su & An).
        assert (Eb : transform_two_body_base u C (Some D) = Ok u').
        { unfold transform_two_body in Et. destruct (b_cls b); [exact Et|]. unfold transform_two_body_dvr in Et.
          assert (U4 : u_repr b = U4d) by (unfold u_repr, ndim; rewrite Eu, Su; reflexivity).
          rewrite U4 in Et. exact Et. }
        destruct (transform_base_shapes u C D u' n Su Eb) as (k & k' & SC & SD & Su').
        assert (k' = b_l b /\ k = b_l b) as [Hk' Hk] by (rewrite Su' in Ech; split; apply Ech; cbn; tauto).
        rewrite Hk in SC. rewrite Hk' in SD.
        destruct (transform_two_body_ok K u C D n (b_l b) Su SC SD) as (u2 & E2 & S2 & G2).
        rewrite Eb in E2. injection E2 as <-. exists (b_l b). split; [exact S2|].
        intros p q r s Hp Hq Hr Hs. rewrite !G2, <- T2_ket_swap, <- T2_opp.
        apply T2_ext; [|split; reflexivity..]. intros a c d e Ha' Hc Hd He. apply An; assumption. }
    match goal with |- flag_inv (snd (?m b1)) => assert (F : frame K [F_sp2tb] m) end.
    { frame_step; [frame_step|]. frame_step; [|frame_step]. frame_step; [frame_step|]. frame_step; [frame_step|].
      apply frame_set_spin_op. cbn. auto. }
    eapply (kf_frame [F_sp2tb]); [exact F | cbn; intuition discriminate | exact Hb1].
  Qed.
  Lemma kf_change C Ct : keeps flag_inv (change_basis C Ct).
  Proof.
    intros b Hb. rewrite change_basis_split. destruct (shape_at C 1) as [k|e]; [|exact Hb].
    assert (K0 : keeps flag_inv (change_rest C (default_tilde C Ct))).
    { unfold change_rest. keeps_step; [eapply kf_frame; [apply frame_one_body|cbn; intuition discriminate]|].
      keeps_step; [apply kf_two_body|]. keeps_step; [keeps_step|]. keeps_step.
      { keeps_step; [|keeps_step]. eapply kf_frame; [apply frame_dipole|cbn; intuition discriminate]. }
      keeps_step; [keeps_step|]. keeps_step; [|keeps_step]. eapply kf_frame; [apply frame_spf|cbn; intuition discriminate]. }
    apply K0. exact Hb.
  Qed.

  (** Spin doubling from an unflagged state. *)
  Definition unflagged (c : cls) (anti : bool) b : Prop :=
    b_np b <> None /\ b_asym b = false /\ b_cls b = c /\
    (forall u, b_arr b F_u = Some u -> exists n, axes_all n (shape u)) /\ (anti = true -> not_compact b).
  Lemma unflagged_inv c anti b : unflagged c anti b -> flag_inv b.
  Proof. intros (H1 & H2 & _ & H3 & _). split; [exact H1|]. split; [exact H3|]. intros X. congruence. Qed.
  Lemma ku_frame {A} c anti fs (m : M basis A) : frame K fs m -> ~ In F_u fs -> keeps (unflagged c anti) m.
  Proof.
    intros Hf H. eapply keeps_frame; [exact Hf|]. intros b b' (Cl&N&_&_&_&_&As&Ar) (H1 & H2 & H3 & H4 & H5).
    unfold unflagged, not_compact. rewrite N, As, Cl, Ar by exact H. auto.
  Qed.
  Lemma kron_ndim (a e : arr) : length (shape (kron a e)) = Nat.max (ndim a) (ndim e).
  Proof.
    unfold kron. cbn [shape]. set (nd := Nat.max (ndim a) (ndim e)).
    assert (P : forall l, (length l <= nd)%nat -> length (pad nd l) = nd).
    { intros l Hl. unfold pad. rewrite app_length, repeat_length. lia. }
    assert (M2 : forall l m, length l = length m -> length (map2 Nat.mul l m) = length l).
    { induction l as [|x l IH]; intros [|y m] E; cbn; try discriminate; [reflexivity|]. f_equal. apply IH. cbn in E. lia. }
    rewrite M2; rewrite !P; unfold nd, ndim in *; lia.
  Qed.
  Lemma ku_double_u c anti : keeps (unflagged c anti) (double_u c).
  Proof.
    intros b Hb. pose proof Hb as (H1 & H2 & H3 & H4 & H5). unfold double_u. unfold bind at 1, rd at 1.
    unfold bind at 1, need. destruct (b_arr b F_u) as [u|] eqn:Eu; [|exact Hb]. cbn [ret].
    unfold bind at 1, lift. destruct (add_spin_two_body c u) as [u'|] eqn:Ea; [|exact Hb].
    destruct (check_axes u' (b_l b)) eqn:Ech; [|rewrite set_sq_err by exact Ech; exact Hb].
    rewrite set_sq_ok by exact Ech. apply check_axes_all in Ech. cbn. split; [exact H1|]. split; [exact H2|].
    split; [exact H3|]. split; [intros v Hv; injection Hv as <-; eauto|].
    intros Ht Ecl v Hv. injection Hv as <-. specialize (H5 Ht Ecl u Eu).
    change (b_cls b = SincDVR) in Ecl. rewrite <- H3, Ecl in Ea. cbn in Ea. unfold ndim in Ea.
    destruct (Nat.eqb_spec (length (shape u)) 2) as [X|X]; [contradiction|].
    unfold add_spin_two_body_base in Ea. cbn in Ea. injection Ea as <-. rewrite kron_ndim.
    cbn. lia.
  Qed.
  Lemma kf_double va vb anti b : b_spin b = true \/ (b_asym b = false /\ (anti = true -> not_compact b)) ->
    flag_inv b -> flag_inv (snd (to_general_base va vb anti b)).
  Proof.
    intros Hs Hb. rewrite to_general_split. destruct (b_spin b) eqn:Esp; [exact Hb|].
    destruct Hs as [|[Ha Hn]]; [discriminate|]. pose proof Hb as (H1 & H2 & H3).
    set (b0 := set_l (2 * b_l b) (set_spin true b)).
    assert (U0 : unflagged (b_cls b) anti b0) by (repeat split; auto).
    clearbody b0. revert b0 U0.
    (* a postcondition-style bind: unflagged until anti-symmetrization, flag_inv afterwards *)
    assert (St : forall A B (m : M basis A) (k : A -> M basis B), keeps (unflagged (b_cls b) anti) m ->
      (forall x b0, unflagged (b_cls b) anti b0 -> flag_inv (snd (k x b0))) ->
      forall b0, unflagged (b_cls b) anti b0 -> flag_inv (snd (bind m k b0))).
    { intros A B m k Km Kk b0 U0. specialize (Km b0 U0). unfold bind. destruct (m b0) as [[x|e] b1]; cbn in *.
      - apply Kk. exact Km.
      - eapply unflagged_inv. exact Km. }
    unfold double_rest. apply St; [apply keeps_need|intros s]. apply St; [apply keeps_need_np|intros _].
    apply St; [apply (ku_frame _ _ [F_h]); [apply frame_double_h; cbn; auto|cbn; intuition discriminate]|intros _].
    apply St; [apply (ku_frame _ _ [F_s]); [apply frame_double_s; cbn; auto|cbn; intuition discriminate]|intros _].
    apply St; [apply ku_double_u|intros _].
    apply St; [eapply ku_frame; [apply frame_double_spin|cbn; intuition discriminate]|intros _].
    intros b1 U1.
    match goal with |- flag_inv (snd (bind ?m ?k b1)) => assert (Km : flag_inv (snd (m b1))); [|assert (Kk : forall x, keeps flag_inv (k x))] end.
    - destruct anti; cbn [when]; [|eapply unflagged_inv; exact U1].
      pose proof U1 as (_&_&_&_&Hc). apply kf_antisym; [exact (Hc eq_refl) | eapply unflagged_inv; exact U1].
    - intros _. keeps_step; [apply (kf_frame [F_dip]); [apply frame_double_dip; cbn; auto|cbn; intuition discriminate]|].
      keeps_step; [apply (kf_frame [F_spf; F_bra]); [apply frame_double_orb; cbn; auto|cbn; intuition discriminate]|].
      keeps_step; [apply kf_cast|keeps_step].
    - unfold bind at 1. match goal with |- context [match ?x with (_, _) => _ end] => destruct x as [[y|e] b2] end; [exact (Kk y _ Km) | exact Km].
  Qed.

  Lemma kf_run o b : flag_safe b o -> flag_inv b -> flag_inv (snd (run o b)).
  Proof.
    intros Hs. destruct o; cbn [run flag_safe] in *.
    - apply (kf_frame [F_h]); [apply frame_set_sq; cbn; auto|cbn; intuition discriminate].
    - apply (kf_frame [F_s]); [apply frame_set_sq; cbn; auto|cbn; intuition discriminate].
    - intros Hb. destruct (check_axes a (b_l b)) eqn:Ech; [|rewrite set_sq_err by exact Ech; exact Hb].
      rewrite set_sq_ok by exact Ech. apply check_axes_all in Ech. destruct Hb as (H1 & H2 & H3). split; [exact H1|].
      split; [intros v Hv; injection Hv as <-; eauto|]. intros Ha v Hv. injection Hv as <-. exact (Hs Ha).
    - apply (kf_frame [F_dip]); [apply frame_set_dipole; cbn; auto|cbn; intuition discriminate].
    - apply (kf_frame [spin_field x]); [apply frame_set_spin_op; cbn; auto|destruct x; cbn; intuition discriminate].
    - apply (kf_frame [sigma_field x]); [apply frame_set_sigma; cbn; auto|destruct x; cbn; intuition discriminate].
    - apply (kf_frame [F_spf]); [apply frame_set_orbitals; cbn; auto|cbn; intuition discriminate].
    - apply (kf_frame [F_bra]); [apply frame_set_orbitals; cbn; auto|cbn; intuition discriminate].
    - apply (kf_frame [F_grid]); [apply frame_wr; cbn; auto|cbn; intuition discriminate].
    - auto.
    - apply kf_change.
    - apply kf_antisym. exact Hs.
    - intros Hb. assert (X : flag_inv (snd (change_to_general ab anti b))).
      { destruct (change_to_general_cases K ab anti b) as [(va & vb & ->)|(e & ->)]; [|exact Hb]. apply kf_double; assumption. }
      unfold drop, bind. destruct (change_to_general ab anti b) as [[y|e] b1]; exact X.
    - apply kf_module.
    - apply kf_cast.
    - apply (ks_drop K). apply (kf_frame [F_bra]); [apply frame_get_bra; cbn; auto|cbn; intuition discriminate].
    - apply (ks_drop K). eapply kf_frame; [apply frame_density|cbn; intuition discriminate].
    - apply (ks_drop K). apply (kf_frame []); [apply frame_get_h|cbn; auto].
    - apply (ks_drop K). apply (kf_frame []); [apply frame_get_u|cbn; auto].
    - rewrite set_u_repr_same. auto.
  Qed.
  Lemma hist_flag ops b : along flag_safe ops b -> flag_inv b -> flag_inv (run_any ops b).
  Proof.
    revert b. induction ops as [|o ops IH]; intros b Ha Hb; cbn; [exact Hb|]. destruct Ha as [Ha1 Ha2].
    apply IH; [exact Ha2|]. apply kf_run; assumption.
  Qed.
  Lemma new_flag_inv c m l dim i s : flag_inv (new_basis K c m l dim i s).
  Proof. split; [discriminate|]. split; [discriminate|]. intros _. discriminate. Qed.
  Lemma flag_tells_truth ops c m l dim i s : along flag_safe ops (new_basis K c m l dim i s) ->
    flag_truthful (run_any ops (new_basis K c m l dim i s)).
  Proof. intros H. apply (hist_flag _ _ H (new_flag_inv c m l dim i s)). Qed.
End Flag.
