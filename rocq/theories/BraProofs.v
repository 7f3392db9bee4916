(** C32: the dual orbitals along histories, exceptions included. *)
From Coq Require Import List Arith ZArith Lia Bool.
From Verif Require Import Scalar Py Numpy NumpyFacts Spec TransformFacts BasisSet BasisSpec BasisFacts
  ChangeProofs ConvProofs SpinFacts Histories Frame SizeProofs.
Import ListNotations.

Section Bra.
  Variable K : scalar.
  Local Open Scope K_scope.
  Add Ring Kring : (s_ring K).
  Notation arr := (arr K).
  Notation basis := (basis K).
  Implicit Types (b : basis) (C D u : arr).

  Definition bra_pair (x y : option arr) : Prop :=
    match x, y with None, _ => True | Some a, Some c => aeq a (aconj c) | Some _, None => False end.
  Definition bra_inv b : Prop := b_np b <> None /\ bra_pair (b_arr b F_bra) (b_arr b F_spf).
  Lemma bra_inv_follows b : bra_inv b -> bra_follows b.
  Proof.
    intros (_ & H). unfold bra_follows, bra_view. unfold bra_pair in H.
    destruct (b_arr b F_bra) as [x|], (b_arr b F_spf) as [y|]; cbn; auto. apply aeq_refl.
  Qed.
  Lemma kb_frame {A} fs (m : M basis A) : frame K fs m -> ~ In F_bra fs -> ~ In F_spf fs -> keeps bra_inv m.
  Proof.
    intros Hf H H'. eapply keeps_frame; [exact Hf|]. intros b b' (_&N&_&_&_&_&_&Ar) (H1 & H2).
    unfold bra_inv. rewrite N, !Ar by assumption. auto.
  Qed.
  Lemma kb_get_bra : keeps bra_inv get_bra.
  Proof.
    intros b (H1 & H2). destruct (get_bra_spec K b) as (b' & -> & (_&N&_) & V & Ar). cbn. split; [congruence|].
    rewrite V, Ar by discriminate. unfold bra_view. destruct (b_arr b F_bra); [exact H2|].
    destruct (b_arr b F_spf); cbn; [apply aeq_refl | exact I].
  Qed.
  Lemma kb_cast : keeps bra_inv cast_to_complex.
  Proof.
    intros b (H1 & H2). destruct (cast_to_complex_spec K b H1) as (b' & -> & (_&N&_) & Ar). cbn. split; [congruence|].
    rewrite !Ar. cbn. unfold bra_view. destruct (b_arr b F_bra) as [x|], (b_arr b F_spf) as [y|]; cbn; auto.
    split; [reflexivity|]. reflexivity.
  Qed.
  Lemma kb_module m : keeps bra_inv (change_module m).
  Proof.
    intros b (H1 & H2). destruct (change_module_spec K m b) as (b' & -> & (_&N&_) & Ar & V). cbn in *. split; [congruence|].
    rewrite (Ar F_spf) by discriminate. unfold bra_view in V. rewrite (Ar F_spf) in V by discriminate.
    destruct (b_arr b' F_bra) as [x|], (b_arr b F_bra) as [y|], (b_arr b F_spf) as [z|]; cbn in *; auto; try congruence.
    replace x with (aconj z) by congruence. apply aeq_refl.
  Qed.
  Lemma kb_antisym : keeps bra_inv anti_symmetrize_two_body.
  Proof.
    unfold anti_symmetrize_two_body. keeps_step; [keeps_step|]. keeps_step; [keeps_step|]. keeps_step; [keeps_step|].
    keeps_step; [keeps_step|].
    keeps_step; [apply (kb_frame [F_u]); [apply frame_set_sq; cbn; auto|cbn; intuition discriminate..]|].
    keeps_step; [keeps_step|]. keeps_step.
    - keeps_step; [|keeps_step]. keeps_step; [keeps_step|].
      apply (kb_frame [F_sp2tb]); [apply frame_set_spin_op; cbn; auto|cbn; intuition discriminate..].
    - intros b Hb. exact Hb.
  Qed.
  Lemma set_orbitals_accepts f (a : arr) b : set_orbitals f (Some a) b =
    match nth_error (shape a) 0 with
    | None => (Err IndexError, b)
    | Some n => if (n =? b_l b)%nat && (length (tl (shape a)) =? b_dim b)%nat
                then (Ok tt, set_arr f (Some a) b) else (Err AssertionError, b)
    end.
  Proof.
    unfold set_orbitals, bind, lift, shape_at. cbn. destruct (shape a) as [|n sh]; cbn; [reflexivity|].
    unfold py_assert. destruct (n =? b_l b)%nat; cbn; [|reflexivity]. destruct (length sh =? b_dim b)%nat; reflexivity.
  Qed.
  Lemma kb_double_orb : keeps bra_inv double_orb.
  Proof.
    intros b Hb. pose proof Hb as (H1 & H2). unfold double_orb. unfold bind at 1, rd at 1.
    destruct (b_arr b F_spf) as [spf|] eqn:Es; [|exact Hb].
    unfold bind at 1, lift at 1. destruct (add_spin_spf spf) as [spf'|] eqn:Ea; [|exact Hb].
    unfold bind at 1. rewrite set_orbitals_accepts.
    destruct (nth_error (shape spf') 0) as [n|] eqn:En; [|exact Hb].
    destruct ((n =? b_l b)%nat && (length (tl (shape spf')) =? b_dim b)%nat) eqn:Ec; [|exact Hb].
    unfold bind at 1, rd at 1. cbn [b_arr set_arr]. rewrite upd_other by discriminate.
    destruct (b_arr b F_bra) as [bra|] eqn:Eb.
    2:{ split; [exact H1|]. cbn. rewrite Eb. exact I. }
    cbn in H2. destruct H2 as (S & G). change (shape (aconj spf)) with (shape spf) in S.
    unfold add_spin_spf in Ea. destruct (shape spf) as [|m g] eqn:Esh; [discriminate|]. injection Ea as <-.
    cbn in En. injection En as <-. cbn [shape tl] in Ec.
    unfold bind, lift. unfold add_spin_spf. rewrite S. rewrite set_orbitals_accepts. cbn [shape nth_error tl b_l b_dim set_arr].
    rewrite Ec. cbn. split; [exact H1|]. cbn. split; [reflexivity|]. cbn [shape get aconj].
    intros idx V. destruct (valid_cons _ _ _ V) as (P & x & -> & HP & Vx).
    assert (V2 : valid (shape bra) (Nat.div2 P :: x)).
    { rewrite S. constructor; [|exact Vx]. rewrite Nat.div2_div. apply Nat.div_lt_upper_bound; lia. }
    destruct (Nat.even P); apply (G _ V2).
  Qed.
  Lemma kb_double va vb anti : keeps bra_inv (to_general_base va vb anti).
  Proof.
    intros b Hb. rewrite to_general_split. destruct (b_spin b); [exact Hb|].
    assert (K0 : keeps bra_inv (double_rest va vb anti b)).
    { unfold double_rest. do 2 (keeps_step; [keeps_step|]).
      keeps_step; [apply (kb_frame [F_h]); [apply frame_double_h; cbn; auto|cbn; intuition discriminate..]|].
      keeps_step; [apply (kb_frame [F_s]); [apply frame_double_s; cbn; auto|cbn; intuition discriminate..]|].
      keeps_step; [apply (kb_frame [F_u]); [apply frame_double_u; cbn; auto|cbn; intuition discriminate..]|].
      keeps_step; [eapply kb_frame; [apply frame_double_spin|cbn; intuition discriminate..]|].
      keeps_step; [apply keeps_when, kb_antisym|].
      keeps_step; [apply (kb_frame [F_dip]); [apply frame_double_dip; cbn; auto|cbn; intuition discriminate..]|].
      keeps_step; [apply kb_double_orb|]. keeps_step; [apply kb_cast|]. keeps_step. }
    apply K0. exact Hb.
  Qed.
  (** Basis change with Ct = C^dagger. *)
  Lemma plain_default C Ct : plain_tilde C Ct -> exists n k, shape C = [n; k] /\ shape (default_tilde C Ct) = [k; n] /\
    forall p q, (p < k)%nat -> (q < n)%nat -> mat (default_tilde C Ct) p q = adj (mat C) p q.
  Proof.
    intros (n & k & SC & H). exists n, k. split; [exact SC|]. destruct Ct as [D|]; [exact H|].
    destruct (dagger_spec K C n k SC) as (S & G). split; [exact S|]. intros p q _ _. apply G.
  Qed.
  Lemma kb_spf C D n k : shape C = [n; k] -> shape D = [k; n] ->
    (forall p q, (p < k)%nat -> (q < n)%nat -> mat D p q = adj (mat C) p q) -> keeps bra_inv (change_basis_spf C D).
  Proof.
    intros SC SD HD b Hb. unfold change_basis_spf. pose proof (kb_get_bra b Hb) as Hb1.
    unfold bind at 1. destruct (get_bra_spec K b) as (b1 & E1 & _ & V & Ar). rewrite E1 in Hb1 |- *. cbn [snd] in Hb1.
    assert (Hx : bra_view b = b_arr b1 F_bra) by congruence. rewrite Hx. clear Hx E1 V Ar Hb.
    pose proof Hb1 as (H1 & H2). unfold bind at 1, need_np. destruct (b_np b1) as [m|] eqn:En; [|congruence].
    unfold bind at 1, need. destruct (b_arr b1 F_bra) as [bra|] eqn:Eb; [|exact Hb1]. cbn [ret].
    cbn in H2. destruct (b_arr b1 F_spf) as [spf|] eqn:Es; [|destruct H2]. destruct H2 as (S & G).
    change (shape (aconj spf)) with (shape spf) in S.
    unfold bind at 1, lift at 1. destruct (shape spf) as [|m0 g] eqn:Esh.
    { unfold transform_bra_spf, tensordot. rewrite S, SD. exact Hb1. }
    destruct (Nat.eq_dec n m0) as [<-|Hne].
    2:{ unfold transform_bra_spf, tensordot. rewrite S, SD. cbn. destruct (Nat.eqb_spec n m0); [contradiction | exact Hb1]. }
    destruct (transform_bra_ok K bra D n k g S SD) as (bra' & -> & Sb' & _ & Gb).
    unfold bind at 1. rewrite set_orbitals_accepts, Sb'. cbn [nth_error tl].
    destruct ((k =? b_l b1)%nat && (length g =? b_dim b1)%nat) eqn:Ec; [|exact Hb1].
    unfold bind at 1, rd at 1. cbn [b_arr set_arr]. rewrite upd_other, Es by discriminate.
    unfold bind at 1. cbn [ret]. destruct (transform_spf_ok K spf C n k g Esh SC) as (spf' & E' & Ss' & _ & Gs).
    unfold bind, lift. rewrite E', set_orbitals_accepts, Ss'. cbn [nth_error tl b_l b_dim set_arr]. rewrite Ec. cbn.
    split; [cbn; congruence|]. cbn. split; [cbn; congruence|]. intros idx Vi. rewrite Sb' in Vi.
    destruct (valid_cons _ _ _ Vi) as (p & x & -> & Hp & Vx). cbn [get aconj]. rewrite Gb, Gs, sumn_conj.
    apply sumn_ext. intros i Hi. rewrite HD by assumption. unfold adj. rewrite conj_mul. f_equal.
    apply (G (i :: x)). rewrite S. constructor; assumption.
  Qed.
  Lemma kb_change C Ct : plain_tilde C Ct -> keeps bra_inv (change_basis C Ct).
  Proof.
    intros Hp b Hb. destruct (plain_default C Ct Hp) as (n & k & SC & SD & HD).
    rewrite change_basis_split. destruct (shape_at C 1) as [k0|e]; [|exact Hb].
    assert (K0 : keeps bra_inv (change_rest C (default_tilde C Ct))).
    { unfold change_rest. keeps_step; [eapply kb_frame; [apply frame_one_body|cbn; intuition discriminate..]|].
      keeps_step; [eapply kb_frame; [apply frame_two_body|cbn; intuition discriminate..]|]. keeps_step; [keeps_step|]. keeps_step.
      { keeps_step; [|keeps_step]. eapply kb_frame; [apply frame_dipole|cbn; intuition discriminate..]. }
      keeps_step; [keeps_step|]. keeps_step; [|keeps_step]. eapply kb_spf; eassumption. }
    apply K0. exact Hb.
  Qed.
  Lemma kb_density rho (C : option arr) Ct : keeps bra_inv (compute_particle_density rho C Ct).
  Proof.
    unfold compute_particle_density. keeps_step; [keeps_step|]. keeps_step; [keeps_step|]. keeps_step; [apply kb_get_bra|].
    keeps_step; [keeps_step|]. destruct C; repeat keeps_step.
  Qed.
  Lemma kb_run o b : bra_safe b o -> bra_inv b -> bra_inv (snd (run o b)).
  Proof.
    intros Hs. destruct o; cbn [run bra_safe] in *.
    - apply (kb_frame [F_h]); [apply frame_set_sq; cbn; auto|cbn; intuition discriminate..].
    - apply (kb_frame [F_s]); [apply frame_set_sq; cbn; auto|cbn; intuition discriminate..].
    - apply (kb_frame [F_u]); [apply frame_set_sq; cbn; auto|cbn; intuition discriminate..].
    - apply (kb_frame [F_dip]); [apply frame_set_dipole; cbn; auto|cbn; intuition discriminate..].
    - apply (kb_frame [spin_field x]); [apply frame_set_spin_op; cbn; auto|destruct x; cbn; intuition discriminate..].
    - apply (kb_frame [sigma_field x]); [apply frame_set_sigma; cbn; auto|destruct x; cbn; intuition discriminate..].
    - intros (H1 & H2). destruct (frame_set_orbitals K [F_spf] F_spf x ltac:(cbn; auto) b) as (_&N&_&_&_&_&_&Ar).
      split; [congruence|]. rewrite Ar by (cbn; intuition discriminate). rewrite Hs. exact I.
    - destruct Hs.
    - apply (kb_frame [F_grid]); [apply frame_wr; cbn; auto|cbn; intuition discriminate..].
    - auto.
    - apply kb_change. exact Hs.
    - apply kb_antisym.
    - intros Hb. assert (X : bra_inv (snd (change_to_general ab anti b))).
      { destruct (change_to_general_cases K ab anti b) as [(va & vb & ->)|(e & ->)]; [|exact Hb]. apply kb_double; assumption. }
      unfold drop, bind. destruct (change_to_general ab anti b) as [[y|e] b1]; exact X.
    - apply kb_module.
    - apply kb_cast.
    - apply (ks_drop K). apply kb_get_bra.
    - apply (ks_drop K). apply kb_density.
    - apply (ks_drop K). apply (kb_frame []); [apply frame_get_h|cbn; auto..].
    - apply (ks_drop K). apply (kb_frame []); [apply frame_get_u|cbn; auto..].
    - rewrite set_u_repr_same. auto.
  Qed.
  Lemma hist_bra ops b : along bra_safe ops b -> bra_inv b -> bra_inv (run_any ops b).
  Proof.
    revert b. induction ops as [|o ops IH]; intros b Ha Hb; cbn; [exact Hb|]. destruct Ha as [Ha1 Ha2].
    apply IH; [exact Ha2|]. apply kb_run; assumption.
  Qed.
  Lemma dual_orbitals_follow ops c m l dim i s : along bra_safe ops (new_basis K c m l dim i s) ->
    bra_follows (run_any ops (new_basis K c m l dim i s)).
  Proof. intros H. apply bra_inv_follows. apply (hist_bra _ _ H). split; [discriminate | exact I]. Qed.
End Bra.
