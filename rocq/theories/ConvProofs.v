(** cast_to_complex and change_module (C66), and the bra_spf cache. *)
From Coq Require Import List Arith ZArith Lia Bool.
From Verif Require Import Scalar Py Numpy NumpyFacts Spec TransformFacts BasisSet BasisSpec BasisFacts ChangeProofs.
Import ListNotations.

Definition fmem (f : field) (fs : list field) : bool := existsb (field_eqb f) fs.
Lemma field_eqb_refl f : field_eqb f f = true.
Proof. destruct f; reflexivity. Qed.
Lemma fmem_spec f fs : fmem f fs = true <-> In f fs.
Proof.
  unfold fmem. rewrite existsb_exists. split.
  - intros (g & H & E). apply field_eqb_spec in E. subst. exact H.
  - intros H. exists f. split; [exact H | apply field_eqb_refl].
Qed.

Section Conv.
  Variable K : scalar.
  Local Open Scope K_scope.
  Notation arr := (arr K).
  Notation basis := (basis K).
  Implicit Types (b : basis).

  (** Everything but the arrays agrees. *)
  Definition same_meta b b' : Prop :=
    b_cls b' = b_cls b /\ b_np b' = b_np b /\ b_l b' = b_l b /\ b_dim b' = b_dim b /\
    b_nuc b' = b_nuc b /\ b_spin b' = b_spin b /\ b_asym b' = b_asym b.
  Lemma same_meta_refl b : same_meta b b.
  Proof. repeat split. Qed.
  Lemma same_meta_trans b1 b2 b3 : same_meta b1 b2 -> same_meta b2 b3 -> same_meta b1 b3.
  Proof. unfold same_meta. intuition congruence. Qed.

  Lemma get_bra_spec b : exists b', get_bra b = (Ok (bra_view b), b') /\ same_meta b b' /\
    b_arr b' F_bra = bra_view b /\ forall f, f <> F_bra -> b_arr b' f = b_arr b f.
  Proof.
    unfold get_bra, bra_view, bind, rd.
    destruct (b_arr b F_bra) as [bra|] eqn:Eb; [|destruct (b_arr b F_spf) as [spf|] eqn:Es].
    - exists b. split; [reflexivity|]. split; [apply same_meta_refl|]. auto.
    - exists (set_arr F_bra (Some (aconj spf)) b). split; [reflexivity|]. split; [repeat split|].
      split; [reflexivity|]. intros f Hf. apply upd_other. congruence.
    - exists b. split; [reflexivity|]. split; [apply same_meta_refl|]. auto.
  Qed.

  Definition view b (f : field) : option arr := match f with F_bra => bra_view b | _ => b_arr b f end.

  Lemma for_writes (fs : list field) (b0 : field -> option arr) (w : field * option arr -> M basis unit)
    (g : option arr -> option arr) b :
    (forall f x b, b_np b <> None ->
       w (f, x) b = (Ok tt, match g x with Some y => set_arr f (Some y) b | None => b end)) ->
    b_np b <> None -> (forall f, In f fs -> g (b0 f) = None -> b_arr b f = None) ->
    exists b', for_each (map (fun f => (f, b0 f)) fs) w b = (Ok tt, b') /\ same_meta b b' /\
      forall f, b_arr b' f = if fmem f fs then g (b0 f) else b_arr b f.
  Proof.
    intros Hw. revert b. induction fs as [|f fs IH]; intros b Hnp Hnone; cbn.
    - exists b. split; [reflexivity|]. split; [apply same_meta_refl|]. reflexivity.
    - unfold bind. rewrite (Hw f (b0 f) b Hnp).
      set (b1 := match g (b0 f) with Some y => set_arr f (Some y) b | None => b end).
      assert (Hb1 : same_meta b b1) by (unfold b1; destruct (g (b0 f)); repeat split).
      assert (Ha1 : forall h, b_arr b1 h = if field_eqb h f then g (b0 f) else b_arr b h).
      { intros h. unfold b1. destruct (g (b0 f)) as [y|] eqn:Eg.
        - cbn. unfold upd. destruct (field_eqb f h) eqn:E.
          + apply field_eqb_spec in E. subst. rewrite field_eqb_refl. reflexivity.
          + destruct (field_eqb h f) eqn:E2; [|reflexivity]. apply field_eqb_spec in E2. subst.
            rewrite field_eqb_refl in E. discriminate.
        - destruct (field_eqb h f) eqn:E2; [|reflexivity]. apply field_eqb_spec in E2. subst.
          apply Hnone; [cbn; auto | exact Eg]. }
      destruct (IH b1) as (b' & E & Hm & Ha).
      { destruct Hb1 as (_ & -> & _). exact Hnp. }
      { intros h Hh Hg. rewrite Ha1. destruct (field_eqb h f) eqn:E2.
        - apply field_eqb_spec in E2. subst. exact Hg.
        - apply Hnone; [cbn; auto | exact Hg]. }
      exists b'. split; [exact E|]. split; [eapply same_meta_trans; eassumption|].
      intros h. rewrite Ha, Ha1. cbn. destruct (field_eqb h f) eqn:E2; cbn; [|reflexivity].
      apply field_eqb_spec in E2. subst. destruct (fmem f fs); reflexivity.
  Qed.

  Lemma cast_to_complex_spec b : b_np b <> None ->
    exists b', cast_to_complex b = (Ok tt, b') /\ same_meta b b' /\
      forall f, b_arr b' f = if fmem f conv_fields then option_map (astype Complex128) (view b f) else b_arr b f.
  Proof.
    intros Hnp. unfold cast_to_complex, conv_list.
    destruct (get_bra_spec b) as (b1 & E1 & M1 & B1 & R1).
    unfold bind at 1. unfold bind at 1. rewrite E1. unfold bind at 1. cbn [get_st ret].
    assert (Hv : forall f, b_arr b1 f = view b f).
    { intros f. destruct f; cbn [view]; try (apply R1; discriminate). exact B1. }
    destruct (for_writes conv_fields (b_arr b1)
      (fun fa => match snd fa with
         | None => ret tt
         | Some a => need_np ;; wr (fst fa) (Some (astype Complex128 a)) end)
      (option_map (astype Complex128)) b1) as (b' & E & M' & A).
    - intros f x b0 H0. cbn [fst snd]. destruct x as [a|]; [|reflexivity].
      unfold bind, need_np. destruct (b_np b0) as [m|] eqn:Em; [reflexivity | congruence].
    - destruct M1 as (_ & -> & _). exact Hnp.
    - intros f Hf. destruct (b_arr b1 f); [discriminate | reflexivity].
    - exists b'. split; [exact E|]. split; [eapply same_meta_trans; eassumption|].
      intros f. rewrite A. destruct (fmem f conv_fields) eqn:Ef; [rewrite Hv; reflexivity|].
      rewrite Hv. destruct f; cbn [view]; try reflexivity. discriminate Ef.
  Qed.

  Lemma change_module_base_spec m b :
    exists b', change_module_base m b = (Ok tt, b') /\ same_meta (set_np (Some m) b) b' /\
      forall f, b_arr b' f = view b f.
  Proof.
    unfold change_module_base, conv_list. unfold bind at 1, modify at 1.
    destruct (get_bra_spec (set_np (Some m) b)) as (b1 & E1 & M1 & B1 & R1).
    unfold bind at 1. unfold bind at 1. rewrite E1. unfold bind at 1. cbn [get_st ret].
    assert (Hv : forall f, b_arr b1 f = view b f).
    { intros f. destruct f; cbn [view]; try (apply R1; discriminate). exact B1. }
    assert (L : forall fs bb, (forall f, b_arr bb f = b_arr b1 f) -> exists b',
       for_each (map (fun f => (f, b_arr b1 f)) fs) (fun fa => wr (fst fa) (snd fa)) bb = (Ok tt, b') /\
       same_meta bb b' /\ forall f, b_arr b' f = b_arr b1 f).
    { induction fs as [|f fs IH]; intros bb Hbb; cbn.
      - exists bb. split; [reflexivity|]. split; [apply same_meta_refl | exact Hbb].
      - unfold bind, wr, modify. cbn [fst snd].
        destruct (IH (set_arr f (b_arr b1 f) bb)) as (b' & E & M' & A).
        { intros h. cbn. unfold upd. destruct (field_eqb f h) eqn:E; [|apply Hbb].
          apply field_eqb_spec in E. subst. reflexivity. }
        exists b'. split; [exact E|]. split; [|exact A]. eapply same_meta_trans; [|exact M']. repeat split. }
    destruct (L conv_fields b1 (fun _ => eq_refl)) as (b' & E & M' & A).
    exists b'. split; [exact E|]. split; [eapply same_meta_trans; eassumption|].
    intros f. rewrite A. apply Hv.
  Qed.

  Lemma change_module_spec m b :
    exists b', change_module m b = (Ok tt, b') /\ same_meta (set_np (Some m) b) b' /\
      (forall f, f <> F_bra -> b_arr b' f = b_arr b f) /\ bra_view b' = bra_view b.
  Proof.
    assert (H1 : exists b', change_module_base m b = (Ok tt, b') /\ same_meta (set_np (Some m) b) b' /\
      (forall f, f <> F_bra -> b_arr b' f = b_arr b f) /\ bra_view b' = bra_view b).
    { destruct (change_module_base_spec m b) as (b' & E & M' & A). exists b'.
      split; [exact E|]. split; [exact M'|]. split.
      - intros f Hf. rewrite A. destruct f; try reflexivity. congruence.
      - unfold bra_view at 1. rewrite !A. cbn [view]. unfold bra_view.
        destruct (b_arr b F_bra), (b_arr b F_spf); reflexivity. }
    unfold change_module. unfold bind. cbn [get_st]. destruct (b_cls b); [exact H1|].
    destruct (urepr_eqb (u_repr b) U2d); [|exact H1].
    exists (set_np (Some m) b). split; [reflexivity|]. split; [apply same_meta_refl|].
    split; [reflexivity|]. reflexivity.
  Qed.

  Lemma bra_view_conv b b' (g : arr -> arr) :
    (forall a, get (g a) = get a) -> (forall a, shape (g a) = shape a) ->
    b_arr b' F_bra = option_map g (bra_view b) -> b_arr b' F_spf = option_map g (b_arr b F_spf) ->
    opt_aeq (bra_view b') (bra_view b).
  Proof.
    intros G1 G2 E1 E2. unfold bra_view at 1. rewrite E1, E2. unfold bra_view.
    destruct (b_arr b F_bra) as [x|], (b_arr b F_spf) as [y|]; cbn; try exact I;
      (split; [cbn; try rewrite G2; reflexivity|]; intros idx _; rewrite G1; reflexivity).
  Qed.

  (** C66 *)
  Lemma cast_keeps_values b : b_np b <> None ->
    exists b', cast_to_complex b = (Ok tt, b') /\ same_values b' b /\
      forall f a, In f conv_fields -> b_arr b' f = Some a -> dt a = Complex128.
  Proof.
    intros Hnp. destruct (cast_to_complex_spec b Hnp) as (b' & E & (M1&M2&M3&M4&M5&M6&M7) & A).
    exists b'. split; [exact E|]. split.
    - constructor; try assumption.
      + intros f Hf. rewrite A. destruct (fmem f conv_fields); [|apply opt_aeq_refl].
        assert (V : view b f = b_arr b f) by (destruct f; try reflexivity; congruence).
        rewrite V. destruct (b_arr b f); cbn; [|exact I]. split; [reflexivity|]. reflexivity.
      + apply (bra_view_conv b b' (astype Complex128)); try reflexivity.
        * rewrite A. reflexivity.
        * rewrite A. reflexivity.
    - intros f a Hf Ha. rewrite A in Ha. apply fmem_spec in Hf. rewrite Hf in Ha.
      destruct (view b f); [|discriminate]. injection Ha as <-. reflexivity.
  Qed.
  Lemma module_keeps_values m b :
    exists b', change_module m b = (Ok tt, b') /\ b_np b' = Some m /\ same_values (set_np (b_np b) b') b.
  Proof.
    destruct (change_module_spec m b) as (b' & E & (M1&M2&M3&M4&M5&M6&M7) & A & V).
    exists b'. split; [exact E|]. split; [exact M2|]. constructor; try assumption; try reflexivity.
    - intros f Hf. cbn. rewrite A by exact Hf. apply opt_aeq_refl.
    - change (bra_view (set_np (b_np b) b')) with (bra_view b'). rewrite V. apply opt_aeq_refl.
  Qed.
End Conv.
