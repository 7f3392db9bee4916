(** C07: sizes along histories of successful operations. *)
From Coq Require Import List Arith ZArith Lia Bool.
From Verif Require Import Scalar Py Numpy NumpyFacts Spec TransformFacts BasisSet BasisSpec BasisFacts
  ChangeProofs ConvProofs SpinFacts Histories Frame.
Import ListNotations.

Section Sizes.
  Variable K : scalar.
  Notation arr := (arr K).
  Notation basis := (basis K).
  Implicit Types (b : basis) (C D : arr).

  Lemma check_axes_all (a : arr) l : check_axes a l = true -> axes_all l (shape a).
  Proof.
    unfold check_axes. intros H n Hn. rewrite forallb_forall in H. specialize (H n Hn).
    apply Nat.eqb_eq in H. congruence.
  Qed.
  Lemma bind_inv {A B} (m : M basis A) (f : A -> M basis B) b x b' :
    bind m f b = (Ok x, b') -> exists y b1, m b = (Ok y, b1) /\ f y b1 = (Ok x, b').
  Proof. unfold bind. destruct (m b) as [[y|e] b1]; [|discriminate]. eauto. Qed.

  (** Programs that keep l, dim and every correct size except possibly bra's. *)
  Definition mono {A} (m : M basis A) : Prop := forall b x b', m b = (Ok x, b') ->
    b_l b' = b_l b /\ b_dim b' = b_dim b /\ forall f, f <> F_bra -> size_ok b f -> size_ok b' f.
  Definition estab {A} (f : field) (m : M basis A) : Prop := forall b x b', m b = (Ok x, b') -> size_ok b' f.

  Lemma mono_same {A} (m : M basis A) : (forall b, snd (m b) = b) -> mono m.
  Proof. intros H b x b' E. specialize (H b). rewrite E in H. cbn in H. subst. auto. Qed.
  Lemma mono_bind {A B} (m : M basis A) (f : A -> M basis B) : mono m -> (forall a, mono (f a)) -> mono (bind m f).
  Proof.
    intros Hm Hf b x b' E. destruct (bind_inv _ _ _ _ _ E) as (y & b1 & E1 & E2).
    destruct (Hm _ _ _ E1) as (L1 & D1 & S1). destruct (Hf _ _ _ _ E2) as (L2 & D2 & S2).
    split; [congruence|]. split; [congruence|]. auto.
  Qed.
  Lemma estab_bind_r {A B} f (m : M basis A) (k : A -> M basis B) : (forall a, estab f (k a)) -> estab f (bind m k).
  Proof. intros H b x b' E. destruct (bind_inv _ _ _ _ _ E) as (y & b1 & E1 & E2). eapply H; eassumption. Qed.
  Lemma estab_bind_l {A B} f (m : M basis A) (k : A -> M basis B) : f <> F_bra ->
    estab f m -> (forall a, mono (k a)) -> estab f (bind m k).
  Proof.
    intros Hf Hm Hk b x b' E. destruct (bind_inv _ _ _ _ _ E) as (y & b1 & E1 & E2).
    destruct (Hk _ _ _ _ E2) as (_ & _ & S). apply S; [exact Hf|]. eapply Hm; eassumption.
  Qed.
  Lemma mono_for {A} (xs : list A) (body : A -> M basis unit) : (forall x, mono (body x)) -> mono (for_each xs body).
  Proof. intros H. induction xs; cbn; [apply mono_same; reflexivity | apply mono_bind; auto]. Qed.

  Lemma size_other b f g x : f <> g -> size_ok b g -> size_ok (set_arr f x b) g.
  Proof. intros H. unfold size_ok. cbn. rewrite upd_other by exact H. auto. Qed.
  Lemma size_written b f a : size_ok (set_arr f (Some a) b) f <->
    match f with
    | F_h | F_s | F_u | F_spx | F_spy | F_spz | F_sp2 | F_sp2tb => axes_all (b_l b) (shape a)
    | F_dip => exists sh, shape a = b_dim b :: sh /\ (0 < b_dim b -> axes_all (b_l b) sh)
    | F_spf | F_bra => exists g, shape a = b_l b :: g /\ length g = b_dim b
    | _ => True
    end.
  Proof. unfold size_ok. cbn. rewrite upd_same. destruct f; reflexivity. Qed.
  (** Writing a correctly sized array. *)
  Lemma written_ok f a b b' : b' = set_arr f (Some a) b -> size_ok b' f ->
    b_l b' = b_l b /\ b_dim b' = b_dim b /\ size_ok b' f /\ forall g, size_ok b g -> size_ok b' g.
  Proof.
    intros -> H. repeat split; auto. intros g Hg. destruct (field_eqb f g) eqn:E.
    - apply field_eqb_spec in E. subst. exact H.
    - apply size_other; [|exact Hg]. intros ->. rewrite field_eqb_refl in E. discriminate.
  Qed.

  Definition sq_field (f : field) : bool :=
    match f with F_h | F_s | F_u | F_spx | F_spy | F_spz | F_sp2 | F_sp2tb => true | _ => false end.
  Lemma set_sq_inv f a b x b' : set_sq f a b = (Ok x, b') ->
    b' = set_arr f (Some a) b /\ check_axes a (b_l b) = true.
  Proof.
    unfold set_sq. unfold bind, get_st, py_assert. destruct (check_axes a (b_l b)); [|discriminate].
    cbn. intros E. injection E as _ <-. auto.
  Qed.
  Lemma set_spin_op_inv f a b x b' : set_spin_op f a b = (Ok x, b') ->
    b' = set_arr f (Some a) b /\ check_axes a (b_l b) = true /\ b_spin b = true.
  Proof.
    unfold set_spin_op. unfold bind, get_st, py_assert. destruct (b_spin b); [|discriminate].
    destruct (check_axes a (b_l b)); [|discriminate]. cbn. intros E. injection E as _ <-. auto.
  Qed.
  Lemma asserts_only {A} (xs : list A) (body : A -> M basis unit) b x b' : (forall y b, snd (body y b) = b) ->
    for_each xs body b = (Ok x, b') -> b' = b /\ forall y, In y xs -> exists z, body y b = (Ok z, b).
  Proof.
    intros H. revert x. induction xs as [|y ys IH]; intros x E; cbn in E.
    - injection E as _ <-. split; [reflexivity | intros y []].
    - destruct (bind_inv _ _ _ _ _ E) as (z & b1 & E1 & E2).
      pose proof (H y b) as Hy. rewrite E1 in Hy. cbn in Hy. subst b1.
      destruct (IH _ E2) as [-> IH']. split; [reflexivity|]. intros w [<-|Hw]; [eauto | auto].
  Qed.
  Lemma set_dipole_inv a b x b' : set_dipole a b = (Ok x, b') ->
    b' = set_arr F_dip (Some a) b /\ exists sh, shape a = b_dim b :: sh /\ (0 < b_dim b -> axes_all (b_l b) sh).
  Proof.
    unfold set_dipole. intros E. destruct (bind_inv _ _ _ _ _ E) as (y & b1 & E1 & E2). clear E.
    injection E1 as <- <-. destruct (bind_inv _ _ _ _ _ E2) as (n & b1 & E1 & E). clear E2.
    unfold lift, alen in E1. destruct (shape a) as [|n' sh] eqn:Ea; [discriminate|]. injection E1 as <- <-.
    destruct (bind_inv _ _ _ _ _ E) as (z & b1 & E1 & E2). clear E. unfold py_assert in E1.
    destruct (n' =? b_dim b) eqn:En; [|discriminate]. apply Nat.eqb_eq in En. subst n'. injection E1 as _ <-.
    destruct (bind_inv _ _ _ _ _ E2) as (w & b1 & E1 & E). clear E2.
    pose proof (fun H => asserts_only _ _ _ _ _ H E1) as G. destruct G as [-> H].
    { intros y b0; unfold bind, lift; destruct (row a y) as [a0|]; [unfold py_assert; destruct (check_axes a0 (b_l b))|]; reflexivity. }
    injection E as _ <-. split; [reflexivity|]. exists sh. split; [reflexivity|]. intros Hd.
    destruct (H 0) as (v & Hv); [apply in_seq; lia|]. unfold bind, lift, row in Hv. rewrite Ea in Hv.
    destruct (Nat.ltb_spec 0 (b_dim b)); [|lia]. unfold py_assert in Hv.
    destruct (check_axes (K:=K) _ (b_l b)) eqn:Ec in Hv; [|discriminate]. apply check_axes_all in Ec. exact Ec.
  Qed.
  Lemma set_orbitals_inv f y b x b' : set_orbitals f y b = (Ok x, b') ->
    b' = set_arr f y b /\ forall a, y = Some a -> exists g, shape a = b_l b :: g /\ length g = b_dim b.
  Proof.
    unfold set_orbitals. destruct y as [a|].
    - unfold bind, get_st, lift, shape_at. destruct (shape a) as [|n g] eqn:Ea; [discriminate|]. cbn.
      unfold py_assert. destruct (n =? b_l b) eqn:En; [|discriminate]. cbn.
      destruct (length g =? b_dim b) eqn:Eg; [|discriminate]. cbn. intros E. injection E as _ <-.
      split; [reflexivity|]. intros a' Ha. injection Ha as <-. exists g. apply Nat.eqb_eq in En, Eg. subst n. auto.
    - cbn. intros E. injection E as _ <-. split; [reflexivity | discriminate].
  Qed.

  Lemma mono_set_sq f a : sq_field f = true -> mono (set_sq f a).
  Proof.
    intros Hf b x b' E. destruct (set_sq_inv _ _ _ _ _ E) as [-> H]. apply check_axes_all in H.
    destruct (written_ok f a b _ eq_refl) as (L & D & _ & S); [apply size_written; destruct f; try discriminate; exact H|].
    auto.
  Qed.
  Lemma estab_set_sq f a : sq_field f = true -> estab f (set_sq f a).
  Proof.
    intros Hf b x b' E. destruct (set_sq_inv _ _ _ _ _ E) as [-> H]. apply check_axes_all in H.
    apply size_written. destruct f; try discriminate; exact H.
  Qed.
  Lemma mono_set_spin_op f a : sq_field f = true -> mono (set_spin_op f a).
  Proof.
    intros Hf b x b' E. destruct (set_spin_op_inv _ _ _ _ _ E) as (-> & H & _). apply check_axes_all in H.
    destruct (written_ok f a b _ eq_refl) as (L & D & _ & S); [apply size_written; destruct f; try discriminate; exact H|].
    auto.
  Qed.
  Lemma estab_set_spin_op f a : sq_field f = true -> estab f (set_spin_op f a).
  Proof.
    intros Hf b x b' E. destruct (set_spin_op_inv _ _ _ _ _ E) as (-> & H & _). apply check_axes_all in H.
    apply size_written. destruct f; try discriminate; exact H.
  Qed.
  Lemma mono_set_dipole a : mono (set_dipole a).
  Proof.
    intros b x b' E. destruct (set_dipole_inv _ _ _ _ E) as (-> & H).
    destruct (written_ok F_dip a b _ eq_refl) as (L & D & _ & S); [apply size_written; exact H|]. auto.
  Qed.
  Lemma estab_set_dipole a : estab F_dip (set_dipole a).
  Proof. intros b x b' E. destruct (set_dipole_inv _ _ _ _ E) as (-> & H). apply size_written. exact H. Qed.
  Lemma size_none b f : size_ok (set_arr f None b) f.
  Proof. unfold size_ok. cbn. rewrite upd_same. exact I. Qed.
  Lemma mono_set_orbitals f y : f = F_spf \/ f = F_bra -> mono (set_orbitals f y).
  Proof.
    intros Hf b x b' E. destruct (set_orbitals_inv _ _ _ _ _ E) as (-> & H). repeat split.
    intros g Hg Sg. destruct (field_eqb f g) eqn:Eg.
    - apply field_eqb_spec in Eg. subst g. destruct y as [a|]; [|apply size_none].
      apply size_written. destruct Hf as [-> | ->]; apply H; reflexivity.
    - apply size_other; [|exact Sg]. intros ->. rewrite field_eqb_refl in Eg. discriminate.
  Qed.
  Lemma estab_set_orbitals f y : f = F_spf \/ f = F_bra -> estab f (set_orbitals f y).
  Proof.
    intros Hf b x b' E. destruct (set_orbitals_inv _ _ _ _ _ E) as (-> & H).
    destruct y as [a|]; [|apply size_none]. apply size_written. destruct Hf as [-> | ->]; apply H; reflexivity.
  Qed.
  Lemma mono_wr_plain f x : (match f with F_grid | F_sigx | F_sigy | F_sigz | F_a | F_b => true | _ => false end) = true ->
    mono (wr f x).
  Proof.
    intros Hf b y b' E. injection E as _ <-. repeat split. intros g Hg Sg. destruct (field_eqb f g) eqn:Eg.
    - apply field_eqb_spec in Eg. subst g. unfold size_ok. cbn. rewrite upd_same. destruct x; [|exact I].
      destruct f; try discriminate; exact I.
    - apply size_other; [|exact Sg]. intros ->. rewrite field_eqb_refl in Eg. discriminate.
  Qed.
  Lemma mono_get_bra : mono get_bra.
  Proof.
    intros b x b' E. destruct (get_bra_spec K b) as (b1 & E1 & (_&_&L&D&_) & _ & S). rewrite E in E1.
    injection E1 as _ <-. repeat split; auto. intros f Hf. unfold size_ok. rewrite S, L, D by exact Hf. auto.
  Qed.
  Lemma mono_lift {A} (x : res A) : mono (lift x).
  Proof. apply mono_same. reflexivity. Qed.
  Lemma mono_ret {A} (x : A) : mono (ret x).
  Proof. apply mono_same. reflexivity. Qed.
  Lemma mono_raise {A} e : mono (@raise _ A e).
  Proof. apply mono_same. reflexivity. Qed.
  Lemma mono_get : mono get_st.
  Proof. apply mono_same. reflexivity. Qed.
  Lemma mono_rd f : mono (rd f).
  Proof. apply mono_same. reflexivity. Qed.
  Lemma mono_need e x : mono (need e x).
  Proof. destruct x; apply mono_same; reflexivity. Qed.
  Lemma mono_need_np : mono need_np.
  Proof. apply mono_same. intros b. unfold need_np. destruct (b_np b); reflexivity. Qed.
  Lemma mono_assert c : mono (py_assert c).
  Proof. apply mono_same. intros b. destruct c; reflexivity. Qed.
  Lemma mono_when c m : mono m -> mono (when c m).
  Proof. intros H. destruct c; [exact H | apply mono_ret]. Qed.
  Lemma mono_match {A} (x : option arr) (f : arr -> M basis A) (g : M basis A) :
    (forall a, mono (f a)) -> mono g -> mono (match x with Some a => f a | None => g end).
  Proof. destruct x; auto. Qed.
  Lemma mono_meta (g : basis -> basis) :
    (forall b, b_l (g b) = b_l b /\ b_dim (g b) = b_dim b /\ b_arr (g b) = b_arr b) -> mono (modify g).
  Proof.
    intros H b x b' E. injection E as _ <-. destruct (H b) as (L & D & S). repeat split; auto.
    intros f _. unfold size_ok. rewrite S, L, D. auto.
  Qed.
  Lemma mono_cast : mono cast_to_complex.
  Proof.
    intros b x b' E. destruct (b_np b) eqn:Enp.
    - destruct (cast_to_complex_spec K b ltac:(congruence)) as (b1 & E1 & (_&_&L&D&_) & A). rewrite E in E1.
      injection E1 as _ <-. repeat split; auto. intros f Hf. unfold size_ok. rewrite A, L, D.
      assert (V : view K b f = b_arr b f) by (destruct f; try reflexivity; congruence). rewrite V.
      destruct (fmem f conv_fields); [|auto]. destruct (b_arr b f); cbn; auto.
    - assert (G : forall xs b, b_np b = None -> snd (for_each xs (fun fa => match snd fa with
        | None => ret tt | Some a => need_np ;; wr (K:=K) (fst fa) (Some (astype Complex128 a)) end) b) = b).
      { induction xs as [|[f [a|]] xs IH]; intros b0 H0; cbn; [reflexivity| |].
        - unfold bind, need_np. rewrite H0. reflexivity.
        - apply IH. exact H0. }
      unfold cast_to_complex in E. destruct (bind_inv _ _ _ _ _ E) as (xs & b1 & E1 & E2).
      assert (M1 : mono conv_list).
      { unfold conv_list. apply mono_bind; [apply mono_get_bra|]. intros. apply mono_bind; [apply mono_get|].
        intros. apply mono_ret. }
      assert (N1 : b_np b1 = None).
      { unfold conv_list in E1. destruct (bind_inv _ _ _ _ _ E1) as (y & b2 & E3 & E4).
        destruct (get_bra_spec K b) as (b3 & E5 & (_&N&_) & _). rewrite E3 in E5. injection E5 as _ <-.
        injection E4 as _ <-. congruence. }
      pose proof (G xs b1 N1) as Hb. rewrite E2 in Hb. cbn in Hb. subst b1. exact (M1 _ _ _ E1).
  Qed.
  Lemma mono_module m : mono (change_module m).
  Proof.
    intros b x b' E. destruct (change_module_spec K m b) as (b1 & E1 & (_&_&L&D&_) & A & _). rewrite E in E1.
    injection E1 as _ <-. repeat split; auto. intros f Hf. unfold size_ok. rewrite (A f Hf), L, D. auto.
  Qed.
  Lemma mono_antisym : mono anti_symmetrize_two_body.
  Proof.
    unfold anti_symmetrize_two_body. apply mono_bind; [apply mono_get|]. intros b.
    destruct (b_asym b); [apply mono_ret|].
    apply mono_bind; [apply mono_need|]. intros u. apply mono_bind; [apply mono_lift|]. intros u'.
    apply mono_bind; [apply mono_set_sq; reflexivity|]. intros _. apply mono_bind; [apply mono_rd|]. intros t.
    apply mono_bind.
    - apply mono_match; [|apply mono_ret]. intros a. apply mono_bind; [apply mono_lift|]. intros.
      apply mono_set_spin_op. reflexivity.
    - intros _. apply mono_meta. intros. repeat split.
  Qed.
  Lemma mono_one_body C D : mono (change_basis_one_body C D).
  Proof.
    unfold change_basis_one_body. apply mono_bind; [apply mono_need_np|]. intros _.
    apply mono_bind; [apply mono_rd|]. intros h. apply mono_bind; [apply mono_need|]. intros h'.
    apply mono_bind; [apply mono_lift|]. intros h''. apply mono_bind; [apply mono_set_sq; reflexivity|]. intros _.
    apply mono_bind; [apply mono_rd|]. intros s. apply mono_bind.
    - apply mono_match; [|apply mono_ret]. intros a. apply mono_bind; [apply mono_lift|]. intros.
      apply mono_set_sq. reflexivity.
    - intros _. apply mono_bind; [apply mono_get|]. intros b. apply mono_for. intros x.
      apply mono_match; [|apply mono_ret]. intros a. apply mono_bind; [apply mono_lift|]. intros. apply mono_ret.
  Qed.
  Lemma mono_two_body C D : mono (change_basis_two_body C D).
  Proof.
    unfold change_basis_two_body. apply mono_bind; [apply mono_need_np|]. intros _.
    apply mono_bind; [apply mono_rd|]. intros h. apply mono_bind; [apply mono_need|]. intros h'.
    apply mono_bind; [apply mono_get|]. intros b. apply mono_bind; [apply mono_lift|]. intros u'.
    apply mono_bind; [apply mono_set_sq; reflexivity|]. intros _. apply mono_bind; [apply mono_rd|]. intros t.
    apply mono_match; [|apply mono_ret]. intros a. apply mono_bind; [apply mono_get|]. intros b'.
    apply mono_bind; [apply mono_lift|]. intros. apply mono_set_spin_op. reflexivity.
  Qed.
  Lemma mono_dipole d C D : mono (change_basis_dipole d C D).
  Proof.
    unfold change_basis_dipole. apply mono_bind; [apply mono_lift|]. intros n.
    apply mono_bind; [apply mono_lift|]. intros xs. apply mono_bind; [apply mono_need_np|]. intros _.
    apply mono_bind; [apply mono_lift|]. intros. apply mono_set_dipole.
  Qed.
  Lemma mono_spf C D : mono (change_basis_spf C D).
  Proof.
    unfold change_basis_spf. apply mono_bind; [apply mono_get_bra|]. intros bra.
    apply mono_bind; [apply mono_need_np|]. intros _. apply mono_bind; [apply mono_need|]. intros bra'.
    apply mono_bind; [apply mono_lift|]. intros b'. apply mono_bind; [apply mono_set_orbitals; auto|]. intros _.
    apply mono_bind; [apply mono_rd|]. intros spf. apply mono_bind; [apply mono_need|]. intros spf'.
    apply mono_bind; [apply mono_lift|]. intros. apply mono_set_orbitals. auto.
  Qed.

  (** estab when the field is rewritten only if set *)
  Lemma estab_rd {A} f (k : option arr -> M basis A) :
    (forall a, estab f (k (Some a))) -> mono (k None) -> f <> F_bra -> estab f (let* x := rd f in k x).
  Proof.
    intros H1 H2 Hf b x b' E. destruct (bind_inv _ _ _ _ _ E) as (y & b1 & E1 & E2). injection E1 as <- <-.
    destruct (b_arr b f) as [a|] eqn:Ea; [eapply H1; eassumption|].
    destruct (H2 _ _ _ E2) as (_ & _ & S). apply S; [exact Hf|]. unfold size_ok. rewrite Ea. exact I.
  Qed.

  Lemma change_basis_sizes C Ct b x b' : change_basis C Ct b = (Ok x, b') ->
    forall f, In f [F_h; F_s; F_u; F_dip; F_spf; F_sp2tb] -> size_ok b' f.
  Proof.
    set (D := default_tilde C Ct).
    assert (Md : mono (let* d := rd F_dip in
      (match d with None => ret tt | Some d => change_basis_dipole d C D end) ;;
      let* spf := rd F_spf in (match spf with None => ret tt | Some _ => change_basis_spf C D end))).
    { apply mono_bind; [apply mono_rd|]. intros d. apply mono_bind; [destruct d; [apply mono_dipole | apply mono_ret]|].
      intros _. apply mono_bind; [apply mono_rd|]. intros spf. destruct spf; [apply mono_spf | apply mono_ret]. }
    assert (Mu : mono (change_basis_two_body C D ;; let* d := rd F_dip in
      (match d with None => ret tt | Some d => change_basis_dipole d C D end) ;;
      let* spf := rd F_spf in (match spf with None => ret tt | Some _ => change_basis_spf C D end)))
      by (apply mono_bind; [apply mono_two_body | intros _; exact Md]).
    intros E f Hf. revert b x b' E. change (estab f (change_basis C Ct)).
    unfold change_basis. fold D. apply estab_bind_r. intros l'. apply estab_bind_r. intros _. cbv zeta. fold D.
    cbn in Hf. destruct_or Hf; subst f.
    - apply estab_bind_l; [discriminate| |intros _; exact Mu]. unfold change_basis_one_body.
      apply estab_bind_r. intros _. apply estab_bind_r. intros h. apply estab_bind_r. intros h'.
      apply estab_bind_r. intros h''. apply estab_bind_l; [discriminate | apply estab_set_sq; reflexivity|]. intros _.
      apply mono_bind; [apply mono_rd|]. intros s. apply mono_bind.
      + destruct s; [|apply mono_ret]. apply mono_bind; [apply mono_lift|]. intros. apply mono_set_sq. reflexivity.
      + intros _. apply mono_bind; [apply mono_get|]. intros b. apply mono_for. intros x.
        apply mono_match; [|apply mono_ret]. intros a. apply mono_bind; [apply mono_lift|]. intros. apply mono_ret.
    - apply estab_bind_l; [discriminate| |intros _; exact Mu]. unfold change_basis_one_body.
      apply estab_bind_r. intros _. apply estab_bind_r. intros h. apply estab_bind_r. intros h'.
      apply estab_bind_r. intros h''. apply estab_bind_r. intros _.
      assert (Ml : forall (u : unit), mono (let* b := get_st in
        for_each [b_arr b F_spx; b_arr b F_spy; b_arr b F_spz; b_arr b F_sp2]
          (fun spin => match spin with None => ret tt
             | Some x => let* _ := lift (transform_one_body x C (Some D)) in ret tt end))).
      { intros _. apply mono_bind; [apply mono_get|]. intros b. apply mono_for. intros x.
        apply mono_match; [|apply mono_ret]. intros a. apply mono_bind; [apply mono_lift|]. intros. apply mono_ret. }
      apply estab_rd; [| |discriminate].
      + intros a. apply estab_bind_l; [discriminate| |exact Ml]. apply estab_bind_r. intros. apply estab_set_sq. reflexivity.
      + apply mono_bind; [apply mono_ret | exact Ml].
    - apply estab_bind_r. intros _. apply estab_bind_l; [discriminate| |intros _; exact Md].
      unfold change_basis_two_body. apply estab_bind_r. intros _. apply estab_bind_r. intros u.
      apply estab_bind_r. intros u'. apply estab_bind_r. intros b. apply estab_bind_r. intros u''.
      apply estab_bind_l; [discriminate | apply estab_set_sq; reflexivity|]. intros _.
      apply mono_bind; [apply mono_rd|]. intros t.
      apply mono_match; [|apply mono_ret]. intros a. apply mono_bind; [apply mono_get|]. intros b'.
      apply mono_bind; [apply mono_lift|]. intros. apply mono_set_spin_op. reflexivity.
    - apply estab_bind_r. intros _. apply estab_bind_r. intros _.
      assert (Ms : forall (u : unit), mono (let* spf := rd F_spf in
        (match spf with None => ret tt | Some _ => change_basis_spf C D end))).
      { intros _. apply mono_bind; [apply mono_rd|]. intros spf. destruct spf; [apply mono_spf | apply mono_ret]. }
      apply estab_rd; [| |discriminate].
      + intros d. apply estab_bind_l; [discriminate| |exact Ms]. unfold change_basis_dipole.
        apply estab_bind_r. intros n. apply estab_bind_r. intros xs. apply estab_bind_r. intros _.
        apply estab_bind_r. intros d'. apply estab_set_dipole.
      + apply mono_bind; [apply mono_ret | exact Ms].
    - apply estab_bind_r. intros _. apply estab_bind_r. intros _. apply estab_bind_r. intros d.
      apply estab_bind_r. intros _. apply estab_rd; [| |discriminate]; [|apply mono_ret].
      intros a. unfold change_basis_spf. do 8 (apply estab_bind_r; intros ?). apply estab_set_orbitals. auto.
    - apply estab_bind_r. intros _. apply estab_bind_l; [discriminate| |intros _; exact Md].
      unfold change_basis_two_body. apply estab_bind_r. intros _. apply estab_bind_r. intros u.
      apply estab_bind_r. intros u'. apply estab_bind_r. intros b. apply estab_bind_r. intros u''.
      apply estab_bind_r. intros _. apply estab_rd; [| |discriminate]; [|apply mono_ret].
      intros a. apply estab_bind_r. intros b'. apply estab_bind_r. intros t'. apply estab_set_spin_op. reflexivity.
  Qed.

  (** Spin doubling *)
  Lemma mono_sigma f a : (match f with F_sigx | F_sigy | F_sigz => true | _ => false end) = true -> mono (set_sigma f a).
  Proof.
    intros Hf. unfold set_sigma. apply mono_bind; [apply mono_get|]. intros b. apply mono_bind; [apply mono_assert|].
    intros _. apply mono_wr_plain. destruct f; try discriminate; reflexivity.
  Qed.
  Lemma mono_spin_ops s va vb : mono (setup_spin_ops (K:=K) s va vb).
  Proof.
    unfold setup_spin_ops. cbv zeta.
    do 2 (apply mono_bind; [apply mono_wr_plain; reflexivity|]; intros _).
    do 3 (apply mono_bind; [unfold check_ip; apply mono_bind; [apply mono_lift|]; intros; apply mono_assert|]; intros _).
    apply mono_bind; [apply mono_lift|]. intros [[gx gy] gz].
    do 3 (apply mono_bind; [apply mono_sigma; reflexivity|]; intros _).
    do 3 (apply mono_bind; [apply mono_set_spin_op; reflexivity|]; intros _).
    apply mono_bind; [apply mono_get|]. intros b.
    do 4 (apply mono_bind; [apply mono_need|]; intros ?).
    apply mono_bind; [apply mono_lift|]. intros s2.
    apply mono_bind; [apply mono_set_spin_op; reflexivity|]. intros _. apply mono_set_spin_op. reflexivity.
  Qed.

  Lemma mono_double_h h : mono (double_h h).
  Proof. unfold double_h. apply mono_bind; [apply mono_need|]. intros. apply mono_set_sq. reflexivity. Qed.
  Lemma mono_double_s : mono double_s.
  Proof.
    unfold double_s. apply mono_bind; [apply mono_rd|]. intros. apply mono_bind; [apply mono_need|]. intros.
    apply mono_set_sq. reflexivity.
  Qed.
  Lemma mono_double_u c : mono (double_u c).
  Proof.
    unfold double_u. apply mono_bind; [apply mono_rd|]. intros. apply mono_bind; [apply mono_need|]. intros.
    apply mono_bind; [apply mono_lift|]. intros. apply mono_set_sq. reflexivity.
  Qed.
  Lemma mono_double_spin s va vb : mono (double_spin s va vb).
  Proof. unfold double_spin. apply mono_bind; [apply mono_get|]. intros. apply mono_when, mono_spin_ops. Qed.
  Lemma mono_double_dip : mono double_dip.
  Proof.
    unfold double_dip. apply mono_bind; [apply mono_rd|]. intros d. apply mono_match; [|apply mono_ret]. intros.
    do 3 (apply mono_bind; [apply mono_lift|]; intros ?). apply mono_set_dipole.
  Qed.
  Lemma mono_double_orb : mono double_orb.
  Proof.
    unfold double_orb. apply mono_bind; [apply mono_rd|]. intros d. apply mono_match; [|apply mono_ret]. intros.
    apply mono_bind; [apply mono_lift|]. intros.
    apply mono_bind; [apply mono_set_orbitals; auto|]. intros _. apply mono_bind; [apply mono_rd|]. intros bra.
    apply mono_match; [|apply mono_ret]. intros c. apply mono_bind; [apply mono_lift|]. intros.
    apply mono_set_orbitals. auto.
  Qed.
  Lemma mono_cast_tail : mono (cast_to_complex ;; ret (S:=basis) true).
  Proof. apply mono_bind; [apply mono_cast | intros _; apply mono_ret]. Qed.
  Ltac mono_double := repeat first
    [ apply mono_double_h | apply mono_double_s | apply mono_double_u | apply mono_double_spin | apply mono_double_dip
    | apply mono_double_orb | apply mono_cast | apply mono_ret | apply mono_when, mono_antisym | apply mono_need | apply mono_need_np
    | apply mono_bind; [|intros ?] ].
  Lemma mono_double_rest va vb anti bs : mono (double_rest va vb anti bs).
  Proof. unfold double_rest. mono_double. Qed.
  Lemma estab_double_rest va vb anti bs f : In f [F_h; F_s; F_u; F_dip; F_spf] -> estab f (double_rest va vb anti bs).
  Proof.
    intros Hf. unfold double_rest. apply estab_bind_r. intros ov. apply estab_bind_r. intros _.
    cbn in Hf. destruct_or Hf; subst f.
    - apply estab_bind_l; [discriminate| |intros _; mono_double]. unfold double_h. apply estab_bind_r. intros.
      apply estab_set_sq. reflexivity.
    - apply estab_bind_r. intros _. apply estab_bind_l; [discriminate| |intros _; mono_double]. unfold double_s.
      do 2 (apply estab_bind_r; intros ?). apply estab_set_sq. reflexivity.
    - do 2 (apply estab_bind_r; intros ?). apply estab_bind_l; [discriminate| |intros _; mono_double]. unfold double_u.
      do 3 (apply estab_bind_r; intros ?). apply estab_set_sq. reflexivity.
    - do 5 (apply estab_bind_r; intros ?). apply estab_bind_l; [discriminate| |intros _; mono_double]. unfold double_dip.
      apply estab_rd; [|apply mono_ret|discriminate]. intros d. do 3 (apply estab_bind_r; intros ?). apply estab_set_dipole.
    - do 6 (apply estab_bind_r; intros ?). apply estab_bind_l; [discriminate| |intros _; mono_double]. unfold double_orb.
      apply estab_rd; [|apply mono_ret|discriminate]. intros a'. apply estab_bind_r. intros ?.
      apply estab_bind_l; [discriminate | apply estab_set_orbitals; auto|]. intros _.
      apply mono_bind; [apply mono_rd|]. intros bra.
      apply mono_match; [|apply mono_ret]. intros c. apply mono_bind; [apply mono_lift|]. intros.
      apply mono_set_orbitals. auto.
  Qed.

  (** The bra orbitals *)
  Definition monob {A} (m : M basis A) : Prop := forall b x b', m b = (Ok x, b') ->
    size_ok b F_spf -> size_ok b F_bra -> size_ok b' F_bra.
  Lemma monob_bind {A B} (m : M basis A) (k : A -> M basis B) : mono m -> monob m -> (forall a, monob (k a)) -> monob (bind m k).
  Proof.
    intros Mm Hm Hk b x b' E S1 S2. destruct (bind_inv _ _ _ _ _ E) as (y & b1 & E1 & E2).
    destruct (Mm _ _ _ E1) as (_ & _ & S). eapply Hk; [exact E2 | apply S; [discriminate | exact S1] | eapply Hm; eassumption].
  Qed.
  Lemma monob_frame {A} fs (m : M basis A) : frame K fs m -> ~ In F_bra fs -> monob m.
  Proof.
    intros Hf Hn b x b' E _ S. destruct (Hf b) as (_&_&A3&A4&_&_&_&A8). rewrite E in A3, A4, A8. cbn in A3, A4, A8.
    unfold size_ok. rewrite A8, A3, A4 by exact Hn. exact S.
  Qed.
  Lemma size_bra_view b b' : b_l b' = b_l b -> b_dim b' = b_dim b -> b_arr b' F_bra = bra_view b ->
    size_ok b F_spf -> size_ok b F_bra -> size_ok b' F_bra.
  Proof.
    intros L D V S1 S2. unfold size_ok. rewrite V, L, D. unfold bra_view. unfold size_ok in S1, S2.
    destruct (b_arr b F_bra); [exact S2|]. destruct (b_arr b F_spf); [exact S1 | exact I].
  Qed.
  Lemma monob_get_bra : monob get_bra.
  Proof.
    intros b x b' E S1 S2. destruct (get_bra_spec K b) as (b1 & E1 & (_&_&L&D&_) & V & _). rewrite E in E1. injection E1 as _ <-.
    eapply size_bra_view; eassumption.
  Qed.
  Lemma monob_cast : monob cast_to_complex.
  Proof.
    intros b x b' E S1 S2. destruct (b_np b) eqn:En.
    - destruct (cast_to_complex_spec K b ltac:(congruence)) as (b1 & E1 & (_&_&L&D&_) & A). rewrite E in E1.
      injection E1 as _ <-. unfold size_ok. rewrite A, L, D. cbn. unfold bra_view. unfold size_ok in S1, S2.
      destruct (b_arr b F_bra); cbn; [exact S2|]. destruct (b_arr b F_spf); cbn; [exact S1 | exact I].
    - unfold cast_to_complex in E. destruct (bind_inv _ _ _ _ _ E) as (xs & b1 & E1 & E2).
      unfold conv_list in E1. destruct (bind_inv _ _ _ _ _ E1) as (y & b2 & E3 & E4). injection E4 as Exs <-.
      destruct (get_bra_spec K b) as (b3 & E5 & (_&N&L&D&_) & V & _). rewrite E3 in E5. injection E5 as _ <-.
      assert (G : forall xs b, b_np b = None -> snd (for_each xs (fun fa => match snd fa with
        | None => ret tt | Some a => need_np ;; wr (K:=K) (fst fa) (Some (astype Complex128 a)) end) b) = b).
      { induction xs0 as [|[f [a|]] xs0 IH]; intros b0 H0; cbn; [reflexivity| |].
        - unfold bind, need_np. rewrite H0. reflexivity.
        - apply IH. exact H0. }
      pose proof (G xs b2 ltac:(congruence)) as Hb. rewrite E2 in Hb. cbn in Hb. subst b'.
      eapply size_bra_view; eassumption.
  Qed.
  Lemma estabb_double_orb b x b' : (b_arr b F_bra <> None -> b_arr b F_spf <> None) ->
    double_orb b = (Ok x, b') -> size_ok b' F_bra.
  Proof.
    intros H E. unfold double_orb in E. destruct (bind_inv _ _ _ _ _ E) as (spf & b1 & E1 & E2). injection E1 as <- <-.
    destruct (b_arr b F_spf) as [spf|] eqn:Es.
    - destruct (bind_inv _ _ _ _ _ E2) as (spf' & b1 & E1 & E3). unfold lift in E1. injection E1 as _ <-.
      destruct (bind_inv _ _ _ _ _ E3) as (y & b1 & E1 & E4). destruct (set_orbitals_inv _ _ _ _ _ E1) as (-> & _).
      destruct (bind_inv _ _ _ _ _ E4) as (bra & b1 & E5 & E6). injection E5 as <- <-. cbn [b_arr set_arr] in E6.
      rewrite upd_other in E6 by discriminate.
      destruct (b_arr b F_bra) as [bra|] eqn:Eb.
      + destruct (bind_inv _ _ _ _ _ E6) as (bra' & b1 & E5 & E7). unfold lift in E5. injection E5 as _ <-.
        apply (estab_set_orbitals F_bra _ (or_intror eq_refl) _ _ _ E7).
      + injection E6 as _ <-. unfold size_ok. cbn. rewrite Eb. exact I.
    - injection E2 as _ <-. unfold size_ok. destruct (b_arr b F_bra); [exfalso; apply H; congruence | exact I].
  Qed.
  Definition bra_with_spf b : Prop := b_arr b F_bra <> None -> b_arr b F_spf <> None.
  Lemma keeps_bra_frame {A} fs (m : M basis A) : frame K fs m -> ~ In F_bra fs -> ~ In F_spf fs -> keeps bra_with_spf m.
  Proof.
    intros Hf H1 H2. eapply keeps_frame; [exact Hf|]. intros b b' (_&_&_&_&_&_&_&Ar). unfold bra_with_spf.
    rewrite !Ar by assumption. auto.
  Qed.
  Lemma keeps_bra_antisym : keeps bra_with_spf anti_symmetrize_two_body.
  Proof.
    unfold anti_symmetrize_two_body. keeps_step; [keeps_step|]. keeps_step; [keeps_step|]. keeps_step; [keeps_step|].
    keeps_step; [keeps_step|]. keeps_step; [apply (keeps_bra_frame [F_u]); [apply frame_set_sq; cbn; auto|cbn; intuition discriminate..]|].
    keeps_step; [keeps_step|]. keeps_step.
    - keeps_step; [|keeps_step]. keeps_step; [keeps_step|].
      apply (keeps_bra_frame [F_sp2tb]); [apply frame_set_spin_op; cbn; auto|cbn; intuition discriminate..].
    - intros b Hb. exact Hb.
  Qed.
  Lemma estabb_double_rest va vb anti bs b x b' : bra_with_spf b -> double_rest va vb anti bs b = (Ok x, b') -> size_ok b' F_bra.
  Proof.
    intros Hb E. unfold double_rest in E.
    assert (KN : forall A (m : M basis A) b0 y b1, keeps bra_with_spf m -> m b0 = (Ok y, b1) -> bra_with_spf b0 -> bra_with_spf b1).
    { intros A m b0 y b1 Hk Em H0. specialize (Hk b0 H0). rewrite Em in Hk. exact Hk. }
    destruct (bind_inv _ _ _ _ _ E) as (y1 & b1 & G1 & E1). clear E.
    pose proof (KN _ _ _ _ _ (keeps_need K _ _ _) G1 Hb) as H1.
    destruct (bind_inv _ _ _ _ _ E1) as (y2 & b2 & G2 & E2). clear E1.
    pose proof (KN _ _ _ _ _ (keeps_need_np K _) G2 H1) as H2.
    destruct (bind_inv _ _ _ _ _ E2) as (y3 & b3 & G3 & E3). clear E2.
    assert (H3 : bra_with_spf b3).
    { eapply KN; [|exact G3|exact H2]. apply (keeps_bra_frame [F_h]); [apply frame_double_h; cbn; auto|cbn; intuition discriminate..]. }
    destruct (bind_inv _ _ _ _ _ E3) as (y4 & b4 & G4 & E4). clear E3.
    assert (H4 : bra_with_spf b4).
    { eapply KN; [|exact G4|exact H3]. apply (keeps_bra_frame [F_s]); [apply frame_double_s; cbn; auto|cbn; intuition discriminate..]. }
    destruct (bind_inv _ _ _ _ _ E4) as (y5 & b5 & G5 & E5). clear E4.
    assert (H5 : bra_with_spf b5).
    { eapply KN; [|exact G5|exact H4]. apply (keeps_bra_frame [F_u]); [apply frame_double_u; cbn; auto|cbn; intuition discriminate..]. }
    destruct (bind_inv _ _ _ _ _ E5) as (y6 & b6 & G6 & E6). clear E5.
    assert (H6 : bra_with_spf b6).
    { eapply KN; [|exact G6|exact H5]. eapply keeps_bra_frame; [apply frame_double_spin|cbn; intuition discriminate..]. }
    destruct (bind_inv _ _ _ _ _ E6) as (y7 & b7 & G7 & E7). clear E6.
    assert (H7 : bra_with_spf b7).
    { eapply KN; [|exact G7|exact H6]. apply keeps_when, keeps_bra_antisym. }
    destruct (bind_inv _ _ _ _ _ E7) as (y8 & b8 & G8 & E8). clear E7.
    assert (H8 : bra_with_spf b8).
    { eapply KN; [|exact G8|exact H7]. apply (keeps_bra_frame [F_dip]); [apply frame_double_dip; cbn; auto|cbn; intuition discriminate..]. }
    destruct (bind_inv _ _ _ _ _ E8) as (y9 & b9 & G9 & E9). clear E8.
    pose proof (estabb_double_orb _ _ _ H8 G9) as S9.
    assert (Sf : size_ok b9 F_spf).
    { assert (Ef : estab F_spf double_orb).
      { unfold double_orb. apply estab_rd; [|apply mono_ret|discriminate]. intros a'. apply estab_bind_r. intros ?.
        apply estab_bind_l; [discriminate | apply estab_set_orbitals; auto|]. intros _.
        apply mono_bind; [apply mono_rd|]. intros bra.
        apply mono_match; [|apply mono_ret]. intros c. apply mono_bind; [apply mono_lift|]. intros.
        apply mono_set_orbitals. auto. }
      eapply Ef. exact G9. }
    destruct (bind_inv _ _ _ _ _ E9) as (y10 & b10 & G10 & E10). injection E10 as _ <-.
    eapply monob_cast; eassumption.
  Qed.

  (** Without spin no spin matrix is set (an invariant of every history). *)
  Definition spin_fields5 : list field := [F_spx; F_spy; F_spz; F_sp2; F_sp2tb].
  Definition spin_inv b : Prop := b_np b <> None /\ (b_spin b = false -> forall f, In f spin_fields5 -> b_arr b f = None).
  Lemma ks_frame {A} fs (m : M basis A) : frame K fs m -> forallb (fun f => negb (fmem f fs)) spin_fields5 = true -> keeps spin_inv m.
  Proof.
    intros Hf H. eapply keeps_frame; [exact Hf|]. intros b b' (_&N&_&_&_&S&_&Ar) (H1 & H2). split; [congruence|].
    rewrite S. intros H0 f Hin. rewrite Ar; [auto|]. intros Hin'. rewrite forallb_forall in H. specialize (H f Hin).
    apply fmem_spec in Hin'. rewrite Hin' in H. discriminate.
  Qed.
  Lemma ks_spin_op f a : keeps spin_inv (set_spin_op f a).
  Proof.
    intros b (H1 & H2). unfold set_spin_op, bind. cbn. destruct (b_spin b) eqn:Es; cbn; [|split; [exact H1|]; rewrite Es; exact H2].
    destruct (check_axes a (b_l b)); cbn; (split; [exact H1|]; cbn; rewrite Es; discriminate).
  Qed.
  Lemma ks_antisym : keeps spin_inv anti_symmetrize_two_body.
  Proof.
    unfold anti_symmetrize_two_body. keeps_step; [keeps_step|]. keeps_step; [keeps_step|]. keeps_step; [keeps_step|].
    keeps_step; [keeps_step|]. keeps_step; [apply (ks_frame [F_u]); [apply frame_set_sq; cbn; auto|reflexivity]|].
    keeps_step; [keeps_step|]. keeps_step.
    - keeps_step; [|keeps_step]. keeps_step; [keeps_step|]. apply ks_spin_op.
    - intros b Hb. exact Hb.
  Qed.
  Lemma ks_cast : keeps spin_inv cast_to_complex.
  Proof.
    intros b (H1 & H2). destruct (cast_to_complex_spec K b H1) as (b1 & -> & (_&N&_&_&_&S&_) & A). cbn.
    split; [congruence|]. rewrite S. intros H f Hf. rewrite A. assert (V : view K b f = b_arr b f).
    { destruct f; try reflexivity. cbn in Hf. intuition discriminate. }
    rewrite V, H2 by assumption. destruct (fmem f conv_fields); reflexivity.
  Qed.
  Lemma ks_spin_ops s va vb : keeps spin_inv (setup_spin_ops (K:=K) s va vb).
  Proof.
    assert (P : forall f x, (match f with F_a | F_b | F_sigx | F_sigy | F_sigz => true | _ => false end) = true ->
      keeps spin_inv (wr f x)).
    { intros f x Hf. apply (ks_frame [f]); [apply frame_wr; cbn; auto|]. destruct f; try discriminate; reflexivity. }
    assert (G : forall f x, (match f with F_a | F_b | F_sigx | F_sigy | F_sigz => true | _ => false end) = true ->
      keeps spin_inv (set_sigma f x)).
    { intros f x Hf. apply (ks_frame [f]); [apply frame_set_sigma; cbn; auto|]. destruct f; try discriminate; reflexivity. }
    unfold setup_spin_ops. cbv zeta. do 2 (keeps_step; [apply P; reflexivity|]).
    do 3 (keeps_step; [apply (ks_frame []); [apply frame_check_ip|reflexivity]|]). keeps_step; [keeps_step|].
    destruct x4 as [[gx gy] gz]. do 3 (keeps_step; [apply G; reflexivity|]). do 3 (keeps_step; [apply ks_spin_op|]).
    do 6 (keeps_step; [keeps_step|]). keeps_step; [apply ks_spin_op|]. apply ks_spin_op.
  Qed.
  Lemma ks_double va vb anti : keeps spin_inv (to_general_base va vb anti).
  Proof.
    intros b Hb. rewrite to_general_split. destruct (b_spin b); [exact Hb|].
    assert (K0 : keeps spin_inv (double_rest va vb anti b)).
    { unfold double_rest. do 2 (keeps_step; [keeps_step|]).
      keeps_step; [apply (ks_frame [F_h]); [apply frame_double_h; cbn; auto|reflexivity]|].
      keeps_step; [apply (ks_frame [F_s]); [apply frame_double_s; cbn; auto|reflexivity]|].
      keeps_step; [apply (ks_frame [F_u]); [apply frame_double_u; cbn; auto|reflexivity]|].
      keeps_step; [unfold double_spin; keeps_step; [keeps_step|]; apply keeps_when, ks_spin_ops|].
      keeps_step; [apply keeps_when, ks_antisym|].
      keeps_step; [apply (ks_frame [F_dip]); [apply frame_double_dip; cbn; auto|reflexivity]|].
      keeps_step; [apply (ks_frame [F_spf; F_bra]); [apply frame_double_orb; cbn; auto|reflexivity]|].
      keeps_step; [apply ks_cast|]. keeps_step. }
    apply K0. split; [exact (proj1 Hb) | discriminate].
  Qed.
  Lemma ks_change C Ct : keeps spin_inv (change_basis C Ct).
  Proof.
    intros b Hb. rewrite change_basis_split. destruct (shape_at C 1) as [k|e]; [|exact Hb].
    assert (K0 : keeps spin_inv (change_rest C (default_tilde C Ct))).
    { unfold change_rest. keeps_step; [eapply ks_frame; [apply frame_one_body|reflexivity]|].
      keeps_step.
      { unfold change_basis_two_body. do 5 (keeps_step; [keeps_step|]).
        keeps_step; [apply (ks_frame [F_u]); [apply frame_set_sq; cbn; auto|reflexivity]|]. keeps_step; [keeps_step|].
        keeps_step; [|keeps_step]. do 2 (keeps_step; [keeps_step|]). apply ks_spin_op. }
      keeps_step; [keeps_step|]. keeps_step.
      { keeps_step; [|keeps_step]. eapply ks_frame; [apply frame_dipole|reflexivity]. }
      keeps_step; [keeps_step|]. keeps_step; [|keeps_step]. eapply ks_frame; [apply frame_spf|reflexivity]. }
    apply K0. exact Hb.
  Qed.
  Lemma ks_drop {A} (m : M basis A) I : keeps I m -> keeps I (drop m).
  Proof. intros H. unfold drop. keeps_step; [exact H|keeps_step]. Qed.
  Lemma ks_run o : keeps spin_inv (run o).
  Proof.
    destruct o; cbn [run].
    - apply (ks_frame [F_h]); [apply frame_set_sq; cbn; auto|reflexivity].
    - apply (ks_frame [F_s]); [apply frame_set_sq; cbn; auto|reflexivity].
    - apply (ks_frame [F_u]); [apply frame_set_sq; cbn; auto|reflexivity].
    - apply (ks_frame [F_dip]); [apply frame_set_dipole; cbn; auto|reflexivity].
    - apply ks_spin_op.
    - apply (ks_frame [sigma_field x]); [apply frame_set_sigma; cbn; auto|destruct x; reflexivity].
    - apply (ks_frame [F_spf]); [apply frame_set_orbitals; cbn; auto|reflexivity].
    - apply (ks_frame [F_bra]); [apply frame_set_orbitals; cbn; auto|reflexivity].
    - apply (ks_frame [F_grid]); [apply frame_wr; cbn; auto|reflexivity].
    - intros b Hb. exact Hb.
    - apply ks_change.
    - apply ks_antisym.
    - apply ks_drop. intros b Hb. destruct (change_to_general_cases K ab anti b) as [(va & vb & ->)|(e & ->)]; [|exact Hb].
      apply ks_double. exact Hb.
    - intros b (H1 & H2). destruct (change_module_spec K m b) as (b1 & -> & (_&N&_&_&_&S&_) & A & _). cbn in N, S. cbn.
      split; [congruence|]. rewrite S. intros H f Hf. rewrite A; [auto|]. intros ->. cbn in Hf. intuition discriminate.
    - apply ks_cast.
    - apply ks_drop. apply (ks_frame [F_bra]); [apply frame_get_bra; cbn; auto|reflexivity].
    - apply ks_drop. eapply ks_frame; [apply frame_density|reflexivity].
    - apply ks_drop. apply (ks_frame []); [apply frame_get_h|reflexivity].
    - apply ks_drop. apply (ks_frame []); [apply frame_get_u|reflexivity].
    - apply keeps_same. apply set_u_repr_same.
  Qed.

  (** One step *)
  Definition core_fields : list field := [F_h; F_s; F_u; F_dip; F_spf; F_sp2tb].
  Definition resizes (o : op K) : bool := match o with OChange _ _ | ODouble _ _ => true | _ => false end.
  Lemma mono_drop {A} (m : M basis A) : mono m -> mono (drop m).
  Proof. intros H. unfold drop. apply mono_bind; [exact H | intros; apply mono_ret]. Qed.
  Lemma mono_run o : resizes o = false -> mono (run o).
  Proof.
    intros Ho. destruct o; try discriminate; cbn [run].
    - apply mono_set_sq; reflexivity.
    - apply mono_set_sq; reflexivity.
    - apply mono_set_sq; reflexivity.
    - apply mono_set_dipole.
    - apply mono_set_spin_op. destruct x; reflexivity.
    - apply mono_sigma. destruct x; reflexivity.
    - apply mono_set_orbitals; auto.
    - apply mono_set_orbitals; auto.
    - apply mono_wr_plain. reflexivity.
    - apply mono_meta. intros; repeat split.
    - apply mono_antisym.
    - apply mono_module.
    - apply mono_cast.
    - apply mono_drop, mono_get_bra.
    - apply mono_drop. unfold compute_particle_density. apply mono_bind; [apply mono_rd|]. intros.
      apply mono_bind; [apply mono_need|]. intros. apply mono_bind; [apply mono_get_bra|]. intros.
      apply mono_bind; [apply mono_need|]. intros. destruct C.
      + apply mono_bind; [apply mono_need_np|]. intros. do 2 (apply mono_bind; [apply mono_lift|]; intros). apply mono_lift.
      + apply mono_bind; [apply mono_need_np|]. intros. apply mono_lift.
    - apply mono_drop. unfold get_transformed_h. apply mono_bind; [apply mono_need_np|]. intros _.
      apply mono_bind; [apply mono_rd|]. intros. apply mono_bind; [apply mono_need|]. intros. apply mono_lift.
    - apply mono_drop. unfold get_transformed_u. apply mono_bind; [apply mono_need_np|]. intros _.
      apply mono_bind; [apply mono_rd|]. intros. apply mono_bind; [apply mono_need|]. intros.
      apply mono_bind; [apply mono_get|]. intros. apply mono_lift.
    - apply mono_same. apply set_u_repr_same.
  Qed.
  Lemma monob_run o : resizes o = false -> monob (run o).
  Proof.
    intros Ho. destruct o; try discriminate; cbn [run].
    - apply (monob_frame [F_h]); [apply frame_set_sq; cbn; auto|cbn; intuition discriminate].
    - apply (monob_frame [F_s]); [apply frame_set_sq; cbn; auto|cbn; intuition discriminate].
    - apply (monob_frame [F_u]); [apply frame_set_sq; cbn; auto|cbn; intuition discriminate].
    - apply (monob_frame [F_dip]); [apply frame_set_dipole; cbn; auto|cbn; intuition discriminate].
    - apply (monob_frame [spin_field x]); [apply frame_set_spin_op; cbn; auto|destruct x; cbn; intuition discriminate].
    - apply (monob_frame [sigma_field x]); [apply frame_set_sigma; cbn; auto|destruct x; cbn; intuition discriminate].
    - apply (monob_frame [F_spf]); [apply frame_set_orbitals; cbn; auto|cbn; intuition discriminate].
    - intros b y b' E _ _. exact (estab_set_orbitals F_bra _ (or_intror eq_refl) _ _ _ E).
    - apply (monob_frame [F_grid]); [apply frame_wr; cbn; auto|cbn; intuition discriminate].
    - intros b y b' E _ S. injection E as _ <-. exact S.
    - intros b y b' E _ S. pose proof (mono_antisym _ _ _ E) as (L & D & _).
      unfold size_ok. rewrite L, D. replace (b_arr b' F_bra) with (b_arr b F_bra); [exact S|].
      revert E. unfold anti_symmetrize_two_body. unfold bind at 1. cbn [get_st].
      destruct (b_asym b); [intros E; injection E as _ <-; reflexivity|]. intros E.
      destruct (bind_inv _ _ _ _ _ E) as (u & b1 & E1 & E2). clear E.
      assert (b1 = b) as -> by (unfold need in E1; destruct (b_arr b F_u); [injection E1 as _ <-; reflexivity | discriminate]).
      destruct (bind_inv _ _ _ _ _ E2) as (u' & b1 & E3 & E). clear E2. unfold lift in E3. injection E3 as _ <-.
      destruct (bind_inv _ _ _ _ _ E) as (z & b1 & E3 & E2). clear E. destruct (set_sq_inv _ _ _ _ _ E3) as (-> & _).
      destruct (bind_inv _ _ _ _ _ E2) as (t & b1 & E4 & E). clear E2. injection E4 as <- <-.
      destruct (bind_inv _ _ _ _ _ E) as (w & b1 & E4 & E2). clear E. injection E2 as _ <-. cbn.
      cbn [b_arr set_arr] in E4. destruct (upd F_u (Some u') (b_arr b) F_sp2tb) as [t|].
      + destruct (bind_inv _ _ _ _ _ E4) as (t' & b2 & E5 & E6). unfold lift in E5. injection E5 as _ <-.
        destruct (set_spin_op_inv _ _ _ _ _ E6) as (-> & _). reflexivity.
      + injection E4 as _ <-. reflexivity.
    - intros b y b' E S1 S2. destruct (change_module_spec K m b) as (b1 & E1 & (_&_&L&D&_) & A & V). cbn in L, D.
      rewrite E in E1. injection E1 as _ <-.
      unfold size_ok. rewrite L, D. destruct (b_arr b' F_bra) as [a|] eqn:Eb; [|exact I].
      assert (X : Some a = bra_view b) by (rewrite <- V; unfold bra_view; rewrite Eb; reflexivity).
      unfold bra_view in X. unfold size_ok in S1, S2.
      destruct (b_arr b F_bra); [injection X as ->; exact S2|]. destruct (b_arr b F_spf); [injection X as ->; exact S1|discriminate].
    - apply monob_cast.
    - unfold drop. apply monob_bind; [apply mono_get_bra|apply monob_get_bra|]. intros.
      apply (monob_frame []); [apply frame_ret|cbn; auto].
    - intros b y b' E S1 S2. unfold drop in E. destruct (bind_inv _ _ _ _ _ E) as (z & b1 & E1 & E2). injection E2 as _ <-.
      unfold compute_particle_density in E1. destruct (bind_inv _ _ _ _ _ E1) as (w & b2 & E3 & E4). injection E3 as <- <-.
      clear E1. destruct (bind_inv _ _ _ _ _ E4) as (v & b2 & E3 & E5). clear E4.
      assert (b2 = b) as -> by (unfold need in E3; destruct (b_arr b F_spf); [injection E3 as _ <-; reflexivity | discriminate]).
      destruct (bind_inv _ _ _ _ _ E5) as (bra & b2 & E4 & E6). clear E5. pose proof (monob_get_bra _ _ _ E4 S1 S2) as S3.
      match type of E6 with ?m b2 = _ => assert (F0 : frame K [] m) by (frame_step; [frame_step|]; destruct C; repeat frame_step) end.
      destruct (F0 b2) as (_&_&L&D&_&_&_&A). rewrite E6 in L, D, A. cbn in L, D. unfold size_ok.
      rewrite L, D. cbn [snd] in A. rewrite A by (cbn; auto). exact S3.
    - apply (monob_frame []); [|cbn; auto]. unfold drop. frame_step; [apply frame_get_h|frame_step].
    - apply (monob_frame []); [|cbn; auto]. unfold drop. frame_step; [apply frame_get_u|frame_step].
    - intros b y b' E _ S. pose proof (set_u_repr_same K r b) as H. rewrite E in H. cbn in H. subst. exact S.
  Qed.

  Lemma run_core o b x b' : run o b = (Ok x, b') -> spin_inv b ->
    (forall f, In f core_fields -> size_ok b f) -> forall f, In f core_fields -> size_ok b' f.
  Proof.
    intros E Hs Hc f Hf. destruct (resizes o) eqn:Er.
    - destruct o; try discriminate Er; cbn [run] in E.
      + eapply change_basis_sizes; eassumption.
      + unfold drop in E. destruct (bind_inv _ _ _ _ _ E) as (r & b1 & E1 & E2). injection E2 as _ <-.
        destruct (change_to_general_cases K ab anti b) as [(va & vb & Eq)|(e & Eq)]; rewrite Eq in E1; [|discriminate].
        rewrite to_general_split in E1. destruct (b_spin b) eqn:Esp; [injection E1 as _ <-; auto|].
        unfold core_fields in Hf. cbn in Hf. destruct_or Hf; subst f.
        1-5: eapply estab_double_rest; [cbn; tauto | exact E1].
        destruct (mono_double_rest _ _ _ _ _ _ _ E1) as (_ & _ & S). apply S; [discriminate|].
        unfold size_ok. change (b_arr (set_l _ _) F_sp2tb) with (b_arr b F_sp2tb).
        rewrite (proj2 Hs Esp) by (cbn; tauto). exact I.
    - destruct (mono_run o Er _ _ _ E) as (_ & _ & S). apply S; [|auto]. intros ->. cbn in Hf. intuition discriminate.
  Qed.

  Lemma run_full o b x b' : run o b = (Ok x, b') -> spin_inv b -> resize_safe b o ->
    (forall f, size_ok b f) -> forall f, size_ok b' f.
  Proof.
    intros E Hs Hr Hc f. assert (D : In f core_fields \/ ~ In f core_fields)
      by (destruct (fmem f core_fields) eqn:Ef; [left; apply fmem_spec; exact Ef | right; rewrite <- fmem_spec; congruence]).
    destruct D as [D|D]; [eapply run_core; eauto|].
    destruct (resizes o) eqn:Er.
    - destruct o; try discriminate Er; cbn [run] in E; cbn [resize_safe] in Hr.
      + rewrite change_basis_split in E. destruct (shape_at C 1) as [k|e] eqn:Ek; [|discriminate].
        unfold shape_at in Ek. destruct (nth_error (shape C) 1) as [k0|]; [|discriminate]. injection Ek as ->.
        set (b0 := set_l k b) in *. set (Ct' := default_tilde C Ct) in *.
        destruct (frame_change_rest K C Ct' b0) as (_&_&L&Dm&_&_&_&A). rewrite E in L, Dm, A. cbn in L, Dm. cbn [snd] in A.
        assert (Hold : b_arr b0 f = None \/ k = b_l b -> size_ok b0 f).
        { intros [H|H]; [unfold size_ok; rewrite H; exact I|]. specialize (Hc f). unfold size_ok in *. subst b0. cbn. rewrite H. exact Hc. }
        destruct (field_eqb f F_bra) eqn:Efb.
        * apply field_eqb_spec in Efb. subst f.
          unfold change_rest in E. destruct (bind_inv _ _ _ _ _ E) as (y1 & b1 & E1 & E2). clear E.
          destruct (bind_inv _ _ _ _ _ E2) as (y2 & b2 & E3 & E4). clear E2.
          destruct (bind_inv _ _ _ _ _ E4) as (y3 & b3 & E5 & E6). clear E4. injection E5 as <- <-.
          destruct (bind_inv _ _ _ _ _ E6) as (y4 & b4 & E7 & E8). clear E6.
          destruct (bind_inv _ _ _ _ _ E8) as (y5 & b5 & E9 & E10). clear E8. injection E9 as <- <-.
          destruct (frame_one_body K C Ct' b0) as (_&_&L1&D1&_&_&_&A1). rewrite E1 in L1, D1, A1. cbn in L1, D1. cbn [snd] in A1.
          destruct (frame_two_body K C Ct' b1) as (_&_&L2&D2&_&_&_&A2). rewrite E3 in L2, D2, A2. cbn in L2, D2. cbn [snd] in A2.
          assert (F4 : frame K [F_dip] (match b_arr b2 F_dip with Some d => change_basis_dipole d C Ct' | None => ret tt end))
            by (destruct (b_arr b2 F_dip); [apply frame_dipole | apply frame_ret]).
          destruct (F4 b2) as (_&_&L4&D4&_&_&_&A4). rewrite E7 in L4, D4, A4. cbn in L4, D4. cbn [snd] in A4.
          assert (Espf : b_arr b4 F_spf = b_arr b F_spf) by (rewrite A4, A2, A1 by (cbn; intuition discriminate); reflexivity).
          assert (Ebra : b_arr b4 F_bra = b_arr b F_bra) by (rewrite A4, A2, A1 by (cbn; intuition discriminate); reflexivity).
          destruct (b_arr b4 F_spf) as [spf|] eqn:Es.
          -- unfold change_basis_spf in E10. destruct (bind_inv _ _ _ _ _ E10) as (z1 & c1 & G1 & G2). clear E10.
             destruct (bind_inv _ _ _ _ _ G2) as (z2 & c2 & G3 & G4). clear G2.
             destruct (bind_inv _ _ _ _ _ G4) as (z3 & c3 & G5 & G6). clear G4.
             destruct (bind_inv _ _ _ _ _ G6) as (z4 & c4 & G7 & G8). clear G6.
             destruct (bind_inv _ _ _ _ _ G8) as (z5 & c5 & G9 & G10). clear G8.
             pose proof (estab_set_orbitals F_bra _ (or_intror eq_refl) _ _ _ G9) as S5.
             match type of G10 with ?m c5 = _ => assert (F0 : frame K [F_spf] m)
               by (repeat first [apply frame_set_orbitals; cbn; tauto | frame_step]) end.
             destruct (F0 c5) as (_&_&L5&D5&_&_&_&A5). rewrite G10 in L5, D5, A5. cbn in L5, D5. cbn [snd] in A5.
             unfold size_ok. rewrite L5, D5, A5 by (cbn; intuition discriminate). exact S5.
          -- injection E10 as _ <-. assert (S0 : size_ok b0 F_bra).
             { apply Hold. destruct Hr as [Hr|[_ Hr]]; [right; congruence|]. left. change (b_arr b F_bra = None).
               destruct (b_arr b F_bra); [exfalso; apply Hr; congruence | reflexivity]. }
             unfold size_ok. rewrite Ebra. unfold size_ok in S0. change (b_arr b0 F_bra) with (b_arr b F_bra) in S0.
             rewrite L, Dm. exact S0.
        * assert (Hn : ~ In f change_fields).
          { intros Hin. cbn in Hin. cbn in D. destruct_or Hin; subst f; try discriminate Efb; tauto. }
          unfold size_ok. rewrite A, L, Dm by exact Hn.
          assert (S0 : size_ok b0 f); [|exact S0].
          destruct Hr as [Hr|[Hr _]]; [apply Hold; right; congruence|].
          destruct f; try (cbn in D; tauto); try discriminate Efb;
            try (apply Hold; left; apply Hr; cbn; tauto);
            unfold size_ok; destruct (b_arr b0 _); exact I.
      + unfold drop in E. destruct (bind_inv _ _ _ _ _ E) as (r & b1 & E1 & E2). injection E2 as _ <-.
        destruct (change_to_general_cases K ab anti b) as [(va & vb & Eq)|(e & Eq)]; rewrite Eq in E1; [|discriminate].
        rewrite to_general_split in E1. destruct (b_spin b) eqn:Esp; [injection E1 as _ <-; auto|].
        destruct Hr as [Hr|Hr]; [discriminate|].
        destruct (field_eqb f F_bra) eqn:Efb.
        * apply field_eqb_spec in Efb. subst f. eapply estabb_double_rest; [|exact E1]. exact Hr.
        * destruct (mono_double_rest _ _ _ _ _ _ _ E1) as (_ & _ & S).
          apply S; [intros ->; discriminate|]. unfold size_ok. cbn.
          destruct (fmem f spin_fields5) eqn:E5.
          -- apply fmem_spec in E5. rewrite (proj2 Hs Esp) by exact E5. exact I.
          -- destruct f; try discriminate; try (cbn in D; tauto); match goal with |- match ?x with _ => _ end => destruct x end; exact I.
    - destruct (mono_run o Er _ _ _ E) as (_ & _ & S). destruct (field_eqb f F_bra) eqn:Efb.
      + apply field_eqb_spec in Efb. subst f. eapply monob_run; eauto.
      + apply S; [intros ->; discriminate | auto].
  Qed.

  (** Whole histories *)
  Lemma hist_core ops b b' : run_ok ops b = Some b' -> spin_inv b -> (forall f, In f core_fields -> size_ok b f) ->
    forall f, In f core_fields -> size_ok b' f.
  Proof.
    revert b. induction ops as [|o ops IH]; intros b E Hs Hc; cbn in E; [injection E as <-; exact Hc|].
    pose proof (ks_run o b Hs) as Hs1. destruct (run o b) as [[x|e] b1] eqn:E1; [|discriminate]. cbn in Hs1.
    apply (IH b1 E Hs1). eapply run_core; eassumption.
  Qed.
  Lemma hist_full ops b b' : run_ok ops b = Some b' -> spin_inv b -> along resize_safe ops b -> (forall f, size_ok b f) ->
    forall f, size_ok b' f.
  Proof.
    revert b. induction ops as [|o ops IH]; intros b E Hs Ha Hc; cbn in E; [injection E as <-; exact Hc|].
    cbn in Ha. destruct Ha as [Ha1 Ha2].
    pose proof (ks_run o b Hs) as Hs1. destruct (run o b) as [[x|e] b1] eqn:E1; [|discriminate]. cbn in Hs1, Ha2.
    apply (IH b1 E Hs1 Ha2). eapply run_full; eassumption.
  Qed.
  Lemma new_spin_inv c m l dim i s : spin_inv (new_basis K c m l dim i s).
  Proof. split; [discriminate | reflexivity]. Qed.
End Sizes.
