(** Which array module every stored array belongs to.  The basis model keeps
    no such tag, so change_module is modelled a second time on a basis together
    with a tag per attribute; [own_change_module_erase] shows that forgetting
    the tags gives the model of BasisSet.v. *)
From Coq Require Import List Arith ZArith Lia Bool.
From Verif Require Import Scalar Py Numpy BasisSet BasisSpec BasisFacts ConvProofs.
Import ListNotations.

Section Own.
  Variable K : scalar.
  Notation basis := (basis K).

  Record owned := Owned { o_b : basis; o_tag : field -> nat }.
  Definition set_tag (f : field) (m : nat) (t : field -> nat) : field -> nat :=
    fun g => if field_eqb f g then m else t g.
  (** setattr(self, name, change_arr_module(arr, np)): np.asarray(arr), a value
      of the module np (basis_set.py:248-250, 275). *)
  Definition own_wr (m : nat) (f : field) (x : option (arr K)) : M owned unit :=
    fun o => (Ok tt, Owned (set_arr f x (o_b o)) (set_tag f m (o_tag o))).
  Definition own_lift {A} (m : M basis A) : M owned A :=
    fun o => let '(r, b) := m (o_b o) in (r, Owned b (o_tag o)).
  (** basis_set.py:252-275 and sinc_dvr.py:191-199 *)
  Definition own_change_module_base (m : nat) : M owned unit :=
    own_lift (modify (set_np (Some m))) ;;
    let* xs := own_lift conv_list in
    for_each xs (fun fa => own_wr m (fst fa) (snd fa)).
  Definition own_change_module (m : nat) : M owned unit :=
    fun o => match b_cls (o_b o) with
             | Base => own_change_module_base m o
             | SincDVR => if urepr_eqb (u_repr (o_b o)) U2d then own_lift (modify (set_np (Some m))) o
                          else own_change_module_base m o
             end.

  Lemma own_loop m xs o :
    for_each xs (fun fa => own_wr m (fst fa) (snd fa)) o =
      (Ok tt, Owned (fold_left (fun b fa => set_arr (fst fa) (snd fa) b) xs (o_b o))
                    (fold_left (fun t (fa : field * option (arr K)) => set_tag (fst fa) m t) xs (o_tag o))).
  Proof. revert o. induction xs as [|x xs IH]; intros o; [destruct o; reflexivity|]. cbn. rewrite IH. reflexivity. Qed.
  Lemma base_loop xs (b : basis) :
    for_each xs (fun fa => wr (fst fa) (snd fa)) b = (Ok tt, fold_left (fun b fa => set_arr (fst fa) (snd fa) b) xs b).
  Proof. revert b. induction xs as [|x xs IH]; intros b; [reflexivity|]. cbn. rewrite IH. reflexivity. Qed.
  Lemma conv_list_ok (b : basis) : exists xs b', conv_list b = (Ok xs, b') /\ map fst xs = conv_fields.
  Proof.
    unfold conv_list, get_bra, bind, rd, get_st, ret, wr, modify. cbn.
    destruct (b_arr b F_bra), (b_arr b F_spf); eexists; eexists; split; reflexivity.
  Qed.
  Lemma own_base_ok m o : exists o', own_change_module_base m o = (Ok tt, o') /\
    change_module_base m (o_b o) = (Ok tt, o_b o') /\
    forall f, In f conv_fields -> o_tag o' f = m.
  Proof.
    destruct (conv_list_ok (set_np (Some m) (o_b o))) as (xs & b' & E & Hx).
    unfold own_change_module_base, change_module_base, bind, own_lift, modify. cbn [o_b o_tag]. rewrite E.
    rewrite own_loop, base_loop. eexists. split; [reflexivity|]. split; [reflexivity|]. cbn [o_tag].
    assert (G : forall (ys : list (field * option (arr K))) t f, In f (map fst ys) \/ t f = m ->
      fold_left (fun t (fa : field * option (arr K)) => set_tag (fst fa) m t) ys t f = m).
    { induction ys as [|[g a] ys IH]; intros t f [H|H]; cbn in *; try tauto; apply IH.
      - destruct H as [->|H]; [right|left; exact H]. unfold set_tag. rewrite field_eqb_refl. reflexivity.
      - right. unfold set_tag. destruct (field_eqb g f); [reflexivity | exact H]. }
    intros f Hf. apply G. left. rewrite Hx. exact Hf.
  Qed.
  Lemma own_change_module_erase m o : exists o', own_change_module m o = (Ok tt, o') /\
    change_module m (o_b o) = (Ok tt, o_b o') /\
    (~ (b_cls (o_b o) = SincDVR /\ u_repr (o_b o) = U2d) ->
       b_np (o_b o') = Some m /\ forall f, In f conv_fields -> o_tag o' f = m) /\
    (b_cls (o_b o) = SincDVR -> u_repr (o_b o) = U2d ->
       b_np (o_b o') = Some m /\ forall f, o_tag o' f = o_tag o f).
  Proof.
    destruct (own_base_ok m o) as (o1 & E1 & E2 & E3).
    destruct (change_module_spec K m (o_b o)) as (bb & Eb & (_ & Enp & _) & _).
    assert (Hnp : change_module m (o_b o) = change_module_base m (o_b o) -> b_np (o_b o1) = Some m).
    { intros H. rewrite Eb, E2 in H. injection H as ->. exact Enp. }
    revert Hnp. unfold own_change_module, change_module. unfold bind. cbn [get_st].
    destruct (b_cls (o_b o)) eqn:Ec; intros Hnp.
    - exists o1. split; [exact E1|]. split; [exact E2|]. split; [auto|discriminate].
    - destruct (urepr_eqb (u_repr (o_b o)) U2d) eqn:Er.
      + assert (Hr : u_repr (o_b o) = U2d) by (destruct (u_repr (o_b o)); try discriminate; reflexivity).
        eexists. split; [reflexivity|]. split; [reflexivity|]. split; [intros H; exfalso; apply H; auto|].
        intros _ _. split; reflexivity.
      + exists o1. split; [exact E1|]. split; [exact E2|]. split; [auto|]. intros _ H. rewrite H in Er. discriminate.
  Qed.
End Own.
Arguments Owned {K}. Arguments o_b {K}. Arguments o_tag {K}. Arguments own_change_module {K}.
