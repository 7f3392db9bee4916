(** What the methods of BasisSet.v compute, on well-shaped objects. *)
From Coq Require Import List Arith ZArith Lia Bool.
From Verif Require Import Scalar Py Numpy NumpyFacts Spec TransformFacts BasisSet BasisSpec.
Import ListNotations.

Lemma Forall2_nth_r {A B} (P : A -> B -> Prop) xs ys i y :
  Forall2 P xs ys -> nth_error ys i = Some y -> exists x, nth_error xs i = Some x /\ P x y.
Proof.
  intros F. revert i. induction F as [|x y' xs ys H F IH]; intros [|i] E; cbn in *; try discriminate.
  - injection E as ->. eauto.
  - apply IH. exact E.
Qed.
Lemma Forall2_len {A B} (P : A -> B -> Prop) xs ys : Forall2 P xs ys -> length xs = length ys.
Proof. intros F. induction F; cbn; congruence. Qed.
Lemma nth_error_seq n i j : nth_error (seq 0 n) i = Some j -> j = i /\ i < n.
Proof.
  intros H. assert (Hi : i < length (seq 0 n)) by (apply nth_error_Some; congruence).
  rewrite seq_length in Hi. rewrite nth_error_nth' with (d := 0) in H by (rewrite seq_length; exact Hi).
  rewrite seq_nth in H by exact Hi. injection H as <-. auto.
Qed.
Lemma upd_same (K : scalar) f x m : upd (K:=K) f x m f = x.
Proof. unfold upd. destruct f; reflexivity. Qed.
Lemma field_eqb_spec f g : field_eqb f g = true <-> f = g.
Proof. destruct f, g; cbn; split; congruence. Qed.
Lemma upd_other (K : scalar) f g x m : f <> g -> upd (K:=K) f x m g = m g.
Proof.
  intros H. unfold upd. destruct (field_eqb f g) eqn:E; [|reflexivity].
  apply field_eqb_spec in E. contradiction.
Qed.
Ltac destruct_or H :=
  match type of H with
  | _ \/ _ => let H1 := fresh in destruct H as [H1|H]; [|destruct_or H]
  | False => destruct H
  | _ => idtac
  end.
Ltac notin := cbn; intuition discriminate.
Ltac sb :=
  repeat split; cbn; try reflexivity;
  let f := fresh in let Hf := fresh in intros f Hf; rewrite ?upd_other; try reflexivity; intros <-; apply Hf; cbn; auto.

Section Facts.
  Variable K : scalar.
  Local Open Scope K_scope.
  Add Ring Kring : (s_ring K).
  Notation arr := (arr K).
  Notation basis := (basis K).
  Implicit Types (a C D h u : arr) (b : basis).

  (** Arrays: the basis-change formulas. *)
  Lemma dagger_spec C l k : shape C = [l; k] ->
    shape (dagger C) = [k; l] /\ forall p q, mat (dagger C) p q = adj (mat C) p q.
  Proof. intros H. destruct (aT_conj2 K C l k H) as [H1 H2]. split; [exact H1|]. exact H2. Qed.

  Lemma transform_one_body_ok h C D l k k' :
    shape h = [l; l] -> shape C = [l; k] -> shape D = [k'; l] ->
    exists r, transform_one_body h C (Some D) = Ok r /\ shape r = [k'; k] /\
      dt r = dmax (dt D) (dmax (dt h) (dt C)) /\
      forall p q, mat r p q = T1 l (mat h) (mat C) (mat D) p q.
  Proof.
    intros Hh HC HD. unfold transform_one_body, default_tilde.
    destruct (dot22 K h C l l k Hh HC) as (x & -> & Hx & Hxd & Gx). cbn [rbind].
    destruct (dot22 K D x k' l k HD Hx) as (y & -> & Hy & Hyd & Gy).
    exists y. split; [reflexivity|]. split; [exact Hy|]. split; [congruence|].
    intros p q. rewrite Gy, T1_mmul. unfold mmul. apply sumn_ext; intros i Hi. rewrite Gx. reflexivity.
  Qed.

  Lemma transform_one_body_none h C l k : shape C = [l; k] ->
    transform_one_body h C None = transform_one_body h C (Some (dagger C)).
  Proof. reflexivity. Qed.

  Lemma transform_two_body_ok u C D l k :
    shape u = [l; l; l; l] -> shape C = [l; k] -> shape D = [k; l] ->
    exists r, transform_two_body_base u C (Some D) = Ok r /\ shape r = [k; k; k; k] /\
      forall p q r' s, ten r p q r' s = T2 l (ten u) (mat C) (mat D) p q r' s.
  Proof.
    destruct u as [su du gu], C as [sc dc gc], D as [sd dd gd]; cbn [shape]; intros -> -> ->.
    unfold transform_two_body_base, default_tilde, tensordot, transpose, ndim.
    do 6 (cbn -[sumn]; rewrite ?Nat.eqb_refl).
    eexists. split; [reflexivity|]. cbn -[sumn]. split; [reflexivity|].
    intros p q r s. unfold ten, T2, mat. cbn -[sumn].
    apply sumn_ext; intros a _. rewrite sumn_mul_l. apply sumn_ext; intros b _.
    rewrite sumn_mul_r, sumn_mul_l. apply sumn_ext; intros c _.
    rewrite !sumn_mul_r, sumn_mul_l. apply sumn_ext; intros d _. ring.
  Qed.

  Lemma transform_spf_ok spf C l k g : shape spf = l :: g -> shape C = [l; k] ->
    exists r, transform_spf spf C = Ok r /\ shape r = k :: g /\ dt r = dmax (dt C) (dt spf) /\
      forall p x, get r (p :: x) = sumn l (fun i => mat C i p * get spf (i :: x)).
  Proof.
    destruct spf as [su du gu], C as [sc dc gc]; cbn [shape]; intros -> ->.
    unfold transform_spf, tensordot. cbn -[Nat.eqb sumn]. rewrite Nat.eqb_refl.
    eexists. split; [reflexivity|]. cbn -[sumn]. split; [reflexivity|]. split; [reflexivity|]. reflexivity.
  Qed.
  Lemma transform_bra_ok bra D l k g : shape bra = l :: g -> shape D = [k; l] ->
    exists r, transform_bra_spf bra D = Ok r /\ shape r = k :: g /\ dt r = dmax (dt D) (dt bra) /\
      forall p x, get r (p :: x) = sumn l (fun i => mat D p i * get bra (i :: x)).
  Proof.
    destruct bra as [su du gu], D as [sc dc gc]; cbn [shape]; intros -> ->.
    unfold transform_bra_spf, tensordot. cbn -[Nat.eqb sumn]. rewrite Nat.eqb_refl.
    eexists. split; [reflexivity|]. cbn -[sumn]. split; [reflexivity|]. split; [reflexivity|]. reflexivity.
  Qed.

  (** Setters and reads *)
  Lemma check_axes2 a k : shape a = [k; k] -> check_axes a k = true.
  Proof. intros H. unfold check_axes. rewrite H. cbn. rewrite Nat.eqb_refl. reflexivity. Qed.
  Lemma check_axes4 a k : shape a = [k; k; k; k] -> check_axes a k = true.
  Proof. intros H. unfold check_axes. rewrite H. cbn. rewrite Nat.eqb_refl. reflexivity. Qed.
  Lemma set_sq_ok f a b : check_axes a (b_l b) = true -> set_sq f a b = (Ok tt, set_arr f (Some a) b).
  Proof. intros H. unfold set_sq, bind, get_st. rewrite H. reflexivity. Qed.
  Lemma set_sq_err f a b : check_axes a (b_l b) = false -> set_sq f a b = (Err AssertionError, b).
  Proof. intros H. unfold set_sq, bind, get_st. rewrite H. reflexivity. Qed.
  Lemma set_spin_op_ok f a b : b_spin b = true -> check_axes a (b_l b) = true ->
    set_spin_op f a b = (Ok tt, set_arr f (Some a) b).
  Proof. intros H H'. unfold set_spin_op, bind, get_st. rewrite H, H'. reflexivity. Qed.
  Lemma set_orbitals_ok f a b g : shape a = b_l b :: g -> length g = b_dim b ->
    set_orbitals f (Some a) b = (Ok tt, set_arr f (Some a) b).
  Proof.
    intros H H'. unfold set_orbitals, bind, get_st, lift, shape_at. rewrite H. cbn.
    rewrite H', !Nat.eqb_refl. reflexivity.
  Qed.
  Lemma for_each_asserts {A} (xs : list A) (body : A -> M basis unit) b :
    (forall x, In x xs -> body x b = (Ok tt, b)) -> for_each xs body b = (Ok tt, b).
  Proof.
    induction xs as [|x xs IH]; intros H; cbn; [reflexivity|].
    unfold bind. rewrite (H x) by (cbn; auto). apply IH. intros y Hy. apply H. cbn. auto.
  Qed.
  Lemma set_dipole_ok a b : shape a = [b_dim b; b_l b; b_l b] ->
    set_dipole a b = (Ok tt, set_arr F_dip (Some a) b).
  Proof.
    intros H. unfold set_dipole. unfold bind at 1. cbn [get_st].
    unfold bind at 1, lift at 1, alen. rewrite H.
    unfold bind at 1. rewrite Nat.eqb_refl. cbn [py_assert ret].
    unfold bind at 1. rewrite for_each_asserts; [reflexivity|].
    intros i Hi. apply in_seq in Hi. unfold bind, lift.
    destruct (row_ok K a (b_dim b) [b_l b; b_l b] i H) as (r & -> & Hr & _); [lia|].
    rewrite (check_axes2 r _ Hr). reflexivity.
  Qed.

  Lemma bind_ok {A B} (m : M basis A) (f : A -> M basis B) b x b' :
    m b = (Ok x, b') -> bind m f b = f x b'.
  Proof. intros H. unfold bind. rewrite H. reflexivity. Qed.
  Lemma bind_err {A B} (m : M basis A) (f : A -> M basis B) b e b' :
    m b = (Err e, b') -> bind m f b = (Err e, b').
  Proof. intros H. unfold bind. rewrite H. reflexivity. Qed.

  Lemma need_np_ok b m : b_np b = Some m -> need_np b = (Ok m, b).
  Proof. intros H. unfold need_np. rewrite H. reflexivity. Qed.

  (** [b'] differs from [b] at most in the listed arrays. *)
  Definition same_but (fs : list field) b b' : Prop :=
    b_cls b' = b_cls b /\ b_np b' = b_np b /\ b_l b' = b_l b /\ b_dim b' = b_dim b /\
    b_nuc b' = b_nuc b /\ b_spin b' = b_spin b /\ b_asym b' = b_asym b /\
    forall f, ~ In f fs -> b_arr b' f = b_arr b f.

  Section Change.
    Variables (l k : nat) (C D : arr).
    Hypothesis (HC : shape C = [l; k]) (HD : shape D = [k; l]).

    Lemma t1_some h : shape h = [l; l] -> exists h', transform_one_body h C (Some D) = Ok h' /\
      shape h' = [k; k] /\ forall p q, mat h' p q = T1 l (mat h) (mat C) (mat D) p q.
    Proof.
      intros H. destruct (transform_one_body_ok h C D l k k H HC HD) as (r & E & S & _ & G). eauto.
    Qed.

    Lemma t2_some b u x : b_arr b F_u = Some x -> length (shape x) = 4 -> shape u = [l; l; l; l] ->
      exists u', transform_two_body b u C (Some D) = Ok u' /\
      shape u' = [k; k; k; k] /\ forall p q r s, ten u' p q r s = T2 l (ten u) (mat C) (mat D) p q r s.
    Proof.
      intros Hx H4 Hu. unfold transform_two_body.
      assert (E : transform_two_body_dvr b u C false (Some D) = transform_two_body_base u C (Some D)).
      { unfold transform_two_body_dvr, u_repr. rewrite Hx. unfold ndim. rewrite H4. reflexivity. }
      rewrite E. destruct (b_cls b); apply transform_two_body_ok; assumption.
    Qed.

    Lemma spin_loop_ok b :
      (forall f a, In f [F_spx; F_spy; F_spz; F_sp2] -> b_arr b f = Some a -> shape a = [l; l]) ->
      for_each [b_arr b F_spx; b_arr b F_spy; b_arr b F_spz; b_arr b F_sp2]
          (fun spin => match spin with
             | None => ret tt
             | Some x => let* _ := lift (transform_one_body x C (Some D)) in ret tt
             end) b = (Ok tt, b).
    Proof.
      intros Hspin. apply for_each_asserts. intros x Hx.
      assert (exists f, In f [F_spx; F_spy; F_spz; F_sp2] /\ x = b_arr b f) as (f & Hf & ->).
      { cbn in Hx. destruct Hx as [<-|[<-|[<-|[<-|[]]]]];
          [exists F_spx|exists F_spy|exists F_spz|exists F_sp2]; (split; [cbn; tauto | reflexivity]). }
      destruct (b_arr b f) as [y|] eqn:Ey; [|reflexivity].
      destruct (t1_some y (Hspin f y Hf Ey)) as (y' & Ey' & _).
      unfold bind, lift. rewrite Ey'. reflexivity.
    Qed.

    Lemma one_body_ok b h m : b_np b = Some m -> b_l b = k ->
      b_arr b F_h = Some h -> shape h = [l; l] ->
      (forall a, b_arr b F_s = Some a -> shape a = [l; l]) ->
      (forall f a, In f [F_spx; F_spy; F_spz; F_sp2] -> b_arr b f = Some a -> shape a = [l; l]) ->
      exists b', change_basis_one_body C D b = (Ok tt, b') /\ same_but [F_h; F_s] b b' /\ changed1 l k C D (Some h) (b_arr b' F_h) /\ changed1 l k C D (b_arr b F_s) (b_arr b' F_s).
    Proof.
      intros Em Hl Hh Sh Hs Hspin.
      destruct (t1_some h Sh) as (h' & Eh & Sh' & Gh).
      assert (Hch : changed1 l k C D (Some h) (Some h')) by (split; auto).
      unfold change_basis_one_body.
      rewrite (bind_ok _ _ _ m b) by (apply need_np_ok; exact Em).
      rewrite (bind_ok _ _ _ (Some h) b) by (unfold rd; rewrite Hh; reflexivity).
      rewrite (bind_ok _ _ _ h b) by reflexivity.
      rewrite (bind_ok _ _ _ h' b) by (unfold lift; rewrite Eh; reflexivity).
      rewrite (bind_ok _ _ _ tt (set_arr F_h (Some h') b))
        by (apply set_sq_ok; rewrite Hl; apply check_axes2; exact Sh').
      destruct (b_arr b F_s) as [s|] eqn:Es.
      - destruct (t1_some s (Hs s eq_refl)) as (s' & Es' & Ss' & Gs).
        exists (set_arr F_s (Some s') (set_arr F_h (Some h') b)).
        split; [|split; [|split; [exact Hch | split; auto]]].
        + rewrite (bind_ok _ _ _ (Some s) (set_arr F_h (Some h') b)) by (unfold rd; cbn; rewrite Es; reflexivity).
          rewrite (bind_ok _ _ _ tt (set_arr F_s (Some s') (set_arr F_h (Some h') b))).
          * rewrite (bind_ok _ _ _ (set_arr F_s (Some s') (set_arr F_h (Some h') b))
                     (set_arr F_s (Some s') (set_arr F_h (Some h') b))) by reflexivity.
            apply spin_loop_ok. intros f a Hf Ha. apply (Hspin f a Hf). rewrite <- Ha.
            cbn in Hf. destruct Hf as [<-|[<-|[<-|[<-|[]]]]]; reflexivity.
          * rewrite (bind_ok _ _ _ s' (set_arr F_h (Some h') b)) by (unfold lift; rewrite Es'; reflexivity).
            apply set_sq_ok. cbn. rewrite Hl. apply check_axes2. exact Ss'.
        + sb.
      - exists (set_arr F_h (Some h') b).
        split; [|split; [|split; [exact Hch | cbn; rewrite Es; exact I]]].
        + rewrite (bind_ok _ _ _ None (set_arr F_h (Some h') b)) by (unfold rd; cbn; rewrite Es; reflexivity).
          rewrite (bind_ok _ _ _ tt (set_arr F_h (Some h') b)) by reflexivity.
          rewrite (bind_ok _ _ _ (set_arr F_h (Some h') b) (set_arr F_h (Some h') b)) by reflexivity.
          apply spin_loop_ok. intros f a Hf Ha. apply (Hspin f a Hf). rewrite <- Ha.
          cbn in Hf. destruct Hf as [<-|[<-|[<-|[<-|[]]]]]; reflexivity.
        + sb.
    Qed.

    Lemma two_body_ok b u m : b_np b = Some m -> b_l b = k ->
      b_arr b F_u = Some u -> shape u = [l; l; l; l] ->
      (forall a, b_arr b F_sp2tb = Some a -> shape a = [l; l; l; l] /\ b_spin b = true) ->
      exists b', change_basis_two_body C D b = (Ok tt, b') /\ same_but [F_u; F_sp2tb] b b' /\
        changed2 l k C D (Some u) (b_arr b' F_u) /\ changed2 l k C D (b_arr b F_sp2tb) (b_arr b' F_sp2tb).
    Proof.
      intros Em Hl Hu Su Ht.
      destruct (t2_some b u u Hu) as (u' & Eu & Su' & Gu); [rewrite Su; reflexivity | exact Su |].
      assert (Hch : changed2 l k C D (Some u) (Some u')) by (split; auto).
      unfold change_basis_two_body.
      rewrite (bind_ok _ _ _ m b) by (apply need_np_ok; exact Em).
      rewrite (bind_ok _ _ _ (Some u) b) by (unfold rd; rewrite Hu; reflexivity).
      rewrite (bind_ok _ _ _ u b) by reflexivity.
      rewrite (bind_ok _ _ _ b b) by reflexivity.
      rewrite (bind_ok _ _ _ u' b) by (unfold lift; rewrite Eu; reflexivity).
      rewrite (bind_ok _ _ _ tt (set_arr F_u (Some u') b))
        by (apply set_sq_ok; rewrite Hl; apply check_axes4; exact Su').
      rewrite (bind_ok _ _ _ (b_arr b F_sp2tb) (set_arr F_u (Some u') b)) by reflexivity.
      destruct (b_arr b F_sp2tb) as [t|] eqn:Et.
      - destruct (Ht t eq_refl) as [St Hsp].
        destruct (t2_some (set_arr F_u (Some u') b) t u') as (t' & Et' & St' & Gt);
          [reflexivity | rewrite Su'; reflexivity | exact St |].
        exists (set_arr F_sp2tb (Some t') (set_arr F_u (Some u') b)).
        split; [|split; [|split; [exact Hch | split; auto]]].
        + rewrite (bind_ok _ _ _ (set_arr F_u (Some u') b) (set_arr F_u (Some u') b)) by reflexivity.
          rewrite (bind_ok _ _ _ t' (set_arr F_u (Some u') b)) by (unfold lift; rewrite Et'; reflexivity).
          apply set_spin_op_ok; [exact Hsp|]. cbn. rewrite Hl. apply check_axes4. exact St'.
        + sb.
      - exists (set_arr F_u (Some u') b). split; [reflexivity|]. split; [sb|].
        split; [exact Hch|]. cbn. rewrite Et. exact I.
    Qed.

    Lemma dipole_ok b d m : b_np b = Some m -> b_l b = k -> (0 < b_dim b)%nat ->
      shape d = [b_dim b; l; l] ->
      exists b', change_basis_dipole d C D b = (Ok tt, b') /\ same_but [F_dip] b b' /\
        changed_dip (b_dim b) l k C D (Some d) (b_arr b' F_dip).
    Proof.
      intros Em Hl Hdim Sd. unfold change_basis_dipole.
      rewrite (bind_ok _ _ _ (b_dim b) b) by (unfold lift, shape_at; rewrite Sd; reflexivity).
      destruct (rmap_ok_ex (fun i => let! r := row d i in transform_one_body r C (Some D))
        (fun i y => shape y = [k; k] /\ forall p q, mat y p q = T1 l (fun x y => get d [i; x; y]) (mat C) (mat D) p q)
        (seq 0 (b_dim b))) as (ys & Eys & Fys).
      { intros i Hi. apply in_seq in Hi.
        destruct (row_ok K d (b_dim b) [l; l] i Sd) as (r & -> & Sr & _ & Gr); [lia|]. cbn [rbind].
        destruct (t1_some r Sr) as (y & -> & Sy & Gy). exists y. split; [reflexivity|]. split; [exact Sy|].
        intros p q. rewrite Gy. apply T1_ext; [|reflexivity|reflexivity]. intros. apply Gr. }
      rewrite (bind_ok _ _ _ ys b) by (unfold lift; rewrite Eys; reflexivity).
      rewrite (bind_ok _ _ _ m b) by (apply need_np_ok; exact Em).
      pose proof (Forall2_len _ _ _ Fys) as Hlen. rewrite seq_length in Hlen.
      destruct (stack_ok K ys [k; k]) as (c & Ec & Sc & Gc).
      { intros x Hx. destruct (In_nth_error _ _ Hx) as [i Hi].
        destruct (Forall2_nth_r _ _ _ _ _ Fys Hi) as (j & _ & Hj & _). exact Hj. }
      { intros ->. cbn in Hlen. lia. }
      rewrite (bind_ok _ _ _ c b) by (unfold lift; rewrite Ec; reflexivity).
      assert (Sc' : shape c = [b_dim b; b_l b; b_l b]) by (rewrite Sc, <- Hlen, Hl; reflexivity).
      exists (set_arr F_dip (Some c) b). rewrite set_dipole_ok by exact Sc'.
      split; [reflexivity|]. split; [sb|]. split; [rewrite Sc', Hl; reflexivity|].
      intros i p q Hi Hp Hq.
      destruct (nth_error ys i) as [y|] eqn:Ey.
      - rewrite (Gc i y [p; q] Ey). destruct (Forall2_nth_r _ _ _ _ _ Fys Ey) as (j & Hj & _ & G).
        apply nth_error_seq in Hj. destruct Hj as [-> _]. apply G.
      - apply nth_error_None in Ey. lia.
    Qed.

    Lemma spf_ok b spf m g : b_np b = Some m -> b_l b = k ->
      b_arr b F_spf = Some spf -> shape spf = l :: g -> length g = b_dim b ->
      (forall a, b_arr b F_bra = Some a -> exists g, shape a = l :: g /\ length g = b_dim b) ->
      exists b', change_basis_spf C D b = (Ok tt, b') /\ same_but [F_spf; F_bra] b b' /\
        changed_spf l k C (Some spf) (b_arr b' F_spf) /\ changed_bra l k D (bra_view b) (b_arr b' F_bra).
    Proof.
      intros Em Hl Hspf Sspf Hg Hbra.
      assert (exists bra b1 g', get_bra b = (Ok (Some bra), b1) /\ bra_view b = Some bra /\
                same_but [F_bra] b b1 /\ shape bra = l :: g' /\ length g' = b_dim b)
        as (bra & b1 & g' & Eg & Ev & Hsb & Sb & Hg').
      { unfold get_bra, bra_view, bind, rd. destruct (b_arr b F_bra) as [bra|] eqn:Eb.
        - destruct (Hbra bra eq_refl) as (g' & S1 & S2).
          exists bra, b, g'. cbn. split; [reflexivity|]. split; [reflexivity|]. split; [sb|]. auto.
        - rewrite Hspf. exists (aconj spf), (set_arr F_bra (Some (aconj spf)) b), g. cbn.
          split; [reflexivity|]. split; [reflexivity|]. split; [sb|]. auto. }
      destruct (transform_bra_ok bra D l k g' Sb HD) as (bra' & Ebra & Sbra & Dbra & Gbra).
      destruct (transform_spf_ok spf C l k g Sspf HC) as (spf' & Espf & Sspf' & Dspf & Gspf).
      destruct Hsb as (H1 & H2 & H3 & H4 & H5 & H6 & H7 & H8).
      unfold change_basis_spf.
      rewrite (bind_ok _ _ _ (Some bra) b1) by exact Eg.
      rewrite (bind_ok _ _ _ m b1) by (apply need_np_ok; congruence).
      rewrite (bind_ok _ _ _ bra b1) by reflexivity.
      rewrite (bind_ok _ _ _ bra' b1) by (unfold lift; rewrite Ebra; reflexivity).
      rewrite (bind_ok _ _ _ tt (set_arr F_bra (Some bra') b1))
        by (apply (set_orbitals_ok _ _ _ g'); [rewrite Sbra; congruence | congruence]).
      assert (Hspf1 : b_arr b1 F_spf = Some spf).
      { rewrite H8; [exact Hspf|]. cbn. intros [E|[]]; discriminate. }
      rewrite (bind_ok _ _ _ (Some spf) (set_arr F_bra (Some bra') b1))
        by (unfold rd; cbn; rewrite Hspf1; reflexivity).
      rewrite (bind_ok _ _ _ spf (set_arr F_bra (Some bra') b1)) by reflexivity.
      rewrite (bind_ok _ _ _ spf' (set_arr F_bra (Some bra') b1)) by (unfold lift; rewrite Espf; reflexivity).
      exists (set_arr F_spf (Some spf') (set_arr F_bra (Some bra') b1)).
      split; [apply (set_orbitals_ok _ _ _ g); cbn; [rewrite Sspf'; congruence | congruence]|].
      split.
      { repeat split; cbn; try assumption. intros f Hf.
        rewrite !upd_other by (intros <-; apply Hf; cbn; auto). apply H8. cbn. intros [<-|[]]. apply Hf. cbn. auto. }
      split; [|rewrite Ev]; cbn.
      - rewrite Sspf. split; [exact Sspf'|]. split; [exact Dspf|]. intros. apply Gspf.
      - rewrite Sb. split; [exact Sbra|]. split; [exact Dbra|]. intros. apply Gbra.
    Qed.

    (** [u] is the four-index array the stored two-body elements stand for. *)
    Lemma change_basis_gen b (u : arr) : ready (set_arr F_u (Some u) b) l ->
      (forall b1, same_but [F_h; F_s] (set_l k b) b1 ->
         exists b2, change_basis_two_body C D b1 = (Ok tt, b2) /\ same_but [F_u; F_sp2tb] b1 b2 /\
           changed2 l k C D (Some u) (b_arr b2 F_u) /\ changed2 l k C D (b_arr b1 F_sp2tb) (b_arr b2 F_sp2tb)) ->
      exists b', change_basis C (Some D) b = (Ok tt, b') /\ basis_changed l k C D (set_arr F_u (Some u) b) b'.
    Proof.
      intros [Hnp Hl (h & Hh & Sh) _ Hs Hdip Hspf Hbra Hspin Htb] H2.
      change (b_arr (set_arr F_u (Some u) b) F_h) with (b_arr b F_h) in Hh.
      change (b_arr (set_arr F_u (Some u) b) F_s) with (b_arr b F_s) in Hs.
      change (b_arr (set_arr F_u (Some u) b) F_dip) with (b_arr b F_dip) in Hdip.
      change (b_arr (set_arr F_u (Some u) b) F_spf) with (b_arr b F_spf) in Hspf.
      change (b_arr (set_arr F_u (Some u) b) F_bra) with (b_arr b F_bra) in Hbra.
      cbn [set_arr b_np b_l b_dim b_spin] in Hnp, Hl, Hdip, Hspf, Hbra, Htb.
      assert (Hspin' : forall f a, In f [F_spx; F_spy; F_spz; F_sp2] -> b_arr b f = Some a -> shape a = [l; l]).
      { intros f a Hf Ha. apply (Hspin f a Hf). cbn in Hf |- *. destruct_or Hf; subst; exact Ha. }
      destruct Hnp as [m Hm].
      unfold change_basis.
      rewrite (bind_ok _ _ _ k b) by (unfold lift, shape_at; rewrite HC; reflexivity).
      rewrite (bind_ok _ _ _ tt (set_l k b)) by reflexivity. cbn [default_tilde].
      destruct (one_body_ok (set_l k b) h m) as (b1 & E1 & (A1&A2&A3&A4&A5&A6&A7&A8) & Ch & Cs); auto.
      cbn in A1, A2, A3, A4, A5, A6, A7.
      rewrite (bind_ok _ _ _ tt b1) by exact E1.
      assert (F1 : forall f, ~ In f [F_h; F_s] -> b_arr b1 f = b_arr b f) by (intros; apply A8; assumption).
      destruct (H2 b1) as (b2 & E2 & (B1&B2&B3&B4&B5&B6&B7&B8) & Cu & Ct).
      { repeat split; assumption. }
      rewrite (bind_ok _ _ _ tt b2) by exact E2.
      assert (F2 : forall f, ~ In f [F_h; F_s; F_u; F_sp2tb] -> b_arr b2 f = b_arr b f).
      { intros f Hf. rewrite B8, F1; [reflexivity| |]; intros Hi; apply Hf; cbn in *; tauto. }
      rewrite (bind_ok _ _ _ (b_arr b F_dip) b2) by (unfold rd; rewrite F2 by notin; reflexivity).
      assert (exists b3, (match b_arr b F_dip with None => ret tt | Some d => change_basis_dipole d C D end) b2
                = (Ok tt, b3) /\ same_but [F_dip] b2 b3 /\
                changed_dip (b_dim b) l k C D (b_arr b F_dip) (b_arr b3 F_dip))
        as (b3 & E3 & (C1&C2&C3&C4&C5&C6&C7&C8) & Cd).
      { destruct (b_arr b F_dip) as [d|] eqn:Ed.
        - destruct (Hdip d eq_refl) as [Sd Hpos].
          destruct (dipole_ok b2 d m) as (b3 & E3 & S3 & Cd).
          { congruence. } { rewrite B3, A3. reflexivity. } { rewrite B4, A4. exact Hpos. }
          { rewrite B4, A4. exact Sd. }
          exists b3. split; [exact E3|]. split; [exact S3|]. rewrite B4, A4 in Cd. exact Cd.
        - exists b2. split; [reflexivity|]. split; [sb|]. rewrite F2 by notin. rewrite Ed. exact I. }
      rewrite (bind_ok _ _ _ tt b3) by exact E3.
      assert (F3 : forall f, ~ In f [F_h; F_s; F_u; F_sp2tb; F_dip] -> b_arr b3 f = b_arr b f).
      { intros f Hf. rewrite C8, F2; [reflexivity| |]; intros Hi; apply Hf; cbn in *; tauto. }
      rewrite (bind_ok _ _ _ (b_arr b F_spf) b3) by (unfold rd; rewrite F3 by notin; reflexivity).
      assert (exists b4, (match b_arr b F_spf with None => ret tt | Some _ => change_basis_spf C D end) b3
                = (Ok tt, b4) /\ same_but [F_spf; F_bra] b3 b4 /\
                changed_spf l k C (b_arr b F_spf) (b_arr b4 F_spf) /\
                (b_arr b F_spf <> None -> changed_bra l k D (bra_view b) (b_arr b4 F_bra)) /\
                (b_arr b F_spf = None -> b_arr b4 F_bra = b_arr b F_bra))
        as (b4 & E4 & (D1&D2&D3&D4&D5&D6&D7&D8) & Csp & Cbr & Cbr0).
      { destruct (b_arr b F_spf) as [spf|] eqn:Espf.
        - destruct (Hspf spf eq_refl) as (g & Sg & Lg).
          destruct (spf_ok b3 spf m g) as (b4 & E4 & S4 & Csp & Cbr).
          { congruence. } { rewrite C3, B3, A3. reflexivity. }
          { rewrite F3 by notin. exact Espf. } { exact Sg. } { rewrite C4, B4, A4. exact Lg. }
          { rewrite F3 by notin. rewrite C4, B4, A4. exact Hbra. }
          exists b4. split; [exact E4|]. split; [exact S4|]. split; [exact Csp|].
          split; [|congruence]. intros _. unfold bra_view in *. rewrite !F3 in Cbr by notin. exact Cbr.
        - exists b3. split; [reflexivity|]. split; [sb|]. rewrite !F3 by notin. rewrite Espf.
          split; [exact I|]. split; [congruence | reflexivity]. }
      exists b4. split; [exact E4|].
      assert (F4 : forall f, ~ In f [F_spf; F_bra; F_dip] -> b_arr b4 f = b_arr b2 f).
      { intros f Hf. rewrite D8, C8; [reflexivity| |]; intros Hi; apply Hf; cbn in *; tauto. }
      assert (F5 : forall f, ~ In f [F_h; F_s; F_u; F_sp2tb; F_dip; F_spf; F_bra] -> b_arr b4 f = b_arr b f).
      { intros f Hf. rewrite D8, F3; [reflexivity| |]; intros Hi; apply Hf; cbn in *; tauto. }
      constructor.
      1-7: cbn in *; congruence.
      - cbn [set_arr b_arr upd field_eqb]. rewrite F4, B8, Hh by notin. exact Ch.
      - cbn [set_arr b_arr upd field_eqb]. rewrite F4, B8 by notin. exact Cs.
      - cbn [set_arr b_arr upd field_eqb]. rewrite F4 by notin. exact Cu.
      - cbn [set_arr b_arr upd field_eqb]. rewrite F4 by notin. rewrite F1 in Ct by notin. exact Ct.
      - cbn [set_arr b_arr upd field_eqb]. rewrite D8 by notin. exact Cd.
      - exact Csp.
      - exact Cbr.
      - exact Cbr0.
      - intros f Hf. rewrite F5; cbn in Hf; destruct_or Hf; subst; try notin; reflexivity.
    Qed.

    Theorem change_basis_ok b : ready b l ->
      exists b', change_basis C (Some D) b = (Ok tt, b') /\ basis_changed l k C D b b'.
    Proof.
      intros R. pose proof R as [Hnp Hl (h & Hh & Sh) (u & Hu & Su) Hs Hdip Hspf Hbra Hspin Htb].
      destruct Hnp as [m Hm].
      assert (Eq : forall f, b_arr (set_arr F_u (Some u) b) f = b_arr b f).
      { intros f. cbn. unfold upd. destruct f; try reflexivity. symmetry. exact Hu. }
      assert (Eb : bra_view (set_arr F_u (Some u) b) = bra_view b) by (unfold bra_view; rewrite !Eq; reflexivity).
      destruct (change_basis_gen b u) as (b' & E & B).
      - destruct R. constructor; try setoid_rewrite Eq; assumption.
      - intros b1 (A1&A2&A3&A4&A5&A6&A7&A8). cbn in A1, A2, A3, A4, A5, A6, A7.
        apply (two_body_ok b1 u m).
        { congruence. } { exact A3. } { rewrite A8 by notin. exact Hu. } { exact Su. }
        { rewrite A8 by notin. intros a Ha. rewrite A6. apply Htb. exact Ha. }
      - exists b'. split; [exact E|]. destruct B as [X1 X2 X3 X4 X5 X6 X7 X8 X9 X10 X11 X12 X13 X14 X15 X16].
        rewrite ?Eq, ?Eb in *. constructor; try assumption.
        intros f Hf. rewrite (X16 f Hf). apply Eq.
    Qed.
  End Change.
End Facts.
