(** copy.deepcopy copies: every graph without modules, of any shape. *)
From Coq Require Import List Arith Lia Bool String.
From Verif Require Import Py PyHeap HeapSpec.
Import ListNotations.

Section Lists.
  Variable data : Type.
  Notation obj := (obj data).
  Lemma hset_length (a : nat) (o : obj) : forall H, List.length (hset a o H) = List.length H.
  Proof. induction a as [|a IH]; intros [|x H]; cbn; auto. Qed.
  Lemma hset_same (a : nat) (o : obj) : forall H, a < List.length H -> nth_error (hset a o H) a = Some o.
  Proof. induction a as [|a IH]; intros [|x H]; cbn; intros L; try lia; [reflexivity|]. apply IH. lia. Qed.
  Lemma hset_other (a b : nat) (o : obj) : forall H, b <> a -> nth_error (hset a o H) b = nth_error H b.
  Proof.
    revert b. induction a as [|a IH]; intros b [|x H] Hb; cbn; try reflexivity.
    - destruct b; [lia|reflexivity].
    - destruct b as [|b]; [reflexivity|]. cbn. apply IH. lia.
  Qed.
  Lemma nth_app_l (H H' : list obj) (a : nat) : a < List.length H -> nth_error (H ++ H') a = nth_error H a.
  Proof. intros. apply nth_error_app1. assumption. Qed.
  Lemma nth_last (H : list obj) (o : obj) : nth_error (H ++ [o]) (List.length H) = Some o.
  Proof. rewrite nth_error_app2 by lia. rewrite Nat.sub_diag. reflexivity. Qed.
  Lemma nth_valid (H : list obj) (a : nat) o : nth_error H a = Some o -> a < List.length H.
  Proof. intros E. apply nth_error_Some. rewrite E. discriminate. Qed.
End Lists.

Section DeepCopy.
  Variable data : Type.
  Notation obj := (obj data). Notation heap := (heap data). Notation value := (value data). Notation memo := (memo).
  Variable H0 : heap.
  Notation n := (List.length H0).
  Hypothesis Hclosed : forall x o y, nth_error H0 x = Some o -> In y (attr_refs o) -> y < n.

  Definition is_func (y : nat) : Prop := exists f cs, nth_error H0 y = Some (Func f cs).
  Definition copyable (o : obj) : Prop := match o with Buffer _ | Inst _ _ => True | _ => False end.
  Definition ren (m : memo) (v : value) : value :=
    match v with Ref a => match m a with Some b => Ref b | None => v end | _ => v end.
  Definition ren_obj (m : memo) (o : obj) : obj :=
    match o with Inst c l => Inst c (map (fun p => (fst p, ren m (snd p))) l) | _ => o end.
  Definition known (m : memo) (y : nat) : Prop := (exists b, m y = Some b) \/ is_func y.
  Definition known_value (m : memo) (v : value) : Prop := match v with Ref y => known m y | _ => True end.
  Definition valid_value (v : value) : Prop := match v with Ref y => y < n | _ => True end.
  Definition from_value (v : value) (x : nat) : Prop := match v with Ref y => reaches H0 y x | _ => False end.
  Definition ext (m m' : memo) : Prop := forall a b, m a = Some b -> m' a = Some b.

  Record inv (P : nat -> Prop) (H : heap) (m : memo) : Prop := Inv {
    i_old : forall a, a < n -> nth_error H a = nth_error H0 a;
    i_len : n <= List.length H;
    i_memo : forall a b, m a = Some b -> n <= b < List.length H /\ exists o, nth_error H0 a = Some o /\ copyable o;
    i_inj : forall a a' b, m a = Some b -> m a' = Some b -> a = a';
    i_new : forall b, n <= b < List.length H -> exists a, m a = Some b;
    i_done : forall a b, m a = Some b -> ~ P a -> exists o, nth_error H0 a = Some o /\ nth_error H b = Some (ren_obj m o) /\
      forall y, In y (attr_refs o) -> known m y }.

  (** Objects not yet in the memo *)
  Definition todo (m : memo) : nat := List.length (filter (fun a => match m a with None => true | Some _ => false end) (seq 0 n)).
  Lemma todo_ext m m' : ext m m' -> todo m' <= todo m.
  Proof.
    intros E. unfold todo. induction (seq 0 n) as [|a l IH]; [apply le_n|]. cbn.
    destruct (m a) as [b|] eqn:Ea.
    - rewrite (E a b Ea). exact IH.
    - destruct (m' a); cbn; lia.
  Qed.
  Lemma todo_set m a b : a < n -> m a = None -> todo (mset a b m) < todo m.
  Proof.
    intros Ha Hm. unfold todo. assert (Hin : In a (seq 0 n)) by (apply in_seq; lia).
    induction (seq 0 n) as [|x l IH]; [destruct Hin|]. cbn. unfold mset at 1. destruct (Nat.eqb_spec x a) as [->|Hx].
    - rewrite Hm. cbn. apply Nat.lt_succ_r. clear IH Hin. induction l as [|y l IH]; [apply le_n|]. cbn. unfold mset at 1.
      destruct (Nat.eqb_spec y a) as [->|Hy].
      + rewrite Hm. cbn. lia.
      + destruct (m y); cbn; lia.
    - destruct Hin as [->|Hin]; [contradiction|]. destruct (m x); cbn; specialize (IH Hin); lia.
  Qed.
  Lemma known_ext m m' y : ext m m' -> known m y -> known m' y.
  Proof. intros E [(b & Hb)|F]; [left; exists b; apply E; exact Hb|right; exact F]. Qed.
  Lemma func_unknown P H m y : inv P H m -> is_func y -> m y = None.
  Proof.
    intros I (f & cs & F). destruct (m y) as [b|] eqn:E; [|reflexivity].
    destruct (i_memo P H m I y b E) as (_ & o & Ho & Hc). rewrite F in Ho. injection Ho as <-. destruct Hc.
  Qed.
  Lemma ren_ext P H m m' v : inv P H m' -> ext m m' -> known_value m v -> ren m v = ren m' v.
  Proof.
    intros I E K. destruct v as [|d|y]; try reflexivity. cbn in *. destruct K as [(b & Hb)|F].
    - rewrite Hb, (E y b Hb). reflexivity.
    - rewrite (func_unknown P H m' y I F). destruct (m y) as [b|] eqn:Hy; [|reflexivity].
      pose proof (E y b Hy) as X. rewrite (func_unknown P H m' y I F) in X. discriminate X.
  Qed.
  Lemma refs_known (m : memo) c (l : list (string * value)) : (forall y, In y (attr_refs (Inst c l)) -> known m y) <-> (forall p, In p l -> known_value m (snd p)).
  Proof.
    cbn. unfold refs_of_values. split.
    - intros Hk [k v] Hp. destruct v as [|d|y]; cbn; auto. apply Hk. apply in_flat_map. exists (Ref y). split; [|left; reflexivity].
      apply in_map_iff. exists (k, Ref y). auto.
    - intros Hk y Hy. apply in_flat_map in Hy. destruct Hy as (v & Hv & Hy). apply in_map_iff in Hv. destruct Hv as ([k v'] & <- & Hp).
      specialize (Hk _ Hp). cbn in *. destruct v' as [|d|z]; cbn in Hy; [destruct Hy|destruct Hy|]. destruct Hy as [->|[]]. exact Hk.
  Qed.
  Lemma ren_obj_ext P H m m' o : inv P H m' -> ext m m' -> (forall y, In y (attr_refs o) -> known m y) -> ren_obj m o = ren_obj m' o.
  Proof.
    intros I E K. destruct o as [k|f cs|d|c l]; try reflexivity. cbn. f_equal. apply map_ext_in. intros p Hp. f_equal.
    apply (ren_ext P H); try assumption. apply (proj1 (refs_known m c l) K). exact Hp.
  Qed.

  Definition good (P : nat -> Prop) (m : memo) (vs : list value) (r : res (list value)) (H' : heap) (m' : memo) : Prop :=
    match r with
    | Ok vs' => inv P H' m' /\ ext m m' /\ vs' = map (ren m') vs /\ (forall v, In v vs -> known_value m' v) /\
        (forall a b, m' a = Some b -> m a = None -> exists v, In v vs /\ from_value v a)
    | Err e => e = TypeError /\ (exists v x k, In v vs /\ from_value v x /\ nth_error H0 x = Some (Module k)) /\
        (forall a, a < n -> nth_error H' a = nth_error H0 a) /\ n <= List.length H'
    end.
  Definition rmap1 (r : res value) : res (list value) := match r with Ok v => Ok [v] | Err e => Err e end.
  Definition copier (dc : value -> M (dstate data) value) (bound : nat) : Prop :=
    forall P v H m, inv P H m -> valid_value v -> todo m < bound ->
    let (r, st) := dc v (H, m) in good P m [v] (rmap1 r) (fst st) (snd st).

  Lemma attrs_copied dc bound : copier dc bound -> forall (l : list (string * value)) P H m,
    inv P H m -> (forall p, In p l -> valid_value (snd p)) -> todo m < bound ->
    let (r, st) := copy_attrs dc l (H, m) in
    match r with
    | Ok l' => good P m (map snd l) (Ok (map snd l')) (fst st) (snd st) /\ map fst l' = map fst l
    | Err e => good P m (map snd l) (Err e) (fst st) (snd st)
    end.
  Proof.
    intros D. induction l as [|[k v] l IH]; intros P H m I Hv Ht.
    - cbn. split; [|reflexivity]. split; [exact I|]. split; [intros a b Hab; exact Hab|]. split; [reflexivity|]. split; [intros ? []|].
      intros a b Hb Hn. rewrite Hb in Hn. discriminate Hn.
    - cbn [copy_attrs]. unfold bind at 1. pose proof (D P v H m I (Hv (k, v) (or_introl eq_refl)) Ht) as Dv.
      destruct (dc v (H, m)) as [[v'|e] [H1 m1]]; cbn [fst snd rmap1] in Dv.
      + destruct Dv as (I1 & E1 & Ev & Kv & F1). unfold bind at 1.
        assert (Ht1 : todo m1 < bound) by (pose proof (todo_ext m m1 E1); lia).
        specialize (IH P H1 m1 I1 (fun p Hp => Hv p (or_intror Hp)) Ht1).
        destruct (copy_attrs dc l (H1, m1)) as [[l'|e] [H2 m2]]; cbn [fst snd ret] in IH |- *.
        * destruct IH as [(I2 & E2 & El & Kl & F2) En]. split; [|cbn; f_equal; exact En].
          split; [exact I2|]. split; [intros a b Hab; apply E2, E1; exact Hab|]. split; [|split].
          -- cbn [map snd]. rewrite El. cbn in Ev. injection Ev as ->. f_equal. apply (ren_ext P H2); auto. apply Kv. left. reflexivity.
          -- intros w [<-|Hw]; [|apply Kl; exact Hw]. specialize (Kv v (or_introl eq_refl)). cbn [snd] in *. destruct v as [|d|y]; cbn in *; auto.
             apply (known_ext m1); assumption.
          -- intros a b Hb Hn. destruct (m1 a) as [b1|] eqn:E1a.
             ++ destruct (F1 a b1 E1a Hn) as (w & [<-|[]] & Hw). exists v. cbn. auto.
             ++ destruct (F2 a b Hb E1a) as (w & Hw & Hf). exists w. cbn. auto.
        * destruct IH as (-> & (w & x & k' & Hw & Hf & Hm) & Ho & Hl). split; [reflexivity|]. split; [|auto]. exists w, x, k'. cbn. auto.
      + destruct Dv as (-> & (w & x & k' & [<-|[]] & Hf & Hm) & Ho & Hl). split; [reflexivity|]. split; [|auto]. exists v, x, k'. cbn. auto.
  Qed.

  Lemma reaches_trans_step a o y x : nth_error H0 a = Some o -> In y (attr_refs o) -> reaches H0 y x -> reaches H0 a x.
  Proof.
    intros Ha Hy R. induction R as [|x1 o1 y1 _ IH Hx Hin].
    - eapply reach_step; [apply reach_refl|exact Ha|exact Hy].
    - eapply reach_step; [exact IH|exact Hx|exact Hin].
  Qed.
  Lemma in_refs (l : list (string * value)) p y : In p l -> snd p = Ref y -> In y (refs_of_values (map snd l)).
  Proof. intros Hp E. apply in_flat_map. exists (Ref y). split; [|left; reflexivity]. rewrite <- E. apply in_map. exact Hp. Qed.
  (** Allocation and memo entry *)
  Lemma inv_alloc P H m a o : inv P H m -> m a = None -> a < n -> nth_error H0 a = Some o -> copyable o ->
    inv (fun x => P x \/ x = a) (H ++ [match o with Inst c _ => Inst c [] | _ => o end]) (mset a (List.length H) m).
  Proof.
    intros I Hm Ha Ho Hc. assert (E : ext m (mset a (List.length H) m)).
    { intros x b Hx. unfold mset. destruct (Nat.eqb_spec x a) as [->|]; [congruence|exact Hx]. }
    assert (L : List.length (H ++ [match o with Inst c _ => Inst c [] | _ => o end]) = S (List.length H)) by (rewrite app_length; cbn; lia).
    assert (Hlen := i_len P H m I).
    assert (M : forall x b, mset a (List.length H) m x = Some b -> n <= b < S (List.length H) /\ exists o, nth_error H0 x = Some o /\ copyable o).
    { intros x b. unfold mset. destruct (Nat.eqb_spec x a) as [->|Hx].
      - intros X. injection X as <-. split; [lia|eauto].
      - intros X. destruct (i_memo P H m I x b X) as [B O]. split; [lia|exact O]. }
    constructor.
    - intros x Hx. rewrite nth_app_l by lia. apply (i_old P H m I). exact Hx.
    - lia.
    - rewrite L. exact M.
    - intros x x' b. unfold mset. destruct (Nat.eqb_spec x a) as [->|Hx]; destruct (Nat.eqb_spec x' a) as [->|Hx']; intros X X'; try reflexivity.
      + injection X as <-. destruct (i_memo P H m I x' _ X') as [B _]. lia.
      + injection X' as <-. destruct (i_memo P H m I x _ X) as [B _]. lia.
      + apply (i_inj P H m I x x' b X X').
    - intros b Hb. rewrite L in Hb. destruct (Nat.eq_dec b (List.length H)) as [->|Hne].
      + exists a. unfold mset. rewrite Nat.eqb_refl. reflexivity.
      + destruct (i_new P H m I b ltac:(lia)) as (x & Hx). exists x. apply E. exact Hx.
    - intros x b Hx Hp. assert (Hxa : x <> a) by (intros ->; apply Hp; right; reflexivity).
      unfold mset in Hx. destruct (Nat.eqb_spec x a); [contradiction|].
      destruct (i_done P H m I x b Hx (fun p => Hp (or_introl p))) as (o1 & Ho1 & Hb & Hk). exists o1. split; [exact Ho1|]. split.
      + destruct (i_memo P H m I x b Hx) as [B _]. rewrite nth_app_l by lia. rewrite Hb. f_equal.
        destruct o1 as [k|f cs|d|c l]; try reflexivity. cbn. f_equal. apply map_ext_in. intros [k v] Hp1. cbn. f_equal.
        destruct v as [|d|y]; try reflexivity. cbn. destruct (Nat.eq_dec y a) as [->|Hya].
        * destruct (Hk a) as [(b1 & Hb1)|F]; [apply (in_refs l (k, Ref a)); auto|congruence|].
          destruct F as (f & cs & F). rewrite Ho in F. injection F as ->. destruct Hc.
        * unfold mset. destruct (Nat.eqb_spec y a); [contradiction|reflexivity].
      + intros y Hy. apply (known_ext m); [exact E|]. apply Hk. exact Hy.
  Qed.

  Lemma dcopy_copies : forall fuel, copier (dcopy fuel) fuel.
  Proof.
    induction fuel as [|fuel IH]; intros P v H m I Hv Ht; [lia|].
    assert (Ekeep : ext m m) by (intros a b Hab; exact Hab).
    assert (Fkeep : forall a b, m a = Some b -> m a = None -> exists w, In w [v] /\ from_value w a) by (intros; congruence).
    destruct v as [|d|a]; [cbn..|].
    - split; [exact I|]. split; [exact Ekeep|]. split; [reflexivity|]. split; [intros w [<-|[]]; exact Logic.I|exact Fkeep].
    - split; [exact I|]. split; [exact Ekeep|]. split; [reflexivity|]. split; [intros w [<-|[]]; exact Logic.I|exact Fkeep].
    - cbn [valid_value] in Hv. cbn [dcopy]. destruct (m a) as [b|] eqn:Ma.
      + cbn. split; [exact I|]. split; [exact Ekeep|]. rewrite Ma. split; [reflexivity|]. split; [|exact Fkeep]. intros w [<-|[]]. left. eauto.
      + rewrite (i_old P H m I a Hv). destruct (nth_error H0 a) as [o|] eqn:Ho; [|apply nth_error_None in Ho; lia].
        assert (Hself : forall b0, exists w, In w [Ref a] /\ from_value (w : value) b0 \/ b0 <> a).
        { intros b0. destruct (Nat.eq_dec b0 a) as [->|N]; exists (Ref a); [left; split; [left; reflexivity|apply reach_refl]|right; exact N]. }
        destruct o as [k|f cs|d|c l].
        * cbn. split; [reflexivity|]. split; [|split; [apply (i_old P H m I)|apply (i_len P H m I)]].
          exists (Ref a), a, k. split; [left; reflexivity|]. split; [apply reach_refl|exact Ho].
        * cbn. split; [exact I|]. split; [exact Ekeep|]. rewrite Ma. split; [reflexivity|]. split; [|exact Fkeep].
          intros w [<-|[]]. right. exists f, cs. exact Ho.
        * cbn [fst snd rmap1 good]. pose proof (inv_alloc P H m a (Buffer d) I Ma Hv Ho Logic.I) as I1. cbv beta iota in I1.
          set (m1 := mset a (List.length H) m) in *. assert (Hm1 : m1 a = Some (List.length H)) by (unfold m1, mset; rewrite Nat.eqb_refl; reflexivity).
          split; [|split; [|split; [|split]]].
          -- destruct I1 as [J1 J2 J3 J4 J5 J6]. constructor; try assumption. intros x b Hx Hp.
             destruct (Nat.eq_dec x a) as [->|Hxa].
             ++ rewrite Hm1 in Hx. injection Hx as <-. exists (Buffer d). split; [exact Ho|]. split; [apply nth_last|intros ? []].
             ++ apply (J6 x b Hx). intros [p|p]; auto.
          -- intros x b Hx. unfold m1, mset. destruct (Nat.eqb_spec x a) as [->|]; [congruence|exact Hx].
          -- cbn. rewrite Hm1. reflexivity.
          -- intros w [<-|[]]. left. eauto.
          -- intros x b Hx Hn. unfold m1, mset in Hx. destruct (Nat.eqb_spec x a) as [->|]; [|congruence].
             exists (Ref a). split; [left; reflexivity|apply reach_refl].
        * pose proof (inv_alloc P H m a (Inst c l) I Ma Hv Ho Logic.I) as I1. cbv beta iota in I1.
          set (m1 := mset a (List.length H) m) in *. assert (Hm1 : m1 a = Some (List.length H)) by (unfold m1, mset; rewrite Nat.eqb_refl; reflexivity).
          assert (E1 : ext m m1) by (intros x b Hx; unfold m1, mset; destruct (Nat.eqb_spec x a) as [->|]; [congruence|exact Hx]).
          pose proof (todo_set m a (List.length H) Hv Ma) as Ht1. fold m1 in Ht1.
          assert (Hvl : forall p, In p l -> valid_value (snd p)).
          { intros [k v] Hp. cbn. destruct v as [|d|y]; cbn; auto. apply (Hclosed a _ y Ho). apply (in_refs l (k, Ref y)); auto. }
          pose proof (attrs_copied _ _ IH l _ _ _ I1 Hvl ltac:(lia)) as A.
          unfold bind at 1. match type of A with context [copy_attrs (dcopy fuel) l ?st] => set (X := copy_attrs (dcopy fuel) l st) in A end.
          match goal with |- context [copy_attrs ?d ?x ?st] => change (copy_attrs d x st) with X end.
          destruct X as [[l'|e] [H2 m2]]; cbn [fst snd] in A.
          -- destruct A as [(I2 & E2 & El & Kl & F2) En]. cbn [bind modify ret fst snd rmap1 good].
             assert (El' : l' = map (fun p => (fst p, ren m2 (snd p))) l).
             { clear -El En. revert l El En. induction l' as [|[k v] l' IH]; intros [|[k0 v0] l]; cbn; intros El En; try discriminate; [reflexivity|].
               injection El as -> El. injection En as -> En. f_equal. apply IH; assumption. }
             assert (Hm2 : m2 a = Some (List.length H)) by (apply E2; exact Hm1).
             destruct I2 as [J1 J2 J3 J4 J5 J6]. pose proof (i_len P H m I) as Ln. destruct (J3 a _ Hm2) as [Bn _].
             assert (I2' : inv P (hset (List.length H) (Inst c l') H2) m2).
             { constructor; try rewrite hset_length; try assumption.
               - intros x Hx. rewrite hset_other by lia. apply J1. exact Hx.
               - intros x b Hx Hp. destruct (Nat.eq_dec x a) as [->|Hxa].
                 + rewrite Hm2 in Hx. injection Hx as <-. exists (Inst c l). split; [exact Ho|]. split.
                   * rewrite hset_same by lia. rewrite El'. reflexivity.
                   * apply (proj2 (refs_known m2 c l)). intros p Hp1. apply Kl. apply in_map. exact Hp1.
                 + destruct (J6 x b Hx) as (o & Ho1 & Hb & Hk); [intros [p|p]; auto|]. exists o. split; [exact Ho1|]. split; [|exact Hk].
                   rewrite hset_other; [exact Hb|]. intros ->. apply Hxa. apply (J4 x a (List.length H)); assumption. }
             split; [exact I2'|]. split; [intros x b Hx; apply E2, E1; exact Hx|]. split; [cbn; rewrite Hm2; reflexivity|].
             split; [intros w [<-|[]]; left; eauto|].
             intros x b Hx Hn. exists (Ref a). split; [left; reflexivity|]. cbn. destruct (m1 x) as [b1|] eqn:M1x.
             ++ unfold m1, mset in M1x. destruct (Nat.eqb_spec x a) as [->|]; [apply reach_refl|congruence].
             ++ destruct (F2 x b Hx M1x) as (w & Hw & Hf). destruct w as [|d|y]; cbn in Hf; try contradiction.
                apply in_map_iff in Hw. destruct Hw as (p & Ep & Hp). apply (reaches_trans_step a _ y x Ho); [|exact Hf]. apply (in_refs l p); assumption.
          -- destruct A as (-> & (w & x & k & Hw & Hf & Hm) & Ho2 & Hl2). cbn [fst snd rmap1 good]. split; [reflexivity|]. split; [|auto].
             destruct w as [|d|y]; cbn in Hf; try contradiction. apply in_map_iff in Hw. destruct Hw as (p & Ep & Hp).
             exists (Ref a), x, k. split; [left; reflexivity|]. split; [|exact Hm]. cbn. apply (reaches_trans_step a _ y x Ho); [|exact Hf]. apply (in_refs l p); assumption.
  Qed.
  Lemma inv_start : inv (fun _ => False) H0 (fun _ => None).
  Proof. constructor; try (intros; discriminate); auto. intros b Hb. lia. Qed.
  Lemma todo_start : todo (fun _ => None) = n.
  Proof. unfold todo. rewrite <- (seq_length n 0) at 2. f_equal. induction (seq 0 n) as [|a l IH]; cbn; congruence. Qed.

  (** deepcopy of a reference *)
  Lemma deepcopy_ok a : a < n -> module_free H0 a -> (exists o, nth_error H0 a = Some o /\ copyable o) ->
    exists (H' : heap) (m : memo) b, deepcopy (Ref a) H0 = (Ok (Ref b), H') /\ inv (fun _ => False) H' m /\ m a = Some b /\
      (forall x y, m x = Some y -> reaches H0 a x) /\ (forall x, reaches H0 a x -> known m x).
  Proof.
    intros Ha Hmf (o & Ho & Hc).
    pose proof (dcopy_copies (S n) (fun _ => False) (Ref a) H0 (fun _ => None) inv_start Ha) as D. rewrite todo_start in D. specialize (D (Nat.lt_succ_diag_r n)).
    match type of D with context [dcopy (S n) (Ref a) ?st] => set (X := dcopy (S n) (Ref a) st) in D end.
    change (deepcopy (Ref a) H0) with (let (r, st) := X in (r, fst st)).
    destruct X as [[v|e] [H' m]]; cbn [fst snd rmap1 good] in D.
    - destruct D as (I & _ & Ev & K & F). cbn in Ev. injection Ev as ->.
      destruct (K (Ref a) (or_introl eq_refl)) as [(b & Hb)|(f & cs & Hf)]; [|rewrite Ho in Hf; injection Hf as ->; destruct Hc].
      exists H', m, b. rewrite Hb. split; [reflexivity|]. split; [exact I|]. split; [reflexivity|]. split.
      + intros x y Hx. destruct (F x y Hx eq_refl) as (w & [<-|[]] & Hw). exact Hw.
      + intros x R. induction R as [|x1 o1 y1 _ IH Hx Hin]; [left; eauto|].
        destruct IH as [(b1 & Hb1)|(f & cs & Hf)].
        * destruct (i_done _ _ _ I x1 b1 Hb1 (fun z => z)) as (o2 & Ho2 & _ & Hk). rewrite Hx in Ho2. injection Ho2 as <-. apply Hk. exact Hin.
        * rewrite Hx in Hf. injection Hf as ->. destruct Hin.
    - destruct D as (_ & (w & x & k & [<-|[]] & Hf & Hm) & _). exfalso. exact (Hmf x k Hf Hm).
  Qed.
  Lemma deepcopy_fails a x k : a < n -> reaches H0 a x -> nth_error H0 x = Some (Module k) ->
    exists H', deepcopy (Ref a) H0 = (Err TypeError, H') /\ n <= List.length H' /\ forall y, y < n -> nth_error H' y = nth_error H0 y.
  Proof.
    intros Ha R Hx.
    pose proof (dcopy_copies (S n) (fun _ => False) (Ref a) H0 (fun _ => None) inv_start Ha) as D. rewrite todo_start in D. specialize (D (Nat.lt_succ_diag_r n)).
    match type of D with context [dcopy (S n) (Ref a) ?st] => set (X := dcopy (S n) (Ref a) st) in D end.
    change (deepcopy (Ref a) H0) with (let (r, st) := X in (r, fst st)).
    destruct X as [[v|e] [H' m]]; cbn [fst snd rmap1 good] in D.
    - exfalso. destruct D as (I & _ & Ev & K & F).
      assert (Kx : forall y, reaches H0 a y -> known m y).
      { intros y Ry. induction Ry as [|x1 o1 y1 _ IH Hx1 Hin]; [apply (K (Ref a)); left; reflexivity|].
        destruct IH as [(b1 & Hb1)|(f & cs & Hf)].
        - destruct (i_done _ _ _ I x1 b1 Hb1 (fun z => z)) as (o2 & Ho2 & _ & Hk). rewrite Hx1 in Ho2. injection Ho2 as <-. apply Hk. exact Hin.
        - rewrite Hx1 in Hf. injection Hf as ->. destruct Hin. }
      destruct (Kx x R) as [(b & Hb)|(f & cs & Hf)].
      + destruct (i_memo _ _ _ I x b Hb) as (_ & o & Ho & Hc). rewrite Hx in Ho. injection Ho as <-. destruct Hc.
      + congruence.
    - destruct D as (-> & _ & Ho & Hl). exists H'. cbn. auto.
  Qed.
End DeepCopy.
