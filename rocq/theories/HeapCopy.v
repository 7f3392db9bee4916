(** copy_basis and copy_system on objects with identity. *)
From Coq Require Import List Arith Lia Bool String.
From Verif Require Import Py PyHeap HeapSpec HeapProofs HeapFrame.
Import ListNotations.
Local Open Scope string_scope.
Local Open Scope list_scope.

Section Copy.
  Variable data : Type.
  Notation obj := (obj data). Notation heap := (heap data). Notation value := (value data).
  Variables (conj : data -> data) (compact : nat -> data -> bool).
  Implicit Types (H : heap) (l : list (string * value)) (R : nat -> nat -> Prop).

  (** Attribute lists *)
  Lemma assoc_assign_same k v l : assoc k (assign k v l) = Some v.
  Proof. induction l as [|[k' v'] l IH]; cbn; [rewrite String.eqb_refl; reflexivity|]. destruct (String.eqb k' k) eqn:E; cbn; [rewrite String.eqb_refl; reflexivity|rewrite E; exact IH]. Qed.
  Lemma assoc_assign_other k k0 v l : k0 <> k -> assoc k0 (assign k v l) = assoc k0 l.
  Proof.
    intros N. induction l as [|[k' v'] l IH]; cbn.
    - destruct (String.eqb_spec k k0); [congruence|reflexivity].
    - destruct (String.eqb_spec k' k) as [->|]; cbn.
      + destruct (String.eqb_spec k k0); [congruence|reflexivity].
      + destruct (String.eqb k' k0); [reflexivity|exact IH].
  Qed.
  Definition pair_match R (p q : string * value) : Prop := fst p = fst q /\ value_match R (snd p) (snd q).
  Lemma match_assoc R l l' k : Forall2 (pair_match R) l l' ->
    match assoc k l, assoc k l' with Some v, Some v' => value_match R v v' | None, None => True | _, _ => False end.
  Proof.
    intros F. induction F as [|[k1 v1] [k2 v2] l l' [E V] _ IH]; cbn; [exact I|]. cbn in E. subst k2.
    destruct (String.eqb k1 k); [exact V|exact IH].
  Qed.
  Lemma match_assign R l l' k v v' : Forall2 (pair_match R) l l' -> value_match R v v' -> Forall2 (pair_match R) (assign k v l) (assign k v' l').
  Proof.
    intros F V. induction F as [|[k1 v1] [k2 v2] l l' [E W] F IH]; cbn.
    - constructor; [split; [reflexivity|exact V]|constructor].
    - cbn in E. subst k2. destruct (String.eqb k1 k); constructor; try assumption; split; auto.
  Qed.
  Lemma refs_assign k v l y : In y (refs_of_values (map snd (assign k v l))) -> In y (refs_of_values (map snd l)) \/ v = Ref y.
  Proof.
    induction l as [|[k' v'] l IH]; cbn.
    - destruct v; cbn; intros [<-|[]] || intros []; auto.
    - destruct (String.eqb k' k); cbn; intros Hy.
      + apply in_app_or in Hy. destruct Hy as [Hy|Hy].
        * right. destruct v; cbn in Hy; destruct Hy as [<-|[]] || destruct Hy; reflexivity.
        * left. apply in_or_app. right. exact Hy.
      + apply in_app_or in Hy. destruct Hy as [Hy|Hy]; [left; apply in_or_app; left; exact Hy|].
        destruct (IH Hy) as [G|G]; [left; apply in_or_app; right; exact G|right; exact G].
  Qed.
  Lemma assoc_ref k l y : assoc k l = Some (Ref y) -> In y (refs_of_values (map snd l)).
  Proof.
    induction l as [|[k' v'] l IH]; cbn; [discriminate|]. destruct (String.eqb k' k).
    - intros E. injection E as ->. left. reflexivity.
    - intros E. apply in_or_app. right. exact (IH E).
  Qed.

  (** Two graphs side by side *)
  Record twins H R : Prop := Twins {
    tw_same : same_graph H R;
    tw_imm : forall x y, R x y -> (exists o, nth_error H x = Some o /\ immutable o = true) -> x = y;
    tw_dis : forall x y z, R x z -> R z y -> exists o, nth_error H z = Some o /\ immutable o = true }.
  Lemma match_mono R R' (o o' : obj) : (forall x y, R x y -> R' x y) -> obj_match R o o' -> obj_match R' o o'.
  Proof.
    intros S. destruct o as [k|f cs|d|c l], o' as [k'|f' cs'|d'|c' l']; cbn; auto. intros [E F]. split; [exact E|].
    induction F as [|[k1 v1] [k2 v2] l l' [E1 V] _ IH]; constructor; [|exact IH]. split; [exact E1|]. cbn in *. destruct v1, v2; cbn in *; auto.
  Qed.
  Lemma match_immutable R (o o' : obj) : obj_match R o o' -> immutable o = immutable o'.
  Proof. destruct o, o'; cbn; intros Hm; try contradiction; reflexivity. Qed.
  Lemma twins_valid H R x y : twins H R -> R x y -> x < List.length H /\ y < List.length H.
  Proof. intros T Hr. destruct (sg_match _ _ _ (tw_same H R T) x y Hr) as (o & o' & E & E' & _). split; eapply nth_valid; eassumption. Qed.
  Lemma twins_share H R k m : twins H R -> nth_error H k = Some (Module m) -> twins H (fun x y => R x y \/ x = k /\ y = k).
  Proof.
    intros [G Hi Hd] Hk.
    assert (L : forall y, R k y -> y = k) by (intros y Hr; symmetry; apply Hi; eauto).
    assert (Rk : forall x, R x k -> x = k).
    { intros x Hr. destruct (sg_match _ _ _ G x k Hr) as (o & o' & E & E' & Hm). rewrite Hk in E'. injection E' as <-.
      destruct o; try contradiction. apply Hi; eauto. }
    constructor; [constructor|..].
    - intros x y z [A|[-> ->]] [B|[E ->]]; subst; auto; [exact (sg_fun _ _ _ G x y z A B)|symmetry; auto].
    - intros x y z [A|[-> ->]] [B|[-> E]]; subst; auto; [exact (sg_inj _ _ _ G x y z A B)|symmetry; auto].
    - intros x y [A|[-> ->]].
      + destruct (sg_match _ _ _ G x y A) as (o & o' & E & E' & Hm). exists o, o'. split; [exact E|]. split; [exact E'|].
        eapply match_mono; [|exact Hm]. cbn. auto.
      + exists (Module m), (Module m). repeat split; assumption.
    - intros x y [A|[-> ->]] Ho; [exact (Hi x y A Ho)|reflexivity].
    - intros x y z [A|[-> ->]] [B|[E ->]]; subst; eauto.
  Qed.
  Lemma twins_alloc H R d : twins H R ->
    twins ((H ++ [Buffer d]) ++ [Buffer d]) (fun x y => R x y \/ x = S (List.length H) /\ y = List.length H).
  Proof.
    intros T. pose proof (twins_valid H R) as V. destruct T as [G Hi Hd].
    assert (K : forall x o, nth_error H x = Some o -> nth_error ((H ++ [Buffer d]) ++ [Buffer d]) x = Some o).
    { intros x o E. pose proof (nth_valid _ _ _ _ E). rewrite !nth_app_l; [exact E|assumption|rewrite app_length; cbn; lia]. }
    assert (K1 : nth_error ((H ++ [Buffer d]) ++ [Buffer d]) (List.length H) = Some (Buffer d)).
    { rewrite nth_app_l by (rewrite app_length; cbn; lia). apply nth_last. }
    assert (K2 : nth_error ((H ++ [Buffer d]) ++ [Buffer d]) (S (List.length H)) = Some (Buffer d)).
    { replace (S (List.length H)) with (List.length (H ++ [Buffer d])) by (rewrite app_length; cbn; lia). apply nth_last. }
    assert (Vx : forall x y, R x y -> x < List.length H /\ y < List.length H) by (intros; apply V; [constructor|]; assumption).
    constructor; [constructor|..].
    - intros x y z [A|[-> ->]] [B|[E ->]]; subst; auto; [exact (sg_fun _ _ _ G x y z A B)|apply Vx in A; lia|apply Vx in B; lia].
    - intros x y z [A|[-> ->]] [B|[-> E]]; subst; auto; [exact (sg_inj _ _ _ G x y z A B)|apply Vx in A; lia|apply Vx in B; lia].
    - intros x y [A|[-> ->]].
      + destruct (sg_match _ _ _ G x y A) as (o & o' & E & E' & Hm). exists o, o'. split; [apply K, E|]. split; [apply K, E'|].
        eapply match_mono; [|exact Hm]. cbn. auto.
      + exists (Buffer d), (Buffer d). repeat split; assumption.
    - intros x y [A|[-> ->]] (o & Ho & Hm).
      + destruct (sg_match _ _ _ G x y A) as (o1 & _ & E & _). rewrite (K _ _ E) in Ho. injection Ho as <-. apply Hi; eauto.
      + rewrite K2 in Ho. injection Ho as <-. discriminate Hm.
    - intros x y z [A|[-> ->]] [B|[E ->]]; subst.
      + destruct (Hd x y z A B) as (o & Ho & Hm). exists o. split; [apply K, Ho|exact Hm].
      + apply Vx in A. lia.
      + apply Vx in B. lia.
      + lia.
  Qed.
  Lemma twins_write H R x y c l l' c1 l1 : twins H R -> R x y -> nth_error H x = Some (Inst c l1) -> nth_error H y = Some (Inst c1 l') ->
    forall m m', Forall2 (pair_match R) m m' -> twins (hset x (Inst c m) (hset y (Inst c m') H)) R /\ x <> y.
  Proof.
    intros T Hxy Ex Ey m m' F. pose proof (twins_valid H R x y T Hxy) as [Vx Vy]. destruct T as [G Hi Hd].
    assert (N : x <> y).
    { intros <-. destruct (Hd x x x Hxy Hxy) as (o & Ho & Hm). rewrite Ex in Ho. injection Ho as <-. discriminate Hm. }
    assert (Kx : nth_error (hset x (Inst c m) (hset y (Inst c m') H)) x = Some (Inst c m)) by (apply hset_same; rewrite hset_length; exact Vx).
    assert (Ky : nth_error (hset x (Inst c m) (hset y (Inst c m') H)) y = Some (Inst c m')) by (rewrite hset_other by auto; apply hset_same; exact Vy).
    assert (K : forall z, z <> x -> z <> y -> nth_error (hset x (Inst c m) (hset y (Inst c m') H)) z = nth_error H z).
    { intros z Hx Hy. rewrite !hset_other by assumption. reflexivity. }
    assert (Kimm : forall z o, nth_error (hset x (Inst c m) (hset y (Inst c m') H)) z = Some o -> immutable o = true -> nth_error H z = Some o).
    { intros z o Ho Hm. destruct (Nat.eq_dec z x) as [->|Hzx]; [rewrite Kx in Ho; injection Ho as <-; discriminate Hm|].
      destruct (Nat.eq_dec z y) as [->|Hzy]; [rewrite Ky in Ho; injection Ho as <-; discriminate Hm|]. rewrite <- (K z Hzx Hzy). exact Ho. }
    assert (Kimm' : forall z o, nth_error H z = Some o -> immutable o = true -> nth_error (hset x (Inst c m) (hset y (Inst c m') H)) z = Some o).
    { intros z o Ho Hm. rewrite K; [exact Ho|intros ->; rewrite Ex in Ho; injection Ho as <-; discriminate Hm|intros ->; rewrite Ey in Ho; injection Ho as <-; discriminate Hm]. }
    split; [|exact N]. constructor; [constructor; [apply G|apply G|]|..].
    - intros p q Hr. destruct (Nat.eq_dec p x) as [->|Hp].
      + assert (q = y) by exact (sg_fun _ _ _ G x q y Hr Hxy). subst q. exists (Inst c m), (Inst c m'). split; [exact Kx|]. split; [exact Ky|]. split; [reflexivity|exact F].
      + assert (Hq : q <> y) by (intros ->; apply Hp; exact (sg_inj _ _ _ G p x y Hr Hxy)).
        destruct (sg_match _ _ _ G p q Hr) as (o & o' & E & E' & Hm).
        assert (Hpy : p <> y). { intros ->. destruct (Hd x q y Hxy Hr) as (o2 & Ho & Him). rewrite Ey in Ho. injection Ho as <-. discriminate Him. }
        assert (Hqx : q <> x). { intros ->. destruct (Hd p y x Hr Hxy) as (o2 & Ho & Him). rewrite Ex in Ho. injection Ho as <-. discriminate Him. }
        exists o, o'. rewrite !K by assumption. auto.
    - intros p q Hr (o & Ho & Hm). apply Hi; [exact Hr|]. exists o. split; [|exact Hm]. apply Kimm; assumption.
    - intros p q z A B. destruct (Hd p q z A B) as (o & Ho & Hm). exists o. split; [|exact Hm]. apply Kimm'; assumption.
  Qed.

  (** change_module *)
  Definition u_compact H (c : nat) l : bool :=
    match assoc "_u" l with Some (Ref b) => match nth_error H b with Some (Buffer d) => compact c d | _ => false end | _ => false end.
  (** The orbitals to be filled in, if any *)
  Definition plan H (c : nat) l : option data :=
    if u_compact H c l then None
    else match assoc "_bra_spf" l, assoc "_spf" l with
         | Some PyNone, Some (Ref s) => match nth_error H s with Some (Buffer d) => Some d | _ => None end
         | _, _ => None
         end.
  (** An object with the attributes of a basis set *)
  Definition spf_ok H (v : value) : Prop := v = PyNone \/ exists s d, v = Ref s /\ nth_error H s = Some (Buffer d).
  Definition has_attrs H l : Prop :=
    assoc "_u" l <> None /\ assoc "_bra_spf" l <> None /\ exists v, assoc "_spf" l = Some v /\ spf_ok H v.
  Definition changed H (a c : nat) (np : value) l : heap :=
    match plan H c l with
    | None => hset a (Inst c (assign "np" np l)) H
    | Some d => hset a (Inst c (assign "_bra_spf" (Ref (List.length H)) (assign "np" np l))) (H ++ [Buffer (conj d)])
    end.
  Lemma hset_hset (a : nat) (o o' : obj) : forall H, hset a o (hset a o' H) = hset a o H.
  Proof. induction a as [|a IH]; intros [|x H]; cbn; try reflexivity. f_equal. apply IH. Qed.
  Lemma hset_app (a : nat) (o : obj) (L : list obj) : forall H, a < List.length H -> hset a o (H ++ L) = hset a o H ++ L.
  Proof. induction a as [|a IH]; intros [|x H]; cbn; intros Ha; try lia; [reflexivity|]. f_equal. apply IH. lia. Qed.
  Lemma hset_comm (a b : nat) (o o' : obj) : a <> b -> forall H, hset a o (hset b o' H) = hset b o' (hset a o H).
  Proof.
    revert b. induction a as [|a IH]; intros [|b] N [|x H]; cbn; try reflexivity; try lia. f_equal. apply IH. lia.
  Qed.
  Lemma change_module_run H a c l np : nth_error H a = Some (Inst c l) -> has_attrs H l ->
    change_module conj compact a np H = (Ok tt, changed H a c np l).
  Proof.
    intros Ha (Hu & Hb & v & Hs & Hok). pose proof (nth_valid _ _ _ _ Ha) as Va.
    set (l1 := assign "np" np l). set (H1 := hset a (Inst c l1) H).
    assert (E1 : nth_error H1 a = Some (Inst c l1)) by (apply hset_same; exact Va).
    assert (Bf : forall b, match nth_error H1 b with Some (Buffer d) => Some d | _ => None end = match nth_error H b with Some (Buffer d) => Some d | _ => None end).
    { intros b. unfold H1. destruct (Nat.eq_dec b a) as [->|N]; [rewrite hset_same, Ha by exact Va; reflexivity|]. rewrite hset_other by exact N. reflexivity. }
    assert (Au : assoc "_u" l1 = assoc "_u" l) by (apply assoc_assign_other; discriminate).
    assert (Ab : assoc "_bra_spf" l1 = assoc "_bra_spf" l) by (apply assoc_assign_other; discriminate).
    assert (As : assoc "_spf" l1 = assoc "_spf" l) by (apply assoc_assign_other; discriminate).
    unfold change_module. unfold bind at 1, setattr at 1. rewrite Ha. fold l1. fold H1.
    assert (Ec : is_compact compact a H1 = (Ok (u_compact H c l), H1)).
    { unfold is_compact, bind, getattr. rewrite E1, Au. destruct (assoc "_u" l) as [vu|] eqn:Eu; [|contradiction].
      unfold u_compact. rewrite Eu. destruct vu as [|d|b]; try reflexivity. rewrite E1. specialize (Bf b).
      destruct (nth_error H1 b) as [[k|f cs|d|c' l']|]; destruct (nth_error H b) as [[k2|f2 cs2|d2|c2 l2]|]; try discriminate Bf; try reflexivity.
      injection Bf as ->. reflexivity. }
    unfold bind at 1. rewrite Ec. unfold changed, plan. destruct (u_compact H c l); [reflexivity|].
    unfold fill_bra. unfold bind at 1, getattr at 1. rewrite E1, Ab. destruct (assoc "_bra_spf" l) as [vb|]; [|contradiction].
    destruct vb as [|d|b]; try reflexivity. unfold bind at 1, getattr at 1. rewrite E1, As, Hs.
    destruct Hok as [->|(s & d & -> & Hd)]; [reflexivity|]. specialize (Bf s). rewrite Hd in Bf. rewrite Hd.
    destruct (nth_error H1 s) as [[k|f cs|d2|c2 l2]|]; try discriminate Bf. injection Bf as ->.
    unfold bind, alloc, setattr. rewrite nth_app_l by exact (nth_valid _ _ _ _ E1). rewrite E1.
    f_equal. unfold H1. rewrite hset_length, <- hset_app by exact Va. rewrite hset_hset. reflexivity.
  Qed.
  (** It depends on the arrays the attributes refer to *)
  Lemma plan_ext H H' c l : (forall y, In y (refs_of_values (map snd l)) ->
      match nth_error H y with Some (Buffer d) => Some d | _ => None end = match nth_error H' y with Some (Buffer d) => Some d | _ => None end) ->
    plan H c l = plan H' c l.
  Proof.
    intros B. unfold plan, u_compact.
    assert (U : (match assoc "_u" l with Some (Ref b) => match nth_error H b with Some (Buffer d) => compact c d | _ => false end | _ => false end) =
                (match assoc "_u" l with Some (Ref b) => match nth_error H' b with Some (Buffer d) => compact c d | _ => false end | _ => false end)).
    { destruct (assoc "_u" l) as [[|d|b]|] eqn:E; try reflexivity. specialize (B b (assoc_ref _ _ _ E)).
      destruct (nth_error H b) as [[ ]|]; destruct (nth_error H' b) as [[ ]|]; try discriminate B; try reflexivity. injection B as ->. reflexivity. }
    rewrite U. destruct (assoc "_spf" l) as [[|d|s]|] eqn:E; try reflexivity. rewrite (B s (assoc_ref _ _ _ E)). reflexivity.
  Qed.
  Lemma plan_assign H c k v l : k <> "_u" -> k <> "_bra_spf" -> k <> "_spf" -> plan H c (assign k v l) = plan H c l.
  Proof. intros N1 N2 N3. unfold plan, u_compact. rewrite !assoc_assign_other by auto. reflexivity. Qed.
  Lemma plan_twins H R c l l' : twins H R -> Forall2 (pair_match R) l l' -> plan H c l = plan H c l'.
  Proof.
    intros T F.
    assert (Bf : forall x y, R x y -> match nth_error H x with Some (Buffer d) => Some d | _ => None end = match nth_error H y with Some (Buffer d) => Some d | _ => None end).
    { intros x y Hr. destruct (sg_match _ _ _ (tw_same H R T) x y Hr) as (o & o' & E & E' & Hm). rewrite E, E'.
      destruct o, o'; try contradiction; cbn in Hm; congruence. }
    unfold plan, u_compact. pose proof (match_assoc R l l' "_u" F) as Mu. pose proof (match_assoc R l l' "_bra_spf" F) as Mb. pose proof (match_assoc R l l' "_spf" F) as Ms.
    assert (U : (match assoc "_u" l with Some (Ref b) => match nth_error H b with Some (Buffer d) => compact c d | _ => false end | _ => false end) =
                (match assoc "_u" l' with Some (Ref b) => match nth_error H b with Some (Buffer d) => compact c d | _ => false end | _ => false end)).
    { destruct (assoc "_u" l) as [[|d|b]|], (assoc "_u" l') as [[|d'|b']|]; try contradiction; try reflexivity. cbn in Mu. specialize (Bf b b' Mu).
      destruct (nth_error H b) as [[ ]|]; destruct (nth_error H b') as [[ ]|]; try discriminate Bf; try reflexivity. injection Bf as ->. reflexivity. }
    rewrite U. destruct (assoc "_bra_spf" l) as [[|d|b]|], (assoc "_bra_spf" l') as [[|d'|b']|]; try contradiction; try reflexivity.
    destruct (assoc "_spf" l) as [[|d|s]|], (assoc "_spf" l') as [[|d'|s']|]; try contradiction; try reflexivity.
    cbn in Ms. rewrite (Bf s s' Ms). reflexivity.
  Qed.
  Lemma attrs_twins H R l l' : twins H R -> Forall2 (pair_match R) l l' -> has_attrs H l -> has_attrs H l'.
  Proof.
    intros T F (Hu & Hb & v & Hs & Hok). pose proof (match_assoc R l l' "_u" F) as Mu. pose proof (match_assoc R l l' "_bra_spf" F) as Mb. pose proof (match_assoc R l l' "_spf" F) as Ms.
    split; [|split].
    - destruct (assoc "_u" l), (assoc "_u" l'); try contradiction; discriminate.
    - destruct (assoc "_bra_spf" l), (assoc "_bra_spf" l'); try contradiction; discriminate.
    - rewrite Hs in Ms. destruct (assoc "_spf" l') as [v'|]; [|contradiction]. exists v'. split; [reflexivity|].
      destruct Hok as [->|(s & d & -> & Hd)]; destruct v' as [|d'|s']; try contradiction; [left; reflexivity|right].
      destruct (sg_match _ _ _ (tw_same H R T) s s' Ms) as (o & o' & E & E' & Hm). rewrite Hd in E. injection E as <-.
      destruct o'; try contradiction. eauto.
  Qed.
  Lemma attrs_ext H H' l : (forall y d, nth_error H y = Some (Buffer d) -> nth_error H' y = Some (Buffer d)) -> has_attrs H l -> has_attrs H' l.
  Proof. intros B (Hu & Hb & v & Hs & Hok). split; [exact Hu|]. split; [exact Hb|]. exists v. split; [exact Hs|]. destruct Hok as [->|(s & d & -> & Hd)]; [left; reflexivity|right; eauto]. Qed.

  (** The graph right after deepcopy *)
  Lemma deepcopy_twins H a : closed H -> a < List.length H -> module_free H a -> (exists c l, nth_error H a = Some (Inst c l)) ->
    exists H' b R, deepcopy (Ref a) H = (Ok (Ref b), H') /\ R a b /\ twins H' R /\
      (forall x, x < List.length H -> nth_error H' x = nth_error H x) /\ List.length H <= List.length H' /\
      (forall x y, R x y -> reaches H a x) /\ (forall x y, R x y -> x < List.length H) /\
      (forall x y, R x y -> List.length H <= y \/ x = y) /\ closed H'.
  Proof.
    intros C Va Mf (c & l & Ea).
    assert (Cl : forall x o y, nth_error H x = Some o -> In y (attr_refs o) -> y < List.length H).
    { intros x o y Hx Hy. apply (C x o y Hx). destruct o; try (destruct Hy; fail); exact Hy. }
    destruct (deepcopy_ok data H Cl a Va Mf) as (H' & m & b & E & I & Hb & Rf & Kn); [exists (Inst c l); split; [exact Ea|exact Logic.I]|].
    exists H', b, (fun x y => m x = Some y \/ (x = y /\ reaches H a x /\ is_func data H x)).
    assert (Fl : forall x, is_func data H x -> x < List.length H) by (intros x (f & cs & F); eapply nth_valid; exact F).
    assert (Ml : forall x y, m x = Some y -> x < List.length H) by (intros x y Hm; destruct (i_memo _ _ _ _ _ I x y Hm) as (_ & o & Ho & _); eapply nth_valid; exact Ho).
    split; [exact E|]. split; [left; exact Hb|]. split; [|split; [|split; [|split; [|split; [|split]]]]].
    - constructor; [constructor|..].
      + intros x y z [A|(-> & _ & A)] [B|(-> & _ & B)]; try congruence.
        * rewrite (func_unknown data H _ H' m _ I B) in A. discriminate A.
        * rewrite (func_unknown data H _ H' m _ I A) in B. discriminate B.
      + intros x y z [A|(-> & _ & A)] [B|(-> & _ & B)]; try reflexivity.
        * exact (i_inj _ _ _ _ _ I x y z A B).
        * destruct (i_memo _ _ _ _ _ I x z A) as [Bd _]. apply Fl in B. lia.
        * destruct (i_memo _ _ _ _ _ I y z B) as [Bd _]. apply Fl in A. lia.
      + intros x y [A|(<- & Rx & (f & cs & A))].
        * destruct (i_done _ _ _ _ _ I x y A (fun z => z)) as (o & Ho & Hy & Hk). exists o, (ren_obj data m o).
          split; [rewrite (i_old _ _ _ _ _ I) by exact (Ml x y A); exact Ho|]. split; [exact Hy|].
          destruct (i_memo _ _ _ _ _ I x y A) as (_ & o' & Ho' & Hc). rewrite Ho in Ho'. injection Ho' as <-.
          destruct o as [k|f cs|d|c' l']; try destruct Hc; [reflexivity|]. cbn. split; [reflexivity|].
          pose proof (Rf x y A) as Rx.
          assert (Hk' : forall p, In p l' -> known_value data H m (snd p) /\ forall z, snd p = Ref z -> reaches H a z).
          { intros p Hp. split; [apply (proj1 (refs_known data H m c' l') Hk); exact Hp|]. intros z Hz. eapply reach_step; [exact Rx|exact Ho|].
            apply (in_refs data l' p); assumption. }
          clear -Hk'. induction l' as [|p l' IH]; cbn; constructor; [|apply IH; intros; apply Hk'; right; assumption].
          split; [reflexivity|]. cbn. destruct (Hk' p (or_introl eq_refl)) as [K Rz]. destruct (snd p) as [|d|z]; cbn in *; auto.
          destruct K as [(b' & Hb')|F]; [rewrite Hb'; cbn; auto|]. destruct (m z) as [b'|] eqn:Em; cbn; [auto|]. right. auto.
        * exists (Func f cs), (Func f cs). assert (EH : nth_error H' x = Some (Func f cs)) by (rewrite (i_old _ _ _ _ _ I); [exact A|eapply nth_valid; exact A]).
          repeat split; assumption.
      + intros x y [A|(-> & _ & _)] (o & Ho & Hm); [|reflexivity]. rewrite (i_old _ _ _ _ _ I) in Ho by exact (Ml x y A).
        destruct (i_memo _ _ _ _ _ I x y A) as (_ & o' & Ho' & Hc). rewrite Ho in Ho'. injection Ho' as <-. destruct o; try destruct Hc; discriminate Hm.
      + intros x y z [A|(-> & _ & A)] B.
        * exfalso. destruct (i_memo _ _ _ _ _ I x z A) as [Bd _]. destruct B as [B|(-> & _ & B)]; [apply Ml in B|apply Fl in B]; lia.
        * destruct A as (f & cs & A). exists (Func f cs). split; [|reflexivity]. rewrite (i_old _ _ _ _ _ I); [exact A|eapply nth_valid; exact A].
    - exact (i_old _ _ _ _ _ I).
    - exact (i_len _ _ _ _ _ I).
    - intros x y [A|(-> & A & _)]; [exact (Rf x y A)|exact A].
    - intros x y [A|(-> & _ & A)]; [exact (Ml x y A)|exact (Fl _ A)].
    - intros x y [A|(-> & _ & _)]; [left; exact (proj1 (proj1 (i_memo _ _ _ _ _ I x y A)))|right; reflexivity].
    - intros x o y Hx Hy. destruct (Nat.lt_ge_cases x (List.length H)) as [L|L].
      + rewrite (i_old _ _ _ _ _ I) in Hx by exact L. specialize (C x o y Hx Hy). pose proof (i_len _ _ _ _ _ I). lia.
      + destruct (i_new _ _ _ _ _ I x (Logic.conj L (nth_valid _ _ _ _ Hx))) as (a' & Ha').
        destruct (i_done _ _ _ _ _ I a' x Ha' (fun z => z)) as (o' & Ho' & Hx' & Hk). rewrite Hx in Hx'. injection Hx' as ->.
        destruct o' as [k|f cs|d|c' l']; try (destruct Hy; fail).
        * exfalso. destruct (i_memo _ _ _ _ _ I a' x Ha') as (_ & o2 & Ho2 & Hc). rewrite Ho' in Ho2. injection Ho2 as <-. destruct Hc.
        * cbn in Hy. unfold refs_of_values in Hy. rewrite map_map in Hy. apply in_flat_map in Hy. destruct Hy as (v & Hv & Hy). apply in_map_iff in Hv. destruct Hv as (p & <- & Hp). cbn in Hy.
          pose proof (proj1 (refs_known data H m c' l') Hk p Hp) as Kv. pose proof (i_len _ _ _ _ _ I) as Ln. destruct (snd p) as [|d|z]; cbn in Hy; try destruct Hy.
          destruct Kv as [(b' & Hb')|F].
          -- rewrite Hb' in Hy. cbn in Hy. destruct Hy as [<-|[]]. exact (proj2 (proj1 (i_memo _ _ _ _ _ I z b' Hb'))).
          -- rewrite (func_unknown data H _ H' m z I F) in Hy. cbn in Hy. destruct Hy as [<-|[]]. apply Fl in F. lia.
  Qed.

  (** Restoring the module of the copy and of the original *)
  Lemma closed_hset H a (o : obj) : closed H -> (forall y, In y (all_refs o) -> y < List.length H) -> closed (hset a o H).
  Proof.
    intros C Ho x o1 y Hx Hy. rewrite hset_length. destruct (Nat.eq_dec x a) as [->|N].
    - pose proof (nth_valid _ _ _ _ Hx) as V. rewrite hset_length in V. rewrite hset_same in Hx by exact V. injection Hx as <-. exact (Ho y Hy).
    - rewrite hset_other in Hx by exact N. exact (C x o1 y Hx Hy).
  Qed.
  Lemma closed_app H (o : obj) : closed H -> (forall y, In y (all_refs o) -> y <= List.length H) -> closed (H ++ [o]).
  Proof.
    intros C Ho x o1 y Hx Hy. rewrite app_length. cbn. pose proof (nth_valid _ _ _ _ Hx) as V. rewrite app_length in V. cbn in V.
    destruct (Nat.eq_dec x (List.length H)) as [->|N].
    - rewrite nth_last in Hx. injection Hx as <-. specialize (Ho y Hy). lia.
    - rewrite nth_app_l in Hx by lia. specialize (C x o1 y Hx Hy). lia.
  Qed.
  Lemma refs_valid H a c l y : closed H -> nth_error H a = Some (Inst c l) -> In y (refs_of_values (map snd l)) -> y < List.length H.
  Proof. intros C Ha Hy. exact (C a (Inst c l) y Ha Hy). Qed.

  Lemma pair_change H R a b c l l' k : twins H R -> closed H -> R a b -> R k k ->
    nth_error H a = Some (Inst c l) -> nth_error H b = Some (Inst c l') -> Forall2 (pair_match R) l l' -> has_attrs H l ->
    exists H' R', change_module conj compact b (Ref k) H = (Ok tt, changed H b c (Ref k) l') /\
      change_module conj compact a (Ref k) (changed H b c (Ref k) l') = (Ok tt, H') /\
      twins H' R' /\ closed H' /\ (forall x y, R x y -> R' x y) /\ (forall x y, R' x y -> R x y \/ (List.length H <= x /\ List.length H <= y)) /\
      (forall x, x < List.length H -> x <> a -> x <> b -> nth_error H' x = nth_error H x) /\ List.length H <= List.length H' /\
      (forall x o, List.length H <= x -> nth_error H' x = Some o -> exists d, o = Buffer d) /\
      exists la lb, nth_error H' a = Some (Inst c la) /\ nth_error H' b = Some (Inst c lb) /\ assoc "np" la = Some (Ref k) /\
        (forall key, key <> "np" -> key <> "_bra_spf" -> assoc key la = assoc key l) /\
        (assoc "_bra_spf" l <> Some PyNone -> assoc "_bra_spf" la = assoc "_bra_spf" l) /\
        (forall key, key <> "np" -> key <> "_bra_spf" -> assoc key lb = assoc key l').
  Proof.
    intros T C Hab Hk Ea Eb F At.
    pose proof (attrs_twins H R l l' T F At) as At'. pose proof (nth_valid _ _ _ _ Ea) as Va. pose proof (nth_valid _ _ _ _ Eb) as Vb.
    pose proof (twins_valid H R k k T Hk) as [Vk _].
    destruct (twins_write H R a b c l l' c l T Hab Ea Eb l l' F) as [_ N].
    pose proof (plan_twins H R c l l' T F) as Ep.
    set (L := List.length H) in *.
    assert (Er : change_module conj compact b (Ref k) H = (Ok tt, changed H b c (Ref k) l')) by (apply change_module_run; assumption).
    unfold changed in *. rewrite <- Ep in *. destruct (plan H c l) as [d|] eqn:Pl.
    - set (B := Buffer (conj d)) in *. set (lb := assign "_bra_spf" (Ref L) (assign "np" (Ref k) l')) in *.
      set (la := assign "_bra_spf" (Ref (S L)) (assign "np" (Ref k) l)).
      set (Hb := hset b (Inst c lb) (H ++ [B])) in *.
      assert (Lb : List.length Hb = S L) by (unfold Hb; rewrite hset_length, app_length; cbn; unfold L; lia).
      assert (Ob : forall x, x < L -> x <> b -> nth_error Hb x = nth_error H x).
      { intros x Hx Nx. unfold Hb. rewrite hset_other by exact Nx. apply nth_app_l. exact Hx. }
      assert (Ea' : nth_error Hb a = Some (Inst c l)) by (rewrite Ob by assumption; exact Ea).
      assert (Bf : forall y e, nth_error H y = Some (Buffer e) -> nth_error Hb y = Some (Buffer e)).
      { intros y e Hy. rewrite Ob; [exact Hy|eapply nth_valid; exact Hy|intros ->; congruence]. }
      assert (Pl' : plan Hb c l = Some d).
      { rewrite <- Pl. symmetry. apply plan_ext. intros y Hy. pose proof (refs_valid H a c l y C Ea Hy) as Vy.
        destruct (Nat.eq_dec y b) as [->|Ny]; [|rewrite Ob by assumption; reflexivity].
        rewrite Eb. unfold Hb. rewrite hset_same by (rewrite app_length; cbn; lia). reflexivity. }
      pose proof (change_module_run Hb a c l (Ref k) Ea' (attrs_ext H Hb l Bf At)) as Er2. unfold changed in Er2. rewrite Pl', Lb in Er2. fold la in Er2. fold B in Er2.
      assert (EH : hset a (Inst c la) (Hb ++ [B]) = hset a (Inst c la) (hset b (Inst c lb) ((H ++ [B]) ++ [B]))).
      { f_equal. unfold Hb. rewrite (hset_app b _ [B] (H ++ [B])) by (rewrite app_length; cbn; lia). reflexivity. }
      rewrite EH in Er2.
      pose proof (twins_alloc H R (conj d) T) as T1. fold B in T1. fold L in T1. set (R' := fun x y => R x y \/ x = S L /\ y = L) in T1.
      assert (F1 : Forall2 (pair_match R') la lb).
      { apply match_assign; [apply match_assign|]; cbn; unfold R'; auto.
        clear -F. induction F as [|[k1 v1] [k2 v2] l l' [E1 V] _ IH]; constructor; [|exact IH]. split; [exact E1|]. cbn in *. destruct v1, v2; cbn in *; auto. }
      assert (K : forall x, x < L -> nth_error ((H ++ [B]) ++ [B]) x = nth_error H x).
      { intros x Hx. rewrite !nth_app_l; [reflexivity|exact Hx|rewrite app_length; cbn; fold L; lia]. }
      destruct (twins_write _ R' a b c l l' c l T1 (or_introl Hab) ltac:(rewrite K by exact Va; exact Ea) ltac:(rewrite K by exact Vb; exact Eb) la lb F1) as [T2 _].
      assert (Len : List.length ((H ++ [B]) ++ [B]) = S (S L)) by (rewrite !app_length; cbn; unfold L; lia).
      exists (hset a (Inst c la) (hset b (Inst c lb) ((H ++ [B]) ++ [B]))), R'.
      split; [exact Er|]. split; [exact Er2|]. split; [exact T2|]. split; [|split; [|split; [|split; [|split; [|split]]]]].
      + assert (C1 : closed ((H ++ [B]) ++ [B])) by (apply closed_app; [apply closed_app; [exact C|intros ? []]|intros ? []]).
        apply closed_hset; [apply closed_hset; [exact C1|]|rewrite hset_length]; rewrite Len; intros y Hy; cbn in Hy; unfold la, lb in Hy;
          apply refs_assign in Hy; (destruct Hy as [Hy|Hy]; [apply refs_assign in Hy; destruct Hy as [Hy|Hy]|]);
          try (injection Hy as <-; lia).
        * pose proof (refs_valid H b c l' y C Eb Hy) as V. fold L in V. lia.
        * pose proof (refs_valid H a c l y C Ea Hy) as V. fold L in V. lia.
      + intros x y Hr. left. exact Hr.
      + intros x y [Hr|[-> ->]]; [left; exact Hr|right; lia].
      + intros x Hx N1 N2. rewrite !hset_other by assumption. apply K. exact Hx.
      + rewrite !hset_length, Len. lia.
      + fold L. intros x o Hx Ho. rewrite !hset_other in Ho by lia. pose proof (nth_valid _ _ _ _ Ho) as V. rewrite Len in V. exists (conj d).
        destruct (Nat.eq_dec x L) as [->|Nx].
        * rewrite nth_app_l in Ho by (rewrite app_length; cbn; fold L; lia). unfold L in Ho. rewrite nth_last in Ho. injection Ho as <-. reflexivity.
        * assert (x = List.length (H ++ [B])) as -> by (rewrite app_length; cbn; fold L; lia). rewrite nth_last in Ho. injection Ho as <-. reflexivity.
      + exists la, lb. split; [apply hset_same; rewrite hset_length, Len; lia|]. split; [rewrite hset_other by auto; apply hset_same; rewrite Len; lia|].
        split; [unfold la; rewrite assoc_assign_other by discriminate; apply assoc_assign_same|].
        split; [intros key N1 N2; unfold la; rewrite !assoc_assign_other by assumption; reflexivity|].
        split; [|intros key N1 N2; unfold lb; rewrite !assoc_assign_other by assumption; reflexivity].
        intros Nb. exfalso. unfold plan in Pl. destruct (u_compact H c l); [discriminate Pl|]. destruct (assoc "_bra_spf" l) as [[|e|z]|]; try discriminate Pl. apply Nb. reflexivity.
    - set (lb := assign "np" (Ref k) l') in *. set (la := assign "np" (Ref k) l). set (Hb := hset b (Inst c lb) H) in *.
      assert (Ob : forall x, x <> b -> nth_error Hb x = nth_error H x) by (intros x Nx; unfold Hb; apply hset_other; exact Nx).
      assert (Ea' : nth_error Hb a = Some (Inst c l)) by (rewrite Ob by assumption; exact Ea).
      assert (Bf : forall y e, nth_error H y = Some (Buffer e) -> nth_error Hb y = Some (Buffer e)).
      { intros y e Hy. rewrite Ob; [exact Hy|intros ->; congruence]. }
      assert (Pl' : plan Hb c l = None).
      { rewrite <- Pl. symmetry. apply plan_ext. intros y Hy. destruct (Nat.eq_dec y b) as [->|Ny]; [|rewrite Ob by assumption; reflexivity].
        rewrite Eb. unfold Hb. rewrite hset_same by exact Vb. reflexivity. }
      pose proof (change_module_run Hb a c l (Ref k) Ea' (attrs_ext H Hb l Bf At)) as Er2. unfold changed in Er2. rewrite Pl' in Er2. fold la in Er2.
      assert (F1 : Forall2 (pair_match R) la lb) by (apply match_assign; [exact F|exact Hk]).
      destruct (twins_write _ R a b c l l' c l T Hab Ea Eb la lb F1) as [T2 _].
      exists (hset a (Inst c la) Hb), R.
      split; [exact Er|]. split; [exact Er2|]. split; [exact T2|]. split; [|split; [|split; [|split; [|split; [|split]]]]].
      + apply closed_hset; [apply closed_hset; [exact C|]|unfold Hb; rewrite hset_length]; intros y Hy; cbn in Hy; unfold la, lb in Hy;
          apply refs_assign in Hy; destruct Hy as [Hy|Hy]; try (injection Hy as <-; exact Vk).
        * exact (refs_valid H b c l' y C Eb Hy).
        * exact (refs_valid H a c l y C Ea Hy).
      + auto.
      + auto.
      + intros x Hx N1 N2. rewrite hset_other by assumption. apply Ob. exact N2.
      + unfold Hb. rewrite !hset_length. apply le_n.
      + intros x o Hx Ho. apply nth_valid in Ho. unfold Hb in Ho. rewrite !hset_length in Ho. fold L in Hx, Ho. lia.
      + exists la, lb. split; [apply hset_same; unfold Hb; rewrite hset_length; exact Va|]. split; [rewrite hset_other by auto; apply hset_same; exact Vb|].
        split; [apply assoc_assign_same|]. split; [intros key N1 N2; apply assoc_assign_other; exact N1|].
        split; [intros _; apply assoc_assign_other; discriminate|intros key N1 N2; apply assoc_assign_other; exact N1].
  Qed.

  (** copy_basis *)
  Definition without_np H (a : nat) : heap :=
    match nth_error H a with Some (Inst c l) => hset a (Inst c (assign "np" PyNone l)) H | _ => H end.
  Definition basis_object H (a k : nat) : Prop :=
    exists c l, nth_error H a = Some (Inst c l) /\ assoc "np" l = Some (Ref k) /\ (exists m, nth_error H k = Some (Module m)) /\ has_attrs H l.
  (** The original is as before, but for orbitals the getter filled in *)
  Definition unchanged_basis H H' (a : nat) : Prop :=
    exists c l l', nth_error H a = Some (Inst c l) /\ nth_error H' a = Some (Inst c l') /\
      (forall key, key <> "_bra_spf" -> assoc key l' = assoc key l) /\ (assoc "_bra_spf" l <> Some PyNone -> assoc "_bra_spf" l' = assoc "_bra_spf" l).
  Lemma closed_without H a : closed H -> closed (without_np H a).
  Proof.
    intros C. unfold without_np. destruct (nth_error H a) as [[m|f cs|d|c l]|] eqn:E; try exact C.
    apply closed_hset; [exact C|]. cbn. intros y Hy. apply refs_assign in Hy. destruct Hy as [Hy|Hy]; [|discriminate Hy]. exact (refs_valid H a c l y C E Hy).
  Qed.
  (** Functions met from [a] and what they hold are the same in both heaps *)
  Lemma pure_kept H H' (a : nat) : (forall x f cs, reaches H' a x -> nth_error H' x = Some (Func f cs) -> reaches H a x /\ nth_error H x = Some (Func f cs)) ->
    (forall x o, nth_error H x = Some o -> immutable o = true -> nth_error H' x = Some o) -> pure_functions H a -> pure_functions H' a.
  Proof.
    intros Fn Im Pf x f cs y Rx Ex (c & Hc & Rc). destruct (Fn x f cs Rx Ex) as [Rx' Ex'].
    assert (S : forall z, holds H c z -> nth_error H' z = nth_error H z).
    { intros z Rz. destruct (Pf x f cs z Rx' Ex' (ex_intro _ c (Logic.conj Hc Rz))) as (o & Ho & Hm). rewrite (Im z o Ho Hm). symmetry. exact Ho. }
    pose proof (reach_back data all_refs H H' c y S Rc) as Rc'. destruct (Pf x f cs y Rx' Ex' (ex_intro _ c (Logic.conj Hc Rc'))) as (o & Ho & Hm).
    exists o. split; [|exact Hm]. exact (Im y o Ho Hm).
  Qed.
  Lemma reaches_without H a x y : reaches (without_np H a) x y -> reaches H x y.
  Proof.
    unfold without_np. destruct (nth_error H a) as [[m|f cs|d|c l]|] eqn:E; auto. intros R. induction R as [|z o t _ IH Hz Hin]; [apply reach_refl|].
    destruct (Nat.eq_dec z a) as [->|N].
    - rewrite hset_same in Hz by (eapply nth_valid; exact E). injection Hz as <-. cbn in Hin. apply refs_assign in Hin. destruct Hin as [Hin|Hin]; [|discriminate Hin].
      eapply reach_step; [exact IH|exact E|exact Hin].
    - rewrite hset_other in Hz by exact N. eapply reach_step; [exact IH|exact Hz|exact Hin].
  Qed.
  Lemma match_inst R (o : obj) c l : obj_match R (Inst c l) o -> exists l', o = Inst c l' /\ Forall2 (pair_match R) l l'.
  Proof. destruct o as [k|f cs|d|c' l']; cbn; try contradiction. intros [-> F]. eauto. Qed.

  Lemma copy_basis_ok H a k : closed H -> basis_object H a k -> module_free (without_np H a) a ->
    exists H' b, copy_basis conj compact a H = (Ok b, H') /\ copy_of H' a b /\ List.length H <= b /\ closed H' /\
      (forall x, x < List.length H -> x <> a -> nth_error H' x = nth_error H x) /\ List.length H <= List.length H' /\ unchanged_basis H H' a /\
      (pure_functions H a -> pure_functions H' a).
  Proof.
    intros C (c & l & Ea & Hnp & (m & Hm) & At) Mf. pose proof (nth_valid _ _ _ _ Ea) as Va.
    set (l0 := assign "np" PyNone l) in *. set (H1 := hset a (Inst c l0) H).
    assert (EW : without_np H a = H1) by (unfold without_np; rewrite Ea; reflexivity).
    pose proof (closed_without H a C) as C1. rewrite EW in Mf, C1.
    assert (Ea1 : nth_error H1 a = Some (Inst c l0)) by (apply hset_same; exact Va).
    assert (L1 : List.length H1 = List.length H) by apply hset_length.
    destruct (deepcopy_twins H1 a C1 ltac:(rewrite L1; exact Va) Mf (ex_intro _ c (ex_intro _ l0 Ea1))) as (H2 & b & R & Ed & Hab & T & O2 & L2 & Rr & Rl & Rn & C2).
    rewrite L1 in O2, L2, Rl, Rn.
    assert (Ka : k <> a) by (intros ->; congruence). assert (Vk : k < List.length H) by (eapply nth_valid; exact Hm).
    assert (Hm2 : nth_error H2 k = Some (Module m)) by (rewrite O2 by exact Vk; unfold H1; rewrite hset_other by exact Ka; exact Hm).
    pose proof (twins_share H2 R k m T Hm2) as T2. set (R2 := fun x y => R x y \/ x = k /\ y = k) in T2.
    assert (Ea2 : nth_error H2 a = Some (Inst c l0)) by (rewrite O2 by exact Va; exact Ea1).
    destruct (sg_match _ _ _ (tw_same H2 R2 T2) a b (or_introl Hab)) as (o & o' & E1 & E2 & Mo). rewrite Ea2 in E1. injection E1 as <-.
    destruct (match_inst R2 o' c l0 Mo) as (lb & -> & F).
    assert (At2 : has_attrs H2 l0).
    { apply (attrs_ext H).
      - intros y d Hy. pose proof (nth_valid _ _ _ _ Hy). rewrite O2 by assumption. unfold H1. rewrite hset_other; [exact Hy|intros ->; congruence].
      - destruct At as (A1 & A2 & v & A3 & A4). unfold l0. split; [rewrite assoc_assign_other by discriminate; exact A1|].
        split; [rewrite assoc_assign_other by discriminate; exact A2|]. exists v. rewrite assoc_assign_other by discriminate. auto. }
    destruct (pair_change H2 R2 a b c l0 lb k T2 C2 (or_introl Hab) (or_intror (Logic.conj eq_refl eq_refl)) Ea2 E2 F At2)
      as (H3 & R3 & X1 & X2 & T3 & C3 & S3 & S3' & O3 & L3 & N3 & la' & lb' & Ea3 & Eb3 & Np3 & K3 & B3 & _).
    assert (Nb : List.length H <= b).
    { destruct (Rn a b Hab) as [G|<-]; [exact G|]. exfalso. destruct (tw_dis _ _ T a a a Hab Hab) as (o & Ho & Hi). rewrite Ea2 in Ho. injection Ho as <-. discriminate Hi. }
    assert (Old : forall x, x < List.length H -> x <> a -> nth_error H3 x = nth_error H x).
    { intros x Hx Nx. rewrite O3; [|lia|exact Nx|intros ->; lia]. rewrite O2 by exact Hx. unfold H1. apply hset_other. exact Nx. }
    exists H3, b. split; [|split; [|split; [exact Nb|split; [exact C3|split; [exact Old|split; [lia|split]]]]]].
    - unfold copy_basis. unfold bind at 1, getattr. rewrite Ea, Hnp. unfold bind at 1, setattr. rewrite Ea. fold l0. fold H1.
      unfold bind at 1. rewrite Ed. unfold bind at 1. cbn [deref ret]. unfold bind at 1. rewrite X1. unfold bind at 1. rewrite X2. reflexivity.
    - exists R3. split; [apply S3; left; exact Hab|]. split; [apply T3|]. split; [apply (tw_imm _ _ T3)|apply (tw_dis _ _ T3)].
    - exists c, l, la'. split; [exact Ea|]. split; [exact Ea3|]. split.
      + intros key Nk. destruct (string_dec key "np") as [->|Nn]; [rewrite Np3, Hnp; reflexivity|].
        rewrite K3 by assumption. unfold l0. apply assoc_assign_other. exact Nn.
      + intros Nn. rewrite B3; unfold l0; rewrite assoc_assign_other by discriminate; [reflexivity|exact Nn].
    - intros Pf. apply (pure_kept H); [|intros x o Ho Hi|exact Pf].
      + intros x f cs Rx Ex. destruct (proj2 (copy_reaches data H3 R3 a b (tw_same _ _ T3) (S3 _ _ (or_introl Hab))) x Rx) as (y & _ & Hr).
        destruct (S3' x y Hr) as [[Hr2|[-> ->]]|[Hx _]].
        * pose proof (Rl x y Hr2) as Hx. assert (Nx : x <> a) by (intros ->; congruence). split; [|rewrite <- (Old x Hx Nx); exact Ex].
          pose proof (Rr x y Hr2) as G. rewrite <- EW in G. apply reaches_without in G. exact G.
        * rewrite Old in Ex by assumption. congruence.
        * destruct (N3 x _ Hx Ex) as [d Ed']. discriminate Ed'.
      + pose proof (nth_valid _ _ _ _ Ho) as V. rewrite Old; [exact Ho|exact V|intros ->; rewrite Ea in Ho; injection Ho as <-; discriminate Hi].
  Qed.

  Lemma deepcopy_fails' H a x m : closed H -> a < List.length H -> reaches H a x -> nth_error H x = Some (Module m) ->
    exists H', deepcopy (Ref a) H = (Err TypeError, H') /\ List.length H <= List.length H' /\ (forall z, z < List.length H -> nth_error H' z = nth_error H z).
  Proof.
    intros C Va R E. refine (deepcopy_fails data H _ a x m Va R E). intros z o y Hz Hy. apply (C z o y Hz). destruct o; cbn in *; try contradiction; exact Hy.
  Qed.

  Lemma copy_basis_fails H a k x m : closed H -> basis_object H a k -> reaches (without_np H a) a x -> nth_error (without_np H a) x = Some (Module m) ->
    exists H', copy_basis conj compact a H = (Err TypeError, H') /\
      (forall z, z < List.length H -> nth_error H' z = nth_error (without_np H a) z).
  Proof.
    intros C (c & l & Ea & Hnp & _ & At) Rx Ex. pose proof (nth_valid _ _ _ _ Ea) as Va. pose proof (closed_without H a C) as C1.
    assert (EW : without_np H a = hset a (Inst c (assign "np" PyNone l)) H) by (unfold without_np; rewrite Ea; reflexivity). rewrite EW in *.
    destruct (deepcopy_fails' _ a x m C1 ltac:(rewrite hset_length; exact Va) Rx Ex) as (H' & Ed & _ & O). rewrite hset_length in O.
    exists H'. split; [|exact O]. unfold copy_basis. unfold bind at 1, getattr. rewrite Ea, Hnp. unfold bind at 1, setattr. rewrite Ea.
    unfold bind at 1. rewrite Ed. reflexivity.
  Qed.

  (** copy_system *)
  Definition system_object H (s a k : nat) : Prop :=
    s <> a /\ basis_object H a k /\
    exists c l, nth_error H s = Some (Inst c l) /\ assoc "np" l = Some (Ref k) /\ assoc "_basis_set" l = Some (Ref a).
  Lemma changed_other H b c v l x : x < List.length H -> x <> b -> nth_error (changed H b c v l) x = nth_error H x.
  Proof.
    intros Hx N. unfold changed. destruct (plan H c l); rewrite hset_other by exact N; [|reflexivity]. apply nth_app_l. exact Hx.
  Qed.
  Lemma changed_comm H b c v l s cs ls ls0 : s <> b -> nth_error H s = Some (Inst cs ls0) ->
    changed (hset s (Inst cs ls) H) b c v l = hset s (Inst cs ls) (changed H b c v l).
  Proof.
    intros N Es. pose proof (nth_valid _ _ _ _ Es) as V.
    assert (P : plan (hset s (Inst cs ls) H) c l = plan H c l).
    { symmetry. apply plan_ext. intros y _. destruct (Nat.eq_dec y s) as [->|Ny]; [rewrite Es, hset_same by exact V; reflexivity|].
      rewrite hset_other by exact Ny. reflexivity. }
    unfold changed. rewrite P. destruct (plan H c l) as [d|].
    - rewrite hset_length. rewrite (hset_comm s b) by exact N. rewrite (hset_app s) by exact V. reflexivity.
    - apply hset_comm. auto.
  Qed.

  Lemma copy_system_ok H s a k : closed H -> system_object H s a k -> module_free (without_np (without_np H s) a) s ->
    exists H' s', copy_system conj compact s H = (Ok s', H') /\ copy_of H' s s' /\ List.length H <= s' /\ closed H' /\
      (forall x, x < List.length H -> x <> s -> x <> a -> nth_error H' x = nth_error H x) /\ List.length H <= List.length H' /\
      unchanged_basis H H' a /\ unchanged_basis H H' s /\ (pure_functions H s -> pure_functions H' s).
  Proof.
    intros C (Nsa & (c & l & Ea & Hnp & (m & Hm) & At) & cs & ls & Es & Hsnp & Hsb) Mf.
    pose proof (nth_valid _ _ _ _ Ea) as Va. pose proof (nth_valid _ _ _ _ Es) as Vs. pose proof (nth_valid _ _ _ _ Hm) as Vk.
    set (ls0 := assign "np" PyNone ls) in *. set (H0 := hset s (Inst cs ls0) H).
    assert (EW0 : without_np H s = H0) by (unfold without_np; rewrite Es; reflexivity).
    assert (Ea0 : nth_error H0 a = Some (Inst c l)) by (unfold H0; rewrite hset_other by auto; exact Ea).
    set (l0 := assign "np" PyNone l) in *. set (H1 := hset a (Inst c l0) H0).
    assert (EW : without_np (without_np H s) a = H1) by (rewrite EW0; unfold without_np; rewrite Ea0; reflexivity).
    pose proof (closed_without _ a (closed_without H s C)) as C1. rewrite EW in Mf, C1.
    assert (L1 : List.length H1 = List.length H) by (unfold H1, H0; rewrite !hset_length; reflexivity).
    assert (Ea1 : nth_error H1 a = Some (Inst c l0)) by (apply hset_same; unfold H0; rewrite hset_length; exact Va).
    assert (Es1 : nth_error H1 s = Some (Inst cs ls0)) by (unfold H1; rewrite hset_other by exact Nsa; apply hset_same; exact Vs).
    assert (O1 : forall x, x <> s -> x <> a -> nth_error H1 x = nth_error H x) by (intros x N1 N2; unfold H1, H0; rewrite !hset_other by assumption; reflexivity).
    destruct (deepcopy_twins H1 s C1 ltac:(rewrite L1; exact Vs) Mf (ex_intro _ cs (ex_intro _ ls0 Es1))) as (H2 & s' & R & Ed & Hss & T & O2 & L2 & Rr & Rl & Rn & C2).
    rewrite L1 in O2, L2, Rl, Rn.
    assert (Ks : k <> s) by (intros ->; congruence). assert (Ka : k <> a) by (intros ->; congruence).
    assert (Hm2 : nth_error H2 k = Some (Module m)) by (rewrite O2 by exact Vk; rewrite O1 by assumption; exact Hm).
    pose proof (twins_share H2 R k m T Hm2) as T2. set (R2 := fun x y => R x y \/ x = k /\ y = k) in T2.
    assert (Es2 : nth_error H2 s = Some (Inst cs ls0)) by (rewrite O2 by exact Vs; exact Es1).
    assert (Ea2 : nth_error H2 a = Some (Inst c l0)) by (rewrite O2 by exact Va; exact Ea1).
    (* the copies of the system and of its basis set *)
    destruct (sg_match _ _ _ (tw_same H2 R T) s s' Hss) as (o & o' & E1 & Es'2 & Mo). rewrite Es2 in E1. injection E1 as <-.
    destruct (match_inst R o' cs ls0 Mo) as (ls' & -> & Fs0).
    assert (Hsb0 : assoc "_basis_set" ls0 = Some (Ref a)) by (unfold ls0; rewrite assoc_assign_other by discriminate; exact Hsb).
    pose proof (match_assoc R ls0 ls' "_basis_set" Fs0) as Mb. rewrite Hsb0 in Mb.
    destruct (assoc "_basis_set" ls') as [[|d0|a']|] eqn:Hsb'; cbn in Mb; try contradiction. rename Mb into Haa.
    assert (Fs : Forall2 (pair_match R2) ls0 ls').
    { clear -Fs0. induction Fs0 as [|[k1 v1] [k2 v2] l l' [E1 V] _ IH]; constructor; [|exact IH]. split; [exact E1|]. unfold R2. cbn in *. destruct v1, v2; cbn in *; auto. }
    destruct (sg_match _ _ _ (tw_same H2 R2 T2) a a' (or_introl Haa)) as (o & o' & E1 & Ea'2 & Mo'). rewrite Ea2 in E1. injection E1 as <-.
    destruct (match_inst R2 o' c l0 Mo') as (la & -> & Fa).
    assert (New : forall x y cx lx, R x y -> nth_error H2 x = Some (Inst cx lx) -> List.length H <= y).
    { intros x y cx lx Hr Ex. destruct (Rn x y Hr) as [G|<-]; [exact G|]. exfalso. destruct (tw_dis _ _ T x x x Hr Hr) as (o & Ho & Hi). rewrite Ex in Ho. injection Ho as <-. discriminate Hi. }
    pose proof (New _ _ _ _ Hss Es2) as Ns'. pose proof (New _ _ _ _ Haa Ea2) as Na'.
    assert (Nsa' : s' <> a').
    { intros G. subst a'. apply Nsa. exact (sg_inj _ _ _ (tw_same _ _ T) s a s' Hss Haa). }
    (* setting np on both systems *)
    set (Xs := Inst cs (assign "np" (Ref k) ls0)). set (Xs' := Inst cs (assign "np" (Ref k) ls')).
    assert (Fs1 : Forall2 (pair_match R2) (assign "np" (Ref k) ls0) (assign "np" (Ref k) ls')) by (apply match_assign; [exact Fs|right; auto]).
    destruct (twins_write H2 R2 s s' cs ls0 ls' cs ls0 T2 (or_introl Hss) Es2 Es'2 _ _ Fs1) as [Ts _]. fold Xs in Ts. fold Xs' in Ts.
    set (Hs1 := hset s' Xs' H2) in *. set (Hs := hset s Xs Hs1) in *.
    assert (Vs2 : s < List.length H2) by lia. assert (Vs'2 : s' < List.length H2) by (eapply nth_valid; exact Es'2). assert (Va'2 : a' < List.length H2) by (eapply nth_valid; exact Ea'2).
    assert (Ls : List.length Hs = List.length H2) by (unfold Hs, Hs1; rewrite !hset_length; reflexivity).
    assert (Es1' : nth_error Hs1 s = Some (Inst cs ls0)) by (unfold Hs1; rewrite hset_other by lia; exact Es2).
    assert (EaS : nth_error Hs a = Some (Inst c l0)) by (unfold Hs, Hs1; rewrite !hset_other by lia; exact Ea2).
    assert (EaS' : nth_error Hs a' = Some (Inst c la)) by (unfold Hs, Hs1; rewrite !hset_other by lia; exact Ea'2).
    assert (EaS1 : nth_error Hs1 a' = Some (Inst c la)) by (unfold Hs1; rewrite hset_other by lia; exact Ea'2).
    assert (Bs : forall y d, nth_error H2 y = Some (Buffer d) -> nth_error Hs y = Some (Buffer d)).
    { intros y d Hy. unfold Hs, Hs1. rewrite !hset_other; [exact Hy| |]; intros ->; congruence. }
    assert (Bs1 : forall y d, nth_error Hs y = Some (Buffer d) -> nth_error Hs1 y = Some (Buffer d)).
    { intros y d Hy. unfold Hs in Hy. destruct (Nat.eq_dec y s) as [->|Ny]; [rewrite hset_same in Hy by (unfold Hs1; rewrite hset_length; lia); discriminate Hy|].
      rewrite hset_other in Hy by exact Ny. exact Hy. }
    assert (AtS : has_attrs Hs l0).
    { apply (attrs_ext H).
      - intros y d Hy. pose proof (nth_valid _ _ _ _ Hy). apply Bs. rewrite O2 by assumption. rewrite O1; [exact Hy| |]; intros ->; congruence.
      - destruct At as (A1 & A2 & v & A3 & A4). unfold l0. split; [rewrite assoc_assign_other by discriminate; exact A1|].
        split; [rewrite assoc_assign_other by discriminate; exact A2|]. exists v. rewrite assoc_assign_other by discriminate. auto. }
    assert (CS : closed Hs).
    { assert (C2' : closed Hs1).
      { apply closed_hset; [exact C2|]. intros y Hy. cbn in Hy. apply refs_assign in Hy. destruct Hy as [Hy|Hy]; [exact (refs_valid H2 s' cs ls' y C2 Es'2 Hy)|injection Hy as <-; lia]. }
      apply closed_hset; [exact C2'|]. intros y Hy. cbn in Hy. unfold Hs1. rewrite hset_length. apply refs_assign in Hy. destruct Hy as [Hy|Hy]; [exact (refs_valid H2 s cs ls0 y C2 Es2 Hy)|injection Hy as <-; lia]. }
    destruct (pair_change Hs R2 a a' c l0 la k Ts CS (or_introl Haa) (or_intror (Logic.conj eq_refl eq_refl)) EaS EaS' Fa AtS)
      as (H3 & R3 & X1 & X2 & T3 & C3 & S3 & S3' & O3 & L3 & N3 & la3 & lb3 & Ea3 & Ea'3 & Np3 & K3 & B3 & _).
    rewrite Ls in S3', O3, L3, N3.
    assert (At1 : has_attrs Hs1 la) by (apply (attrs_ext Hs); [exact Bs1|]; exact (attrs_twins Hs R2 l0 la Ts Fa AtS)).
    pose proof (change_module_run Hs1 a' c la (Ref k) EaS1 At1) as X1'.
    assert (EC : changed Hs a' c (Ref k) la = hset s Xs (changed Hs1 a' c (Ref k) la)) by (apply (changed_comm Hs1 a' c (Ref k) la s cs _ ls0); [lia|exact Es1']).
    rewrite EC in X2.
    assert (Es3 : nth_error H3 s = Some Xs).
    { rewrite O3 by lia. unfold Hs. apply hset_same. unfold Hs1. rewrite hset_length. exact Vs2. }
    assert (Old : forall x, x < List.length H -> x <> s -> x <> a -> nth_error H3 x = nth_error H x).
    { intros x Hx N1 N2. rewrite O3 by lia. unfold Hs, Hs1. rewrite !hset_other by lia. rewrite O2 by exact Hx. apply O1; assumption. }
    exists H3, s'. split; [|split; [|split; [exact Ns'|split; [exact C3|split; [exact Old|split; [lia|split; [|split]]]]]]].
    - unfold copy_system. unfold bind at 1, getattr. rewrite Es, Hsnp. unfold bind at 1, setattr. rewrite Es. fold ls0. fold H0.
      unfold bind at 1, getattr. unfold H0 at 1. rewrite hset_same by exact Vs. rewrite Hsb0. unfold bind at 1. cbn [deref ret].
      unfold bind at 1, setattr. rewrite Ea0. fold l0. fold H1. unfold bind at 1. rewrite Ed. unfold bind at 1. cbn [deref ret].
      unfold bind at 1. unfold sys_change_module at 1. unfold bind at 1, setattr. rewrite Es'2. fold Xs'. fold Hs1.
      unfold bind at 1, getattr. unfold Hs1 at 1. rewrite hset_same by exact Vs'2. unfold Xs' at 1. rewrite assoc_assign_other by discriminate. rewrite Hsb'.
      unfold bind at 1. cbn [deref ret]. rewrite X1'.
      unfold bind at 1. unfold sys_change_module. unfold bind at 1, setattr. rewrite changed_other by (try (unfold Hs1; rewrite hset_length); lia).
      rewrite Es1'. fold Xs. unfold bind at 1, getattr. rewrite <- EC at 1. rewrite changed_other by lia. unfold Hs at 1.
      rewrite hset_same by (unfold Hs1; rewrite hset_length; exact Vs2). unfold Xs at 1. rewrite assoc_assign_other by discriminate. rewrite Hsb0.
      unfold bind at 1. cbn [deref ret]. rewrite X2. reflexivity.
    - exists R3. split; [apply S3; left; exact Hss|]. split; [apply T3|]. split; [apply (tw_imm _ _ T3)|apply (tw_dis _ _ T3)].
    - exists c, l, la3. split; [exact Ea|]. split; [exact Ea3|]. split.
      + intros key Nk. destruct (string_dec key "np") as [->|Nn]; [rewrite Np3, Hnp; reflexivity|].
        rewrite K3 by assumption. unfold l0. apply assoc_assign_other. exact Nn.
      + intros Nn. rewrite B3; unfold l0; rewrite assoc_assign_other by discriminate; [reflexivity|exact Nn].
    - exists cs, ls, (assign "np" (Ref k) ls0). split; [exact Es|]. split; [exact Es3|].
      assert (G : forall key, assoc key (assign "np" (Ref k) ls0) = assoc key ls).
      { intros key. destruct (string_dec key "np") as [->|Nn]; [rewrite assoc_assign_same, Hsnp; reflexivity|].
        unfold ls0. rewrite !assoc_assign_other by exact Nn. reflexivity. }
      split; intros; apply G.
    - intros Pf. apply (pure_kept H); [|intros x o Ho Hi|exact Pf].
      + intros x f cs' Rx Ex. destruct (proj2 (copy_reaches data H3 R3 s s' (tw_same _ _ T3) (S3 _ _ (or_introl Hss))) x Rx) as (y & _ & Hr).
        destruct (S3' x y Hr) as [[Hr2|[-> ->]]|[Hx _]].
        * pose proof (Rl x y Hr2) as Hx. assert (Nx : x <> a) by (intros ->; congruence). assert (Nx' : x <> s) by (intros ->; unfold Xs in Es3; congruence).
          split; [|rewrite <- (Old x Hx Nx' Nx); exact Ex].
          pose proof (Rr x y Hr2) as G. rewrite <- EW in G. apply reaches_without, reaches_without in G. exact G.
        * rewrite Old in Ex by assumption. congruence.
        * destruct (N3 x _ Hx Ex) as [d Ed']. discriminate Ed'.
      + pose proof (nth_valid _ _ _ _ Ho) as V. rewrite Old; [exact Ho|exact V| |]; intros ->; rewrite ?Ea, ?Es in Ho; injection Ho as <-; discriminate Hi.
  Qed.

  Lemma copy_system_fails H s a k x m : closed H -> system_object H s a k -> reaches (without_np (without_np H s) a) s x ->
    nth_error (without_np (without_np H s) a) x = Some (Module m) ->
    exists H', copy_system conj compact s H = (Err TypeError, H') /\
      (forall z, z < List.length H -> nth_error H' z = nth_error (without_np (without_np H s) a) z).
  Proof.
    intros C (Nsa & (c & l & Ea & Hnp & _ & At) & cs & ls & Es & Hsnp & Hsb) Rx Ex.
    pose proof (nth_valid _ _ _ _ Ea) as Va. pose proof (nth_valid _ _ _ _ Es) as Vs.
    set (ls0 := assign "np" PyNone ls) in *. set (H0 := hset s (Inst cs ls0) H).
    assert (EW0 : without_np H s = H0) by (unfold without_np; rewrite Es; reflexivity).
    assert (Ea0 : nth_error H0 a = Some (Inst c l)) by (unfold H0; rewrite hset_other by auto; exact Ea).
    set (H1 := hset a (Inst c (assign "np" PyNone l)) H0).
    assert (EW : without_np (without_np H s) a = H1) by (rewrite EW0; unfold without_np; rewrite Ea0; reflexivity).
    pose proof (closed_without _ a (closed_without H s C)) as C1. rewrite EW in *.
    assert (L1 : List.length H1 = List.length H) by (unfold H1, H0; rewrite !hset_length; reflexivity).
    destruct (deepcopy_fails' _ s x m C1 ltac:(rewrite L1; exact Vs) Rx Ex) as (H' & Ed & _ & O). rewrite L1 in O.
    exists H'. split; [|exact O]. unfold copy_system. unfold bind at 1, getattr. rewrite Es, Hsnp. unfold bind at 1, setattr. rewrite Es. fold ls0. fold H0.
    unfold bind at 1, getattr. unfold H0 at 1. rewrite hset_same by exact Vs. unfold ls0 at 1. rewrite assoc_assign_other by discriminate. rewrite Hsb.
    unfold bind at 1. cbn [deref ret]. unfold bind at 1, setattr. rewrite Ea0. fold H1. unfold bind at 1. rewrite Ed. reflexivity.
  Qed.

  (** construct_general_orbital_system with an operator: the operator refers to a system
      whose np is a module, so that its copy fails, whatever has been built before. *)
  Definition builds (init : nat -> HM data nat) : Prop :=
    forall b H, closed H -> b < List.length H -> exists g H', init b H = (Ok g, H') /\ closed H' /\ List.length H <= List.length H' /\
      forall z, z < List.length H -> z <> b -> nth_error H' z = nth_error H z.
  Lemma construct_general_fails init H s a k o c l co lo : closed H -> system_object H s a k -> module_free (without_np H a) a ->
    nth_error H s = Some (Inst c l) -> assoc "_time_evolution_operator" l = Some (Ref o) ->
    nth_error H o = Some (Inst co lo) -> assoc "_system" lo = Some (Ref s) -> o <> a -> builds init ->
    exists H', construct_general conj compact init s H = (Err TypeError, H').
  Proof.
    intros C (Nsa & Ba & cs & ls & Es & Hsnp & Hsb) Mf Es' Ho Eo Hos Noa Bi. rewrite Es in Es'. injection Es' as -> ->.
    destruct (copy_basis_ok H a k C Ba Mf) as (H1 & b & E1 & Cp & Nb & C1 & O1 & L1 & _ & _).
    destruct Ba as (ca & la & Ea & Hnp & (m & Hm) & _). assert (Ka : k <> a) by (intros ->; congruence).
    assert (Vb : b < List.length H1).
    { destruct Cp as (R & Hr & G & _). destruct (sg_match _ _ _ G a b Hr) as (x1 & x2 & _ & Hb & _). eapply nth_valid. exact Hb. }
    destruct (Bi b H1 C1 Vb) as (g & H2 & E2 & C2 & L2 & O2).
    assert (Old : forall z w, nth_error H z = Some w -> z <> a -> nth_error H2 z = Some w).
    { intros z w Hz Nz. pose proof (nth_valid _ _ _ _ Hz). rewrite O2 by lia. rewrite O1 by assumption. exact Hz. }
    pose proof (Old s _ Es Nsa) as Es2. pose proof (Old o _ Eo Noa) as Eo2. pose proof (Old k _ Hm Ka) as Hm2.
    destruct (deepcopy_fails' H2 o k m C2 (nth_valid _ _ _ _ Eo2)) as (H3 & E3 & _); [|exact Hm2|].
    - eapply reach_step; [eapply reach_step; [apply reach_refl|exact Eo2|exact (assoc_ref "_system" lo s Hos)]|exact Es2|exact (assoc_ref "np" l k Hsnp)].
    - exists H3. unfold construct_general. unfold bind at 1, getattr. rewrite Es, Hsb. unfold bind at 1. cbn [deref ret]. unfold bind at 1. rewrite E1.
      unfold bind at 1. rewrite E2. unfold bind at 1. unfold getattr. rewrite Es2, Ho. unfold bind at 1. rewrite E3. reflexivity.
  Qed.
  (** Without an operator it ends where the construction of the new system ends. *)
  Lemma construct_general_without init H s a k c l : closed H -> system_object H s a k -> module_free (without_np H a) a ->
    nth_error H s = Some (Inst c l) -> assoc "_time_evolution_operator" l = Some PyNone -> builds init ->
    exists b H1 g H2, copy_basis conj compact a H = (Ok b, H1) /\ init b H1 = (Ok g, H2) /\ construct_general conj compact init s H = (Ok g, H2).
  Proof.
    intros C (Nsa & Ba & cs & ls & Es & Hsnp & Hsb) Mf Es' Ho Bi. rewrite Es in Es'. injection Es' as -> ->.
    destruct (copy_basis_ok H a k C Ba Mf) as (H1 & b & E1 & Cp & Nb & C1 & O1 & L1 & _ & _).
    assert (Vb : b < List.length H1).
    { destruct Cp as (R & Hr & G & _). destruct (sg_match _ _ _ G a b Hr) as (x1 & x2 & _ & Hb & _). eapply nth_valid. exact Hb. }
    destruct (Bi b H1 C1 Vb) as (g & H2 & E2 & C2 & L2 & O2).
    assert (Es2 : nth_error H2 s = Some (Inst c l)).
    { pose proof (nth_valid _ _ _ _ Es). rewrite O2 by lia. rewrite O1 by assumption. exact Es. }
    exists b, H1, g, H2. split; [exact E1|]. split; [exact E2|]. unfold construct_general. unfold bind at 1, getattr. rewrite Es, Hsb. unfold bind at 1. cbn [deref ret].
    unfold bind at 1. rewrite E1. unfold bind at 1. rewrite E2. unfold bind at 1. unfold getattr. rewrite Es2, Ho. reflexivity.
  Qed.
End Copy.
