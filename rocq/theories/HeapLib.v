(** Which objects of the library can be copied: basis sets with the potentials of
    one_dim_potentials.py, systems with time-evolution operators. *)
From Coq Require Import List Arith Lia Bool String.
From Verif Require Import Py PyHeap HeapSpec HeapProofs HeapFrame HeapCopy.
Import ListNotations.
Local Open Scope string_scope.
Local Open Scope list_scope.

Section Lib.
  Variable data : Type.
  Notation obj := (obj data). Notation heap := (heap data). Notation value := (value data).
  Variables (conj : data -> data) (compact : nat -> data -> bool).
  Implicit Types (H : heap) (l : list (string * value)).

  (** one_dim_potentials.py:14-154: what the constructors store *)
  Inductive potential_class := HO | DW | DWSmooth | SymmetricDW | AsymmetricDW | Gaussian | GaussianHardWall | Atomic.
  Definition potential_attrs (p : potential_class) (np : nat) (x : nat -> data) : list (string * value) :=
    match p with
    | HO => [("omega", Lit (x 0))]
    | DW => [("omega", Lit (x 0)); ("l", Lit (x 1))]
    | DWSmooth => [("a", Lit (x 0))]
    | SymmetricDW | AsymmetricDW => [("a", Lit (x 0)); ("b", Lit (x 1)); ("c", Lit (x 2))]
    | Gaussian => [("weight", Lit (x 0)); ("center", Lit (x 1)); ("deviation", Lit (x 2)); ("np", Ref np)]
    | GaussianHardWall => [("weight", Lit (x 0)); ("center", Lit (x 1)); ("deviation", Lit (x 2)); ("x_wall", Lit (x 3))]
    | Atomic => [("Za", Lit (x 0)); ("c", Lit (x 1))]
    end.
  (** Numbers, arrays and functions *)
  Definition leaf H (v : value) : Prop :=
    match v with Ref y => exists o, nth_error H y = Some o /\ match o with Buffer _ | Func _ _ => True | _ => False end | _ => True end.
  (** A basis set: np, possibly a potential, and leaves (ODQD, ODSincDVR, ODHO,
      TwoDimensionalHarmonicOscillator and the others, BasisSet, RandomBasisSet) *)
  Definition library_basis H (a k : nat) (pot : option (nat * potential_class)) : Prop :=
    basis_object data H a k /\
    exists c l, nth_error H a = Some (Inst c l) /\ NoDup (map fst l) /\
      (forall key v, In (key, v) l -> key = "np" \/ leaf H v \/ key = "potential" /\ exists p cl, pot = Some (p, cl) /\ v = Ref p) /\
      (forall p cl, pot = Some (p, cl) -> p <> a /\ In ("potential", Ref p) l /\ exists c x, nth_error H p = Some (Inst c (potential_attrs cl k x))).
  (** A system with it, and an operator holding leaves and the system it was last set on *)
  Definition library_system H (s a k : nat) (pot : option (nat * potential_class)) (op : option (nat * nat)) : Prop :=
    system_object data H s a k /\ library_basis H a k pot /\
    exists c l, nth_error H s = Some (Inst c l) /\ NoDup (map fst l) /\
      (forall key v, In (key, v) l -> key = "np" \/ leaf H v \/ (key = "_basis_set" /\ v = Ref a) \/ (exists o t, key = "_time_evolution_operator" /\ op = Some (o, t) /\ v = Ref o)) /\
      (forall p cl, pot = Some (p, cl) -> p <> s) /\
      (forall o t, op = Some (o, t) -> o <> s /\ o <> a /\ assoc "_time_evolution_operator" l = Some (Ref o) /\
        exists co lo, nth_error H o = Some (Inst co lo) /\ assoc "_system" lo = Some (Ref t) /\ (forall key v, In (key, v) lo -> leaf H v \/ v = Ref t)).

  Lemma refs_in l y : In y (refs_of_values (map snd l)) -> exists key, In (key, Ref y) l.
  Proof.
    induction l as [|[k v] l IH]; cbn; [intros []|]. intros Hy. apply in_app_or in Hy. destruct Hy as [Hy|Hy].
    - destruct v; cbn in Hy; try contradiction. destruct Hy as [<-|[]]. exists k. left. reflexivity.
    - destruct (IH Hy) as [key Hk]. exists key. right. exact Hk.
  Qed.
  Lemma in_refs l y key : In (key, Ref y) l -> In y (refs_of_values (map snd l)).
  Proof.
    induction l as [|[k v] l IH]; cbn; [intros []|]. intros [E|Hy]; apply in_or_app; [left; injection E as -> ->; left; reflexivity|right; exact (IH Hy)].
  Qed.
  Lemma refs_without l y : NoDup (map fst l) -> In y (refs_of_values (map snd (assign "np" PyNone l))) -> exists key, key <> "np" /\ In (key, Ref y) l.
  Proof.
    induction l as [|[k v] l IH]; cbn [map fst]; intros N Hy; [cbn in Hy; contradiction|]. inversion N as [|? ? N1 N2]. subst. cbn [assign] in Hy.
    destruct (String.eqb k "np") eqn:E.
    - apply String.eqb_eq in E. subst k. cbn in Hy. destruct (refs_in l y Hy) as [key Hk]. exists key. split; [|right; exact Hk].
      intros ->. apply N1. apply in_map_iff. exists ("np", Ref y). auto.
    - apply String.eqb_neq in E. cbn in Hy. apply in_app_or in Hy. destruct Hy as [Hy|Hy].
      + destruct v; cbn in Hy; try contradiction. destruct Hy as [<-|[]]. exists k. split; [exact E|left; reflexivity].
      + destruct (IH N2 Hy) as (key & Nk & Hk). exists key. split; [exact Nk|right; exact Hk].
  Qed.
  Lemma in_without l key v : key <> "np" -> In (key, v) l -> In (key, v) (assign "np" PyNone l).
  Proof.
    intros Nk. induction l as [|[k w] l IH]; cbn; [intros []|]. intros [E|Hy].
    - injection E as -> ->. destruct (String.eqb key "np") eqn:E; [apply String.eqb_eq in E; contradiction|left; reflexivity].
    - destruct (String.eqb k "np"); right; auto.
  Qed.
  Lemma potential_refs p np x y : In y (refs_of_values (map snd (potential_attrs p np x))) -> p = Gaussian /\ y = np.
  Proof. destruct p; cbn; intros Hy; try contradiction. destruct Hy as [<-|[]]. auto. Qed.

  (** Sets of objects closed under references *)
  Lemma reach_in refs H (P : nat -> Prop) a : P a -> (forall x o y, P x -> nth_error H x = Some o -> In y (refs o) -> P y) ->
    forall x, reach (data:=data) refs H a x -> P x.
  Proof. intros Pa St x R. induction R; eauto. Qed.

  Lemma library_module_free H a k pot : library_basis H a k pot -> (forall p, pot <> Some (p, Gaussian)) -> module_free (without_np data H a) a.
  Proof.
    intros (_ & c & l & Ea & N & Lf & Pt) Ng. unfold without_np. rewrite Ea. pose proof (nth_valid _ _ _ _ Ea) as Va.
    set (H1 := hset a (Inst c (assign "np" PyNone l)) H).
    assert (Ea1 : nth_error H1 a = Some (Inst c (assign "np" PyNone l))) by (apply hset_same; exact Va).
    assert (O1 : forall x, x <> a -> nth_error H1 x = nth_error H x) by (intros; apply hset_other; assumption).
    set (P := fun x => x = a \/ (x <> a /\ leaf H (Ref x)) \/ exists p cl, pot = Some (p, cl) /\ x = p).
    assert (G : forall x, reaches H1 a x -> P x).
    { apply reach_in; [left; reflexivity|]. intros x o y Px Hx Hy. destruct Px as [->|[[Nx (o' & Ho & Hl)]|(p & cl & Ep & ->)]].
      - rewrite Ea1 in Hx. injection Hx as <-. cbn in Hy. destruct (refs_without l y N Hy) as (key & Nk & Hk).
        destruct (Lf _ _ Hk) as [G|[G|(-> & p & cl & Ep & Ev)]]; [contradiction| |].
        + destruct (Nat.eq_dec y a) as [->|Ny]; [left; reflexivity|right; left; split; assumption].
        + right. right. exists p, cl. injection Ev as ->. auto.
      - rewrite O1 in Hx by exact Nx. rewrite Ho in Hx. injection Hx as <-. destruct o'; cbn in *; contradiction.
      - destruct (Pt p cl Ep) as (Np & _ & c' & x' & Hp). rewrite O1 in Hx by exact Np. rewrite Hp in Hx. injection Hx as <-. cbn in Hy.
        destruct (potential_refs _ _ _ _ Hy) as [-> _]. exfalso. exact (Ng p Ep). }
    intros x m Rx Hm. destruct (G x Rx) as [->|[[Nx (o' & Ho & Hl)]|(p & cl & Ep & ->)]].
    - rewrite Ea1 in Hm. discriminate Hm.
    - rewrite O1 in Hm by exact Nx. rewrite Ho in Hm. injection Hm as ->. exact Hl.
    - destruct (Pt p cl Ep) as (Np & _ & c' & x' & Hp). rewrite O1 in Hm by exact Np. rewrite Hp in Hm. discriminate Hm.
  Qed.

  Lemma library_copy H a k pot : closed H -> library_basis H a k pot -> (forall p, pot <> Some (p, Gaussian)) ->
    exists H' b, copy_basis conj compact a H = (Ok b, H').
  Proof.
    intros C Lb Ng. destruct (copy_basis_ok data conj compact H a k C (proj1 Lb) (library_module_free H a k pot Lb Ng)) as (H' & b & E & _). eauto.
  Qed.
  (** With a Gaussian well it raises, and the basis set has lost its module *)
  Lemma gaussian_fails H a k p : closed H -> library_basis H a k (Some (p, Gaussian)) ->
    exists H' c l, copy_basis conj compact a H = (Err TypeError, H') /\ nth_error H' a = Some (Inst c l) /\ assoc "np" l = Some PyNone.
  Proof.
    intros C Lb. pose proof Lb as (Bo & c & l & Ea & N & _ & Pt). destruct (Pt p Gaussian eq_refl) as (Np & Hin & cp & x & Hp).
    pose proof (nth_valid _ _ _ _ Ea) as Va. destruct Bo as (c' & l' & Ea' & Hnp & (m & Hm) & At). rewrite Ea in Ea'. injection Ea' as <- <-.
    assert (Ka : k <> a) by (intros ->; congruence).
    assert (EW : without_np data H a = hset a (Inst c (assign "np" PyNone l)) H) by (unfold without_np; rewrite Ea; reflexivity).
    destruct (copy_basis_fails data conj compact H a k k m C (proj1 Lb)) as (H' & E & O).
    - rewrite EW. eapply reach_step; [eapply reach_step; [apply reach_refl|apply hset_same; exact Va|]|rewrite hset_other by exact Np; exact Hp|].
      + cbn. apply (in_refs _ p "potential"). apply in_without; [discriminate|exact Hin].
      + cbn. left. reflexivity.
    - rewrite EW. rewrite hset_other by exact Ka. exact Hm.
    - exists H', c, (assign "np" PyNone l). split; [exact E|]. split; [|apply assoc_assign_same].
      rewrite O by exact Va. rewrite EW. apply hset_same. exact Va.
  Qed.

  Lemma library_system_free H s a k pot op : library_system H s a k pot op -> (forall p, pot <> Some (p, Gaussian)) ->
    (forall o t, op = Some (o, t) -> t = s) -> module_free (without_np data (without_np data H s) a) s.
  Proof.
    intros ((Nsa & _) & (_ & c & l & Ea & N & Lf & Pt) & cs & ls & Es & Ns & Ls & Ps & Os) Ng Own.
    pose proof (nth_valid _ _ _ _ Ea) as Va. pose proof (nth_valid _ _ _ _ Es) as Vs.
    unfold without_np at 2. rewrite Es. unfold without_np. rewrite hset_other by auto. rewrite Ea.
    set (H1 := hset a _ _).
    assert (Ea1 : nth_error H1 a = Some (Inst c (assign "np" PyNone l))) by (apply hset_same; rewrite hset_length; exact Va).
    assert (Es1 : nth_error H1 s = Some (Inst cs (assign "np" PyNone ls))) by (unfold H1; rewrite hset_other by exact Nsa; apply hset_same; exact Vs).
    assert (O1 : forall x, x <> a -> x <> s -> nth_error H1 x = nth_error H x) by (intros; unfold H1; rewrite !hset_other by assumption; reflexivity).
    set (P := fun x => x = a \/ x = s \/ (x <> a /\ x <> s /\ leaf H (Ref x)) \/ (exists p cl, pot = Some (p, cl) /\ x = p) \/ exists t, op = Some (x, t)).
    assert (Lp : forall y, leaf H (Ref y) -> P y).
    { intros y Hy. unfold P. destruct (Nat.eq_dec y a) as [->|N1]; [auto|]. destruct (Nat.eq_dec y s) as [->|N2]; [auto|]. right. right. left. auto. }
    assert (G : forall x, reaches H1 s x -> P x).
    { apply reach_in; [right; left; reflexivity|]. intros x o y Px Hx Hy. destruct Px as [->|[->|[(Nx & Nx' & o' & Ho & Hl)|[(p & cl & Ep & ->)|(t & Et)]]]].
      - rewrite Ea1 in Hx. injection Hx as <-. cbn in Hy. destruct (refs_without l y N Hy) as (key & Nk & Hk).
        destruct (Lf _ _ Hk) as [G|[G|(-> & p & cl & Ep & Ev)]]; [contradiction|exact (Lp y G)|].
        right. right. right. left. exists p, cl. injection Ev as ->. auto.
      - rewrite Es1 in Hx. injection Hx as <-. cbn in Hy. destruct (refs_without ls y Ns Hy) as (key & Nk & Hk).
        destruct (Ls _ _ Hk) as [G|[G|[(_ & Ev)|(o & t & _ & Eo & Ev)]]]; [contradiction|exact (Lp y G)|left; injection Ev as ->; reflexivity|].
        right. right. right. right. exists t. injection Ev as ->. exact Eo.
      - rewrite O1 in Hx by assumption. rewrite Ho in Hx. injection Hx as <-. destruct o'; cbn in *; contradiction.
      - destruct (Pt p cl Ep) as (Np & _ & c' & x' & Hp). rewrite O1 in Hx by (auto; exact (Ps p cl Ep)). rewrite Hp in Hx. injection Hx as <-. cbn in Hy.
        destruct (potential_refs _ _ _ _ Hy) as [-> _]. exfalso. exact (Ng p Ep).
      - destruct (Os x t Et) as (N1 & N2 & _ & co & lo & Eo & _ & Lo). rewrite O1 in Hx by assumption. rewrite Eo in Hx. injection Hx as <-. cbn in Hy.
        destruct (refs_in lo y Hy) as [key Hk]. destruct (Lo _ _ Hk) as [G|Ev]; [exact (Lp y G)|]. injection Ev as ->. rewrite (Own x t Et). right. left. reflexivity. }
    intros x m Rx Hm. destruct (G x Rx) as [->|[->|[(Nx & Nx' & o' & Ho & Hl)|[(p & cl & Ep & ->)|(t & Et)]]]].
    - rewrite Ea1 in Hm. discriminate Hm.
    - rewrite Es1 in Hm. discriminate Hm.
    - rewrite O1 in Hm by assumption. rewrite Ho in Hm. injection Hm as ->. exact Hl.
    - destruct (Pt p cl Ep) as (Np & _ & c' & x' & Hp). rewrite O1 in Hm by (auto; exact (Ps p cl Ep)). rewrite Hp in Hm. discriminate Hm.
    - destruct (Os x t Et) as (N1 & N2 & _ & co & lo & Eo & _). rewrite O1 in Hm by assumption. rewrite Eo in Hm. discriminate Hm.
  Qed.
  Lemma library_copy_system H s a k pot op : closed H -> library_system H s a k pot op -> (forall p, pot <> Some (p, Gaussian)) ->
    (forall o t, op = Some (o, t) -> t = s) -> exists H' s', copy_system conj compact s H = (Ok s', H').
  Proof.
    intros C L Ng Own. destruct (copy_system_ok data conj compact H s a k C (proj1 L) (library_system_free H s a k pot op L Ng Own)) as (H' & b & E & _). eauto.
  Qed.
  (** An operator last set on another system *)
  Lemma foreign_operator_fails H s a k pot o t : closed H -> library_system H s a k pot (Some (o, t)) -> t <> s -> t <> a ->
    (exists c l j m, nth_error H t = Some (Inst c l) /\ assoc "np" l = Some (Ref j) /\ nth_error H j = Some (Module m)) ->
    exists H' c l, copy_system conj compact s H = (Err TypeError, H') /\ nth_error H' s = Some (Inst c l) /\ assoc "np" l = Some PyNone.
  Proof.
    intros C L Nts Nta (ct & lt & j & m & Et & Hj & Hm). pose proof L as ((Nsa & _) & (_ & c & l & Ea & N & Lf & Pt) & cs & ls & Es & Ns & Ls & Ps & Os).
    destruct (Os o t eq_refl) as (N1 & N2 & Ho & co & lo & Eo & Hs & _). pose proof (nth_valid _ _ _ _ Ea) as Va. pose proof (nth_valid _ _ _ _ Es) as Vs.
    assert (EW : without_np data (without_np data H s) a = hset a (Inst c (assign "np" PyNone l)) (hset s (Inst cs (assign "np" PyNone ls)) H)).
    { unfold without_np at 2. rewrite Es. unfold without_np. rewrite hset_other by auto. rewrite Ea. reflexivity. }
    set (H1 := hset a _ _) in EW.
    assert (Es1 : nth_error H1 s = Some (Inst cs (assign "np" PyNone ls))) by (unfold H1; rewrite hset_other by exact Nsa; apply hset_same; exact Vs).
    assert (O1 : forall x, x <> a -> x <> s -> nth_error H1 x = nth_error H x) by (intros; unfold H1; rewrite !hset_other by assumption; reflexivity).
    destruct (copy_system_fails data conj compact H s a k j m C (proj1 L)) as (H' & E & O).
    - rewrite EW. apply (reach_step _ _ _ s t (Inst ct lt) j); [apply (reach_step _ _ _ s o (Inst co lo) t); [apply (reach_step _ _ _ s s _ o (reach_refl _ _ _ s) Es1)| |]| |].
      + cbn. apply (assoc_ref data "_time_evolution_operator"). rewrite assoc_assign_other by discriminate. exact Ho.
      + rewrite O1 by assumption. exact Eo.
      + cbn. apply (assoc_ref data "_system"). exact Hs.
      + rewrite O1 by assumption. exact Et.
      + cbn. apply (assoc_ref data "np"). exact Hj.
    - rewrite EW. rewrite O1; [exact Hm| |]; intros ->; congruence.
    - exists H', cs, (assign "np" PyNone ls). split; [exact E|]. split; [rewrite O by exact Vs; rewrite EW; exact Es1|apply assoc_assign_same].
  Qed.
  Lemma operator_spin_fails init H s a k pot o : closed H -> library_system H s a k pot (Some (o, s)) -> (forall p, pot <> Some (p, Gaussian)) -> builds data init ->
    exists H', construct_general conj compact init s H = (Err TypeError, H').
  Proof.
    intros C L Ng Bi. pose proof L as (So & Lb & cs & ls & Es & Ns & Ls & Ps & Os). destruct (Os o s eq_refl) as (N1 & N2 & Ho & co & lo & Eo & Hs & _).
    exact (construct_general_fails data conj compact init H s a k o cs ls co lo C So (library_module_free H a k pot Lb Ng) Es Ho Eo Hs N2 Bi).
  Qed.
  Lemma plain_spin init H s a k pot c l : closed H -> library_system H s a k pot None -> (forall p, pot <> Some (p, Gaussian)) -> builds data init ->
    nth_error H s = Some (Inst c l) -> assoc "_time_evolution_operator" l = Some PyNone ->
    exists g H', construct_general conj compact init s H = (Ok g, H').
  Proof.
    intros C L Ng Bi Es Ho. destruct L as (So & Lb & _).
    destruct (construct_general_without data conj compact init H s a k c l C So (library_module_free H a k pot Lb Ng) Es Ho Bi) as (b & H1 & g & H2 & _ & _ & E). eauto.
  Qed.
End Lib.
