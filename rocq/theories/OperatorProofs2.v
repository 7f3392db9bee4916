(** Covariance, ownership and reuse of operators: C38, C39, C68. *)
From Coq Require Import List Arith ZArith Lia Bool.
From Verif Require Import Scalar Py Numpy BasisSet NumpyFacts Spec TransformFacts BasisSpec BasisFacts ChangeProofs ConvProofs Frame Histories
  Systems SystemFacts SystemProofs Worlds WorldProofs OperatorSpec OperatorProofs.
Import ListNotations.

Section OperatorProofs2.
  Variable K : scalar.
  Add Ring Kring : (s_ring K).
  Local Open Scope K_scope.
  Notation arr := (arr K).
  Notation basis := (basis K).
  Notation world := (world K).
  Notation WM := (WM K).
  Implicit Types (w : world) (x : system) (b : basis) (h u A C : arr).

  (** *** C38 *)
  Lemma changed1_some l n C D (x y : option arr) a : changed1 l n C D x y -> x = Some a ->
    exists a', y = Some a' /\ shape a' = [n; n] /\
      forall p q, (p < n)%nat -> (q < n)%nat -> mat a' p q = T1 l (mat a) (mat C) (mat D) p q.
  Proof. intros H ->. destruct y as [a'|]; [|destruct H]. exists a'. split; [reflexivity | exact H]. Qed.
  Lemma changed2_some l n C D (x y : option arr) a : changed2 l n C D x y -> x = Some a ->
    exists a', y = Some a' /\ shape a' = [n; n; n; n] /\
      forall p q r s, (p < n)%nat -> (q < n)%nat -> (r < n)%nat -> (s < n)%nat ->
        ten a' p q r s = T2 l (ten a) (mat C) (mat D) p q r s.
  Proof. intros H ->. destruct y as [a'|]; [|destruct H]. exists a'. split; [reflexivity | exact H]. Qed.

  Lemma change_evolving s w k N l n x b C Ct h u d M : sys_at w s k N l x b -> evolving w s l x h u d M ->
    shape C = [l; n] -> tilde_shape C Ct n l -> (N <= n)%nat ->
    (match M with MCustom _ _ => n = l | _ => True end) ->
    exists w1 x1 h1 u1 d1, sys_change_basis s C Ct w = (Ok tt, w1) /\ evolving w1 s n x1 h1 u1 d1 M /\
      (forall p q, (p < n)%nat -> (q < n)%nat -> mat h1 p q = T1 l (mat h) (mat C) (tilde C Ct) p q) /\
      (forall p q r r', (p < n)%nat -> (q < n)%nat -> (r < n)%nat -> (r' < n)%nat ->
         ten u1 p q r r' = T2 l (ten u) (mat C) (tilde C Ct) p q r r') /\
      (forall t p q, (p < n)%nat -> (q < n)%nat ->
         one_body_term M d1 t p q =
         match M with
         | MCustom _ _ => one_body_term M d t p q
         | _ => T1 l (one_body_term M d t) (mat C) (tilde C Ct) p q
         end).
  Proof.
    intros A [H1 Hnp (o & te & b0 & Ho & H3 & Hs & H2 & Hh & Hu & Hd & Hm) Sh Su] HC HD HN HM.
    pose proof (at_bs K _ _ _ _ _ _ _ A) as Hb. rewrite Hb in H2. injection H2 as <-.
    pose proof (at_ready K _ _ _ _ _ _ _ A) as R.
    destruct (default_tilde_spec K C Ct l n n HC HD) as [SD GD].
    destruct (sys_change_basis_ok K s w k N l x b C Ct n A HC HD) as (b' & B & E & _). specialize (E HN).
    destruct (changed1_some _ _ _ _ _ _ h (bc_h B) Hh) as (h1 & Hh1 & Sh1 & Gh1).
    destruct (changed2_some _ _ _ _ _ _ u (bc_u B) Hu) as (u1 & Hu1 & Su1 & Gu1).
    assert (Hext : forall f p q, (p < n)%nat -> T1 l f (mat C) (mat (default_tilde C Ct)) p q = T1 l f (mat C) (tilde C Ct) p q).
    { intros f p q Hp. unfold T1. apply sumn_ext. intros a Ha. apply sumn_ext. intros c Hc. rewrite GD by assumption. reflexivity. }
    assert (Hext2 : forall f p q r r', (p < n)%nat -> (q < n)%nat ->
       T2 l f (mat C) (mat (default_tilde C Ct)) p q r r' = T2 l f (mat C) (tilde C Ct) p q r r').
    { intros f p q r r' Hp Hq. unfold T2. apply sumn_ext. intros a Ha. apply sumn_ext. intros a2 Ha2.
      apply sumn_ext. intros a3 Ha3. apply sumn_ext. intros a4 Ha4. rewrite !GD by assumption. reflexivity. }
    eexists. exists (sized x (Z.of_nat N) (Z.of_nat n)), h1, u1, (b_arr b' F_dip). split; [exact E|].
    assert (Ev : op_means n (b_arr b' F_dip) (te_op te) M ->
       evolving (World (lset (sy_bs x) b' (w_bs w)) (lset s (sized x (Z.of_nat N) (Z.of_nat n)) (w_sy w)) (w_op w))
         s n (sized x (Z.of_nat N) (Z.of_nat n)) h1 u1 (b_arr b' F_dip) M).
    { intros Hm'. constructor; cbn; try assumption.
      - apply nth_lset_same. eapply nth_some_lt; eassumption.
      - exists o, te, b'. split; [exact Ho|]. split; [exact H3|]. split; [exact Hs|].
        split; [apply nth_lset_same; eapply nth_some_lt; eassumption|]. repeat split; assumption. }
    assert (G : (forall p q, (p < n)%nat -> (q < n)%nat -> mat h1 p q = T1 l (mat h) (mat C) (tilde C Ct) p q) /\
      (forall p q r r', (p < n)%nat -> (q < n)%nat -> (r < n)%nat -> (r' < n)%nat ->
         ten u1 p q r r' = T2 l (ten u) (mat C) (tilde C Ct) p q r r')).
    { split; intros; [rewrite Gh1, Hext by assumption | rewrite Gu1, Hext2 by assumption]; reflexivity. }
    destruct (te_op te) as [|pulse pol cells|f|wt A' cells], M as [|su|E0 A0|E0 eps]; cbn [op_means] in Hm; try contradiction.
    - split; [apply Ev; exact I|]. split; [apply G|]. split; [apply G|]. intros. cbn. symmetry. apply T1_zero.
    - destruct Hm as (dp & dim & -> & Sd & Hdim & HE & Hpol & Hsafe).
      pose proof (r_dip K b l R dp Hd) as [Sd' _]. rewrite Sd in Sd'. injection Sd' as Edim.
      pose proof (bc_dip B) as Bd. rewrite Hd in Bd. destruct (b_arr b' F_dip) as [d1|] eqn:Ed1; [|destruct Bd].
      destruct Bd as [Sd1 Gd1].
      split; [apply Ev; cbn; exists d1, dim; rewrite Edim in *; repeat split; assumption|].
      split; [apply G|]. split; [apply G|]. intros t p q Hp Hq. 
      change (T1 l (one_body_term (MLaser E0 eps) (Some dp) t) (mat C) (tilde C Ct) p q)
        with (T1 l (fun a c => E0 t * dipole_along (hd O (shape dp)) (eps t) dp a c) (mat C) (tilde C Ct) p q).
      cbn [one_body_term]. rewrite Sd, Sd1, <- Edim. cbn [hd].
      rewrite (T1_scale K). f_equal. unfold dipole_along. rewrite (T1_sumn K l dim (fun (i a c : nat) => eps t i * get dp [i; a; c])).
      apply sumn_ext. intros i Hi. rewrite Gd1 by (congruence || assumption).
      rewrite Hext by assumption. rewrite (T1_scale K l (eps t i) (fun a c : nat => get dp [i; a; c])). reflexivity.
    - split; [apply Ev; exact Hm|]. split; [apply G|]. split; [apply G|]. intros. cbn. symmetry. apply T1_zero.
    - destruct Hm as (HE & SA & ->). split; [apply Ev; cbn; subst n; auto|]. split; [apply G|]. split; [apply G|].
      intros. reflexivity.
  Qed.
  Lemma T1_ext_h n (h g C D : nat -> nat -> K) p q : (forall a c, (a < n)%nat -> (c < n)%nat -> h a c = g a c) -> T1 n h C D p q = T1 n g C D p q.
  Proof. intros H. unfold T1. apply sumn_ext. intros a Ha. apply sumn_ext. intros c Hc. rewrite H by assumption. reflexivity. Qed.
  Lemma T2_ext_u n (u v : nat -> nat -> nat -> nat -> K) (C D : nat -> nat -> K) p q r s :
    (forall a c e f, (a < n)%nat -> (c < n)%nat -> (e < n)%nat -> (f < n)%nat -> u a c e f = v a c e f) ->
    T2 n u C D p q r s = T2 n v C D p q r s.
  Proof.
    intros H. unfold T2. apply sumn_ext. intros a Ha. apply sumn_ext. intros a2 Ha2. apply sumn_ext. intros a3 Ha3.
    apply sumn_ext. intros a4 Ha4. rewrite H by assumption. reflexivity.
  Qed.
  Lemma T2_scale n (c : K) (u : nat -> nat -> nat -> nat -> K) (C D : nat -> nat -> K) p q r s :
    T2 n (fun a e f g => c * u a e f g) C D p q r s = c * T2 n u C D p q r s.
  Proof.
    unfold T2. rewrite sumn_mul_l. apply sumn_ext. intros a1 _. rewrite sumn_mul_l. apply sumn_ext. intros a2 _.
    rewrite sumn_mul_l. apply sumn_ext. intros a3 _. rewrite sumn_mul_l. apply sumn_ext. intros a4 _. ring.
  Qed.
  Lemma covariance s w k N l n x b C Ct h u d M t : sys_at w s k N l x b -> evolving w s l x h u d M ->
    shape C = [l; n] -> tilde_shape C Ct n l -> (N <= n)%nat ->
    (match M with MCustom _ _ => False | _ => True end) ->
    exists ht w0 ut w1 ht1 w2 ut1,
      sys_h_t s t w = (Ok (Some ht), w0) /\ sys_u_t s t w = (Ok (Some ut), w) /\
      sys_change_basis s C Ct w = (Ok tt, w1) /\
      sys_h_t s t w1 = (Ok (Some ht1), w2) /\ sys_u_t s t w1 = (Ok (Some ut1), w1) /\
      shape ht1 = [n; n] /\ shape ut1 = [n; n; n; n] /\
      (forall p q, (p < n)%nat -> (q < n)%nat -> mat ht1 p q = T1 l (mat ht) (mat C) (tilde C Ct) p q) /\
      (forall p q r r', (p < n)%nat -> (q < n)%nat -> (r < n)%nat -> (r' < n)%nat ->
         ten ut1 p q r r' = T2 l (ten ut) (mat C) (tilde C Ct) p q r r').
  Proof.
    intros A Ev HC HD HN HM.
    assert (HM' : match M with MCustom _ _ => n = l | _ => True end) by (destruct M; auto; contradiction).
    destruct (change_evolving s w k N l n x b C Ct h u d M A Ev HC HD HN HM') as (w1 & x1 & h1 & u1 & d1 & E & Ev1 & Gh & Gu & Gt).
    destruct (h_t_ok K w s l x h u d M t Ev) as (ht & w0 & E0 & S0 & G0 & _).
    destruct (u_t_ok K w s l x h u d M t Ev) as (ut & E1 & S1 & G1).
    destruct (h_t_ok K w1 s n x1 h1 u1 d1 M t Ev1) as (ht1 & w2 & E2 & S2 & G2 & _).
    destruct (u_t_ok K w1 s n x1 h1 u1 d1 M t Ev1) as (ut1 & E3 & S3 & G3).
    exists ht, w0, ut, w1, ht1, w2, ut1. repeat (split; [assumption|]). split.
    - intros p q Hp Hq. rewrite G2, Gh, Gt by assumption.
      rewrite (T1_ext_h l (mat ht) (fun a c => mat h a c + one_body_term M d t a c)) by exact G0.
      rewrite T1_add. destruct M; try reflexivity. contradiction.
    - intros p q r r' Hp Hq Hr Hr'. rewrite G3, Gu by assumption.
      rewrite (T2_ext_u l (ten ut) (fun a c e f => two_body_factor M t * ten u a c e f)) by exact G1.
      symmetry. apply T2_scale.
  Qed.
  (** The matrix of a CustomOneBodyOperator is left as it was. *)
  Lemma custom_not_covariant s w k N l x b C Ct h u d E A t : sys_at w s k N l x b -> evolving w s l x h u d (MCustom E A) ->
    shape C = [l; l] -> tilde_shape C Ct l l ->
    exists w1 ht1 w2, sys_change_basis s C Ct w = (Ok tt, w1) /\ sys_h_t s t w1 = (Ok (Some ht1), w2) /\ shape ht1 = [l; l] /\
      forall p q, (p < l)%nat -> (q < l)%nat -> mat ht1 p q = T1 l (mat h) (mat C) (tilde C Ct) p q + E t * mat A p q.
  Proof.
    intros A0 Ev HC HD. pose proof (at_le K _ _ _ _ _ _ _ A0) as HN.
    destruct (change_evolving s w k N l l x b C Ct h u d (MCustom E A) A0 Ev HC HD HN eq_refl) as (w1 & x1 & h1 & u1 & d1 & E1 & Ev1 & Gh & _ & Gt).
    destruct (h_t_ok K w1 s l x1 h1 u1 d1 _ t Ev1) as (ht1 & w2 & E2 & S2 & G2 & _).
    exists w1, ht1, w2. repeat (split; [assumption|]). intros p q Hp Hq. rewrite G2, Gh by assumption. reflexivity.
  Qed.

  (** *** C39 *)
  Definition homed w : Prop := forall s x o, nth_error (w_sy w) s = Some x -> sy_op x = Some o ->
    exists te, nth_error (w_op w) o = Some te /\ te_sys te = Some s.
  Definition holds w w' : Prop :=
    (forall s x', nth_error (w_sy w') s = Some x' -> sy_op x' = None \/ exists x, nth_error (w_sy w) s = Some x /\ sy_op x' = sy_op x) /\
    (forall o te, nth_error (w_op w) o = Some te -> exists te', nth_error (w_op w') o = Some te' /\ te_sys te' = te_sys te).
  Lemma holds_refl w : holds w w.
  Proof. split; intros; eauto. Qed.
  Lemma holds_trans w1 w2 w3 : holds w1 w2 -> holds w2 w3 -> holds w1 w3.
  Proof.
    intros [A1 B1] [A2 B2]. split.
    - intros s x H. destruct (A2 s x H) as [E|(y & E & F)]; [auto|]. destruct (A1 s y E) as [E1|(z & E1 & F1)].
      + left. congruence.
      + right. exists z. split; [exact E1 | congruence].
    - intros o te H. destruct (B1 o te H) as (t1 & E1 & F1). destruct (B2 o t1 E1) as (t2 & E2 & F2). exists t2. split; [exact E2 | congruence].
  Qed.
  Lemma holds_homed w w' : holds w w' -> homed w -> homed w'.
  Proof.
    intros [A B] H s x o Hx Ho. destruct (A s x Hx) as [E|(y & E & F)]; [congruence|]. rewrite F in Ho.
    destruct (H s y o E Ho) as (te & Ht & Hs). destruct (B o te Ht) as (te' & Ht' & Hs'). exists te'. split; [exact Ht' | congruence].
  Qed.
  Lemma holds_put j op te w : nth_error (w_op w) j = Some te -> holds w (op_put K w j (Tevo op (te_sys te))).
  Proof.
    intros H. split; [intros s x Hx; right; exists x; auto|]. intros o t0 Ht. cbn. destruct (Nat.eq_dec j o) as [<-|Hne].
    - rewrite nth_lset_same by (eapply nth_some_lt; eassumption). eexists. split; [reflexivity|]. cbn. congruence.
    - rewrite nth_lset_other by exact Hne. eauto.
  Qed.
  Lemma ho_on_basis (X : Type) i (m : BM K X) : eff K holds (on_basis i m).
  Proof. intros w. unfold on_basis. destruct (nth_error (w_bs w) i); [|apply holds_refl]. destruct (m b). exact (holds_refl w). Qed.
  Lemma holds_sys s x x' w : nth_error (w_sy w) s = Some x -> sy_op x' = sy_op x -> holds w (set_sy (lset s x' (w_sy w)) w).
  Proof.
    intros E Ho. split; [|intros o te H; exists te; auto]. intros s0 x0 H. cbn in H. right. destruct (Nat.eq_dec s s0) as [<-|Hs].
    - rewrite nth_lset_same in H by (eapply nth_some_lt; eassumption). injection H as <-. eauto.
    - rewrite nth_lset_other in H by exact Hs. eauto.
  Qed.
  Ltac sstep := first
    [ apply (eff_ret K holds holds_refl) | apply (eff_raise K holds holds_refl) | apply (eff_lift K holds holds_refl)
    | apply (eff_assert K holds holds_refl) | apply (eff_get_sys K holds holds_refl) | apply (eff_get_op K holds holds_refl)
    | apply ho_on_basis
    | apply (eff_bind K holds holds_trans); [|intros ?] | apply (eff_when K holds holds_refl) | apply (eff_if K holds) ].
  Lemma ho_size s n l : eff K holds (set_system_size s n l).
  Proof.
    unfold set_system_size. sstep; [sstep|]. intros w. unfold bind, get_sys.
    destruct (nth_error (w_sy w) s) as [x0|] eqn:E; [|apply holds_refl]. cbn. apply (holds_sys s x0 _ w E). reflexivity.
  Qed.
  Lemma ho_init k n i : eff K holds (system_init k n i).
  Proof.
    unfold system_init. do 3 (sstep; [sstep|]). intros w. split; [|intros o te H; exists te; auto].
    intros s x' H. cbn in H. apply nth_snoc in H as [H|[-> ->]]; [right; eauto | left; reflexivity].
  Qed.
  Lemma ho_general n i va vb anti : eff K holds (general_init n i va vb anti).
  Proof.
    unfold general_init. sstep; [sstep|]. sstep; [sstep; [sstep|]; sstep; [sstep|]; destruct x0; sstep|].
    sstep; [sstep; sstep|]. apply ho_init.
  Qed.
  Lemma ho_copy i : eff K holds (copy_basis i).
  Proof.
    unfold copy_basis. sstep; [sstep|]. destruct (b_np x); [|sstep].
    do 2 (sstep; [sstep|]). sstep; [intros w; exact (holds_refl w)|]. repeat sstep.
  Qed.
  Lemma ho_h_t s t : eff K holds (sys_h_t s t).
  Proof.
    unfold sys_h_t. sstep; [sstep|]. destruct (sy_op x) as [o|]; [|apply (eff_sys_get K _ holds_refl holds_trans)].
    sstep; [sstep|]. destruct (te_sys x0); [|sstep].
    destruct (te_op x0); try apply (eff_sys_get K _ holds_refl holds_trans);
      (sstep; [first [apply eo_laser | apply eo_custom]; first [exact holds_refl | exact holds_trans | intros; apply holds_put; assumption]|sstep]).
  Qed.
  Lemma homed_run o w : exclusive w o -> homed w -> homed (snd (wrun o w)).
  Proof.
    assert (DW : forall (X : Type) (m : WM X), snd (wdrop m w) = snd (m w)).
    { intros X m. unfold wdrop, bind. destruct (m w) as [[]?]; reflexivity. }
    assert (HE : forall (X : Type) (m : WM X), eff K holds m -> homed w -> homed (snd (m w))).
    { intros X m E. apply holds_homed. apply E. }
    intros Hex H. destruct o; cbn [wrun exclusive] in *; rewrite ?DW.
    - exact H.
    - apply HE; [|exact H]. intros w0. split; cbn; [intros s x Hx; right; eauto|]. intros o1 te Ht.
      rewrite nth_error_app1 by (eapply nth_some_lt; eassumption). eauto.
    - apply HE; [apply ho_on_basis | exact H].
    - apply HE; [apply ho_general | exact H].
    - apply HE; [|exact H]. unfold spatial_init. do 3 (sstep; [sstep|]). apply ho_init.
    - apply HE; [|exact H]. unfold construct_general. sstep; [sstep|]. sstep; [apply ho_copy|]. sstep; [apply ho_general|].
      destruct (sy_op x); sstep.
    - apply HE; [apply ho_size | exact H].
    - apply HE; [|exact H]. intros w0. unfold sys_change_module, bind, get_sys.
      destruct (nth_error (w_sy w0) s) as [x|] eqn:E; [|apply holds_refl].
      cbn. eapply holds_trans; [|apply ho_on_basis]. refine (holds_sys s x _ w0 E _); reflexivity.
    - apply HE; [|exact H]. unfold sys_change_basis. do 3 (sstep; [sstep|]). apply ho_size.
    - apply HE; [|exact H]. unfold sys_density. sstep; sstep.
    - apply HE; [|exact H]. apply (eff_sys_get K _ holds_refl holds_trans).
    - apply HE; [|exact H]. unfold sys_bra. sstep; sstep.
    - unfold set_time_evolution_operator, bind, get_sys. destruct (nth_error (w_sy w) s) as [x|] eqn:E; [|exact H]. cbn.
      pose proof (nth_some_lt _ _ _ E) as Ls.
      destruct o as [o|].
      + destruct Hex as [(te & Ht) Hex]. unfold get_op. cbn. rewrite Ht. cbn.
        pose proof (nth_some_lt _ _ _ Ht) as Lo. intros s0 x0 o0 Hx Ho. cbn in Hx |- *. destruct (Nat.eq_dec s s0) as [<-|Hs].
        * rewrite nth_lset_same in Hx by exact Ls. injection Hx as <-. cbn in Ho. injection Ho as <-.
          rewrite nth_lset_same by exact Lo. eexists. split; reflexivity.
        * rewrite nth_lset_other in Hx by exact Hs.
          destruct (Nat.eq_dec o o0) as [<-|Hne]; [destruct Hs; symmetry; exact (Hex s0 x0 Hx Ho)|].
          rewrite nth_lset_other by exact Hne. exact (H s0 x0 o0 Hx Ho).
      + intros s0 x0 o0 Hx Ho. cbn in Hx |- *. destruct (Nat.eq_dec s s0) as [<-|Hs].
        * rewrite nth_lset_same in Hx by exact Ls. injection Hx as <-. discriminate Ho.
        * rewrite nth_lset_other in Hx by exact Hs. exact (H s0 x0 o0 Hx Ho).
    - apply HE; [apply ho_h_t | exact H].
    - apply HE; [apply (eff_u_t K _ holds_refl holds_trans) | exact H].
    - apply HE; [apply (eff_has K _ holds_refl holds_trans) | exact H].
    - apply HE; [apply (eff_has K _ holds_refl holds_trans) | exact H].
    - apply HE; [apply (eff_energy K _ holds_refl holds_trans) | exact H].
    - apply HE; [apply (eff_fock K _ holds_refl holds_trans) | exact H].
    - exact H.
  Qed.
  Lemma hist_homed ops w : walong exclusive ops w -> homed w -> homed (wrun_any ops w).
  Proof.
    revert w. induction ops as [|o ops IH]; intros w Hw H; [exact H|]. destruct Hw as [H1 H2]. cbn.
    apply IH; [exact H2|]. apply homed_run; assumption.
  Qed.

  (** Evaluation only looks at the system, its basis set and its operator. *)
  Section Local.
    Variables (s i o : nat) (x : system) (b : basis).
    Hypothesis Hi : sy_bs x = i.
    Definition close w w' : Prop :=
      nth_error (w_sy w) s = Some x /\ nth_error (w_sy w') s = Some x /\
      nth_error (w_bs w) i = Some b /\ nth_error (w_bs w') i = Some b /\
      nth_error (w_op w') o = nth_error (w_op w) o.
    Definition local {X} (m : WM X) : Prop := forall w w', close w w' -> fst (m w') = fst (m w) /\ close (snd (m w)) (snd (m w')).
    Lemma loc_bind {X Y} (m : WM X) (f : X -> WM Y) : local m -> (forall y, local (f y)) -> local (bind m f).
    Proof.
      intros Hm Hf w w' H. destruct (Hm w w' H) as [E C]. unfold bind.
      destruct (m w) as [r w1], (m w') as [r' w1']. cbn in E, C. subst r'. destruct r as [y|e]; [apply Hf; exact C|]. cbn. auto.
    Qed.
    Lemma loc_pure {X} (r : res X) (m : WM X) : (forall w, m w = (r, w)) -> local m.
    Proof. intros E w w' H. rewrite !E. cbn. auto. Qed.
    Lemma loc_get_sys : local (get_sys s).
    Proof. intros w w' H. destruct H as (A&B&C&D&F). unfold get_sys. rewrite A, B. cbn. split; [reflexivity|]. repeat split; assumption. Qed.
    Lemma loc_get_op : local (get_op o).
    Proof.
      intros w w' H. pose proof H as (A&B&C&D&F). unfold get_op. rewrite F.
      destruct (nth_error (w_op w) o); cbn; (split; [reflexivity | exact H]).
    Qed.
    Lemma loc_sys_get f : local (sys_get s f).
    Proof.
      intros w w' H. pose proof H as (A&B&C&D&F). rewrite <- Hi in C, D.
      rewrite (sys_get_run K s f w x b A C), (sys_get_run K s f w' x b B D). cbn. split; [reflexivity | exact H].
    Qed.
    Lemma loc_put te : local (put_op o te).
    Proof.
      intros w w' (A&B&C&D&F). cbn. split; [reflexivity|]. unfold close. cbn. repeat (split; [assumption|]).
      destruct (lt_dec o (length (w_op w))) as [L|L].
      - assert (L' : (o < length (w_op w'))%nat).
        { apply nth_error_Some. rewrite F. apply nth_error_Some. exact L. }
        rewrite !nth_lset_same by assumption. reflexivity.
      - assert (L' : ~ (o < length (w_op w'))%nat).
        { intros L'. apply nth_error_Some in L'. rewrite F in L'. apply nth_error_Some in L'. contradiction. }
        assert (N : forall (l : list (tevo K)), ~ (o < length l)%nat -> nth_error (lset o te l) o = None).
        { intros l Hl. apply nth_error_None. rewrite lset_length. lia. }
        rewrite !N by assumption. reflexivity.
    Qed.
    Ltac step := first
      [ apply loc_get_sys | apply loc_get_op | apply loc_sys_get | apply loc_put
      | apply loc_bind; [|intros ?] ].
    Ltac pure := first
      [ eapply loc_pure; intros; reflexivity
      | match goal with |- local (need_arr ?e ?y) => destruct y; eapply loc_pure; intros; reflexivity end
      | match goal with |- local (need_np_w ?y) => destruct y; eapply loc_pure; intros; reflexivity end ].
    Lemma loc_laser_set p q c : local (laser_set o p q c).
    Proof. unfold laser_set. repeat step. Qed.
    Lemma loc_laser p q c t : local (laser_h_t o s p q c t).
    Proof.
      unfold laser_h_t. step; [step|]. destruct p as [a|f|k];
        (step; [apply loc_laser_set|]; step; [destruct q as [q|]; repeat first [pure | apply loc_laser_set | step]|];
         match goal with v : pyval K |- _ => destruct v as [a1|f1|k1] end; (step; [apply loc_laser_set|]; repeat first [pure | step])).
    Qed.
    Lemma loc_custom v A c t : local (custom_h_t o s v A c t).
    Proof. unfold custom_h_t. destruct v; repeat first [pure | step]. Qed.
  End Local.
  Lemma evaluation_local s w w' t : homed w -> same_system s w w' -> (exists b, basis_of w s b) ->
    fst (sys_h_t s t w') = fst (sys_h_t s t w) /\ fst (sys_u_t s t w') = fst (sys_u_t s t w).
  Proof.
    intros Hh [E1 E2] (b & x & Hx & Hb). destruct (E2 x Hx) as [E3 E4]. unfold system_at in Hx.
    assert (Hx' : nth_error (w_sy w') s = Some x) by congruence.
    assert (Hb' : nth_error (w_bs w') (sy_bs x) = Some b) by congruence.
    unfold sys_h_t, sys_u_t.
    rewrite !(wbind_ok K _ _ _ _ _ (get_sys_ok K s w x Hx)), !(wbind_ok K _ _ _ _ _ (get_sys_ok K s w' x Hx')).
    destruct (sy_op x) as [o|] eqn:Eo.
    2: { rewrite (sys_get_run K s F_h w x b Hx Hb), (sys_get_run K s F_h w' x b Hx' Hb').
         rewrite (sys_get_run K s F_u w x b Hx Hb), (sys_get_run K s F_u w' x b Hx' Hb'). auto. }
    destruct (Hh s x o Hx Eo) as (te & Ht & Hs). pose proof (E4 o eq_refl) as E5. rewrite Ht in E5.
    assert (G : forall w0 : world, nth_error (w_op w0) o = Some te -> get_op o w0 = (Ok te, w0)).
    { intros w0 E. unfold get_op. rewrite E. reflexivity. }
    rewrite !(wbind_ok K _ _ _ _ _ (G w Ht)), !(wbind_ok K _ _ _ _ _ (G w' E5)), Hs.
    assert (C : close s (sy_bs x) o x b w w') by (repeat split; congruence).
    assert (L : forall (X : Type) (m : WM X), local s (sy_bs x) o x b m -> fst (m w') = fst (m w)).
    { intros X m Hm. apply (Hm w w' C). }
    pose proof (fun f => loc_sys_get s (sy_bs x) o x b eq_refl f) as LG.
    assert (LP : forall (X : Type) (r : res X) (m : WM X), (forall w, m w = (r, w)) -> local s (sy_bs x) o x b m).
    { intros. eapply loc_pure. eassumption. }
    split; apply L.
    - destruct (te_op te); try apply LG.
      + apply loc_bind; [apply loc_laser; reflexivity|]. intros y. eapply LP. intros; reflexivity.
      + apply loc_bind; [apply loc_custom; reflexivity|]. intros y. eapply LP. intros; reflexivity.
    - destruct (te_op te); try apply LG.
      apply loc_bind; [apply LG|]. intros y. apply loc_bind; [destruct y; eapply LP; intros; reflexivity|]. intros z.
      apply loc_bind; [eapply LP; intros; reflexivity|]. intros z'. eapply LP. intros; reflexivity.
  Qed.
End OperatorProofs2.
