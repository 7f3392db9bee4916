(** A laser given by two constants (C36), and a laser moved from system to
    system (C68). *)
From Coq Require Import List Arith ZArith Lia Bool.
From Verif Require Import Scalar Py Numpy BasisSet NumpyFacts Spec TransformFacts BasisSpec BasisFacts ChangeProofs ConvProofs Frame Histories
  Systems SystemFacts SystemProofs Worlds WorldProofs OperatorSpec OperatorProofs.
Import ListNotations.

Section OperatorProofs3.
  Variable K : scalar.
  Add Ring Kring : (s_ring K).
  Local Open Scope K_scope.
  Notation arr := (arr K).
  Notation basis := (basis K).
  Notation world := (world K).
  Notation WM := (WM K).
  Implicit Types (w : world) (x : system) (b : basis) (h u : arr).

  Lemma broadcast_one f (e a : arr) l : shape e = [1%nat] -> shape a = [l; l] ->
    exists c, broadcast2 f e a = Ok c /\ shape c = [l; l] /\
      forall p q, (p < l)%nat -> (q < l)%nat -> mat c p q = f (get e [O]) (mat a p q).
  Proof.
    intros He Ha. unfold broadcast2, bshape. rewrite He, Ha. cbn.
    assert (E : (if match l with 1%nat => true | _ => false end then Ok [1%nat; l] else Ok [l; l]) = Ok [l; l]).
    { destruct l as [|[|]]; reflexivity. }
    rewrite E. cbn. eexists. split; [reflexivity|]. cbn. split; [reflexivity|]. intros p q Hp Hq. unfold mat. cbn [get].
    f_equal.
    - unfold bget, ndim. rewrite He. reflexivity.
    - apply bget_valid. rewrite Ha. repeat constructor; assumption.
  Qed.

  Lemma laser_constants w s o x b l h d (pulse : arr) pol y t c :
    nth_error (w_sy w) s = Some x -> sy_np x <> None -> sy_op x = Some o ->
    nth_error (w_bs w) (sy_bs x) = Some b -> b_arr b F_h = Some h -> b_arr b F_dip = Some d ->
    shape h = [l; l] -> shape d = [1%nat; l; l] ->
    nth_error (w_op w) o = Some (Tevo (laser_field (Val pulse) pol) y) -> y = Some s -> constant_polarization pol c ->
    exists r w', sys_h_t s t w = (Ok (Some r), w') /\ shape r = [l; l] /\
      forall p q, (p < l)%nat -> (q < l)%nat -> mat r p q = mat h p q + c * (c * get d [O; p; q]).
  Proof.
    intros H1 Hnp Ho H2 Hh Hd Sh Sd H3 -> Hc.
    destruct (sy_np x) as [m|] eqn:Em; [|destruct (Hnp eq_refl)].
    unfold sys_h_t. rewrite (wbind_ok K _ _ _ _ _ (get_sys_ok K s w x H1)), Ho.
    unfold bind at 1, get_op at 1. rewrite H3. cbn [te_sys te_op laser_field].
    assert (T : forall w0 te0 v, nth_error (w_op w0) o = Some te0 -> w_sy w0 = w_sy w -> w_bs w0 = w_bs w -> shape v = [1%nat] -> get v [O] = c ->
      exists r w', (laser_set o (Lam 0) (Some (Lam 0)) [v] ;;
       let* h := sys_get s F_h in
       let* e := lift (call [v] (Lam 0) t) in
       need_np_w (sy_np x) ;;
       let* p := lift (call [v] (Lam 0) t) in
       let* d := sys_get s F_dip in
       let* d := need_arr IndexError d in
       let* pd := lift (tensordot p d 0 0) in
       let* epd := lift (amul e pd) in
       let* h := need_arr TypeError h in
       lift (aadd h epd)) w0 = (Ok r, w') /\ shape r = [l; l] /\
      forall p q, (p < l)%nat -> (q < l)%nat -> mat r p q = mat h p q + c * (c * get d [O; p; q])).
    { intros w0 te0 v H30 Esy Ebs Sv Gv. rewrite (wbind_ok K _ _ _ _ _ (laser_set_run K o _ _ _ w0 te0 H30)).
      match goal with |- context [set_op ?a ?b] => set (w1 := set_op a b) end.
      assert (G1 : nth_error (w_sy w1) s = Some x) by (cbn; congruence).
      assert (G2 : nth_error (w_bs w1) (sy_bs x) = Some b) by (cbn; congruence).
      destruct (along_ok K v d 1 l Sv Sd) as (pd & Epd & Spd & Gpd).
      destruct (broadcast_one smul v pd l Sv Spd) as (epd & Eepd & Sepd & Gepd).
      destruct (mat_add K h epd l Sh Sepd) as (r & Er & Sr & Gr).
      rewrite (wbind_ok K _ _ _ _ _ (sys_get_run K s F_h w1 x b G1 G2)), Em, Hh. cbn [call nth_error].
      unfold bind at 1, lift at 1. unfold bind at 1, need_np_w at 1, ret at 1. unfold bind at 1, lift at 1.
      rewrite (wbind_ok K _ _ _ _ _ (sys_get_run K s F_dip w1 x b G1 G2)), Hd.
      unfold bind at 1, need_arr at 1, ret at 1. rewrite Epd. unfold bind at 1, lift at 1.
      unfold amul. rewrite Eepd. unfold bind at 1, lift at 1. unfold bind at 1, need_arr at 1, ret at 1. rewrite Er. unfold lift.
      exists r, w1. split; [reflexivity|]. split; [exact Sr|]. intros p q Hp Hq. rewrite Gr, Gepd, Gpd, Gv by assumption.
      cbn [sumn]. rewrite Gv. ring. }
    unfold bind at 1. unfold laser_h_t. rewrite (wbind_ok K _ _ _ _ _ (get_sys_ok K s w x H1)). cbn [length app].
    rewrite (wbind_ok K _ _ _ _ _ (laser_set_run K o (Lam 0) pol [pulse] w _ H3)).
    fold (op_put K w o (Tevo (OpLaser (Lam 0) pol [pulse]) (Some s))). cbn [te_sys].
    fold (op_put K w o (Tevo (OpLaser (Lam 0) pol [pulse]) (Some s))).
    set (w1 := op_put K w o _).
    pose proof (op_put_get K w o _ (Tevo (OpLaser (Lam 0) pol [pulse]) (Some s)) H3) as H31. fold w1 in H31.
    destruct pol as [[v|f|k]|]; cbn [constant_polarization] in Hc; try contradiction.
    - rewrite (wbind_ok K (ret (Val v)) _ w1 _ _ eq_refl). cbn [length Nat.eqb lset].
      destruct Hc as [Sv Gv]. destruct (T w1 _ v H31 eq_refl eq_refl Sv Gv) as (r & w' & E & R).
      exists r, w'. rewrite E. split; [reflexivity | exact R].
    - subst c.
      set (v := Arr [1%nat] Float64 (fun idx => match idx with [O] => 1 | _ => 0 end) : arr).
      set (w2 := op_put K w1 o (Tevo (OpLaser (Lam 0) (Some (Val (zeros [1%nat] Float64))) [pulse]) (Some s))).
      set (w3 := op_put K w2 o (Tevo (OpLaser (Lam 0) (Some (Val v)) [pulse]) (Some s))).
      assert (H32 : nth_error (w_op w2) o = Some (Tevo (OpLaser (Lam 0) (Some (Val (zeros [1%nat] Float64))) [pulse]) (Some s))) by (eapply op_put_get; exact H31).
      assert (H33 : nth_error (w_op w3) o = Some (Tevo (OpLaser (Lam 0) (Some (Val v)) [pulse]) (Some s))) by (eapply op_put_get; exact H32).
      assert (EX : (let* d := sys_get s F_dip in
         let* d := need_arr AttributeError d in
         let* n := lift (shape_at d 0) in
         need_np_w (sy_np x) ;;
         laser_set o (Lam 0) (Some (Val (zeros [n] Float64))) [pulse] ;;
         let* v := lift (unit_vector (K:=K) n) in
         laser_set o (Lam 0) (Some (Val v)) [pulse] ;;
         ret (Val v)) w1 = (Ok (Val v), w3)).
      { rewrite (wbind_ok K _ _ _ _ _ (sys_get_run K s F_dip w1 x b H1 H2)), Hd.
        unfold bind at 1, need_arr at 1, ret at 1. unfold shape_at at 1. rewrite Sd. cbn [nth_error].
        unfold bind at 1, lift at 1. rewrite Em. unfold bind at 1, need_np_w at 1, ret at 1.
        rewrite (wbind_ok K _ _ _ _ _ (laser_set_run K o (Lam 0) (Some (Val (zeros [1%nat] Float64))) [pulse] w1 _ H31)).
        cbn [unit_vector]. unfold bind at 1, lift at 1. cbn [te_sys].
        rewrite (wbind_ok K _ _ _ _ _ (laser_set_run K o (Lam 0) (Some (Val v)) [pulse] w2 _ H32)). reflexivity. }
      rewrite (wbind_ok K _ _ _ _ _ EX). cbn [length Nat.eqb lset].
      destruct (T w3 _ v H33 eq_refl eq_refl eq_refl eq_refl) as (r & w' & E & R).
      exists r, w'. rewrite E. split; [reflexivity | exact R].
  Qed.

  (** *** C68 *)
  Definition keepe w w' : Prop := forall s l h u d, elements w s l h u d -> elements w' s l h u d.
  Lemma keepe_refl w : keepe w w. Proof. intros s l h u d H; exact H. Qed.
  Lemma keepe_trans w1 w2 w3 : keepe w1 w2 -> keepe w2 w3 -> keepe w1 w3.
  Proof. intros H1 H2 s l h u d H. apply H2, H1, H. Qed.
  Lemma keepe_put j op te w : nth_error (w_op w) j = Some te -> keepe w (op_put K w j (Tevo op (te_sys te))).
  Proof. intros _ s l h u d H. exact H. Qed.
  Lemma ke_view (X : Type) j (m : BM K X) : keeps_view K m -> eff K keepe (on_basis j m).
  Proof.
    intros H w. unfold on_basis. destruct (nth_error (w_bs w) j) as [b|] eqn:E; [|apply keepe_refl].
    pose proof (H b) as V. destruct (m b) as [r b1]. cbn in V |- *.
    intros s l h u d (x & b0 & H1 & Hnp & H2 & R). cbn. exists x. destruct (Nat.eq_dec j (sy_bs x)) as [Ej|Hji].
    - exists b1. split; [exact H1|]. split; [exact Hnp|]. split; [cbn; rewrite <- Ej; apply nth_lset_same; eapply nth_some_lt; eassumption|].
      rewrite <- Ej, E in H2. injection H2 as <-. destruct V as (_ & _ & _ & _ & _ & _ & V & _). rewrite !V by discriminate. exact R.
    - exists b0. split; [exact H1|]. split; [exact Hnp|]. split; [cbn; rewrite nth_lset_other by exact Hji; exact H2 | exact R].
  Qed.
  Lemma reads_keepe r w : reads r -> keepe w (snd (wrun r w)).
  Proof.
    intros Hr.
    assert (DW : forall (X : Type) (m : WM X), snd (wdrop m w) = snd (m w)).
    { intros A m. unfold wdrop, bind. destruct (m w) as [[]?]; reflexivity. }
    assert (KE : forall (X : Type) (m : WM X), eff K keepe m -> keepe w (snd (m w))) by (intros X m E; apply E).
    pose proof keepe_refl as Rr. pose proof keepe_trans as Rt.
    destruct r; cbn [reads] in Hr; try destruct Hr; cbn [wrun]; rewrite DW; apply KE.
    - unfold sys_density. apply (eff_bind K _ Rt); [apply eff_get_sys, Rr|]. intros y. apply ke_view, kv_density.
    - apply (eff_sys_get K _ Rr Rt).
    - unfold sys_bra. apply (eff_bind K _ Rt); [apply eff_get_sys, Rr|]. intros y. apply ke_view, kv_get_bra.
    - unfold sys_h_t. apply (eff_bind K _ Rt); [apply eff_get_sys, Rr|]. intros y.
      destruct (sy_op y) as [j|]; [|apply (eff_sys_get K _ Rr Rt)].
      apply (eff_bind K _ Rt); [apply eff_get_op, Rr|]. intros tj. destruct (te_sys tj); [|apply eff_raise, Rr].
      destruct (te_op tj); try apply (eff_sys_get K _ Rr Rt);
        (apply (eff_bind K _ Rt); [|intros; apply eff_ret, Rr]); first [apply eo_laser | apply eo_custom];
        first [exact Rr | exact Rt | intros; apply keepe_put; assumption].
    - apply (eff_u_t K _ Rr Rt).
    - apply (eff_has K _ Rr Rt).
    - apply (eff_has K _ Rr Rt).
    - apply (eff_energy K _ Rr Rt).
    - apply (eff_fock K _ Rr Rt).
  Qed.
  Lemma reads_keepe_all ops w : Forall reads ops -> keepe w (wrun_any ops w).
  Proof.
    intros H. revert w. induction H as [|r ops Hr _ IH]; intros w; cbn; [apply keepe_refl|].
    eapply keepe_trans; [apply reads_keepe; exact Hr | apply IH].
  Qed.
  Lemma set_op_keepe s0 x0 o w os : nth_error (w_sy w) s0 = Some x0 ->
    keepe w (World (w_bs w) (lset s0 (with_op (Some o) x0) (w_sy w)) os).
  Proof.
    intros H0 s l h u d (x & b & H1 & Hnp & R). destruct (Nat.eq_dec s0 s) as [<-|Hs].
    - rewrite H0 in H1. injection H1 as <-. exists (with_op (Some o) x0), b. split; [cbn; apply nth_lset_same; eapply nth_some_lt; eassumption|].
      split; [exact Hnp | exact R].
    - exists x, b. split; [cbn; rewrite nth_lset_other by exact Hs; exact H1|]. split; [exact Hnp | exact R].
  Qed.
  (** The laser means E(t) eps(t) on any system with [dim] dipole components. *)
  Definition laser_means w (o dim : nat) (E : K -> K) (eps : K -> nat -> K) : Prop :=
    exists te pulse pol cells, nth_error (w_op w) o = Some te /\ te_op te = OpLaser pulse pol cells /\
      number_of cells pulse E /\ polarization_of cells pol dim eps /\
      (callable pulse = true \/ exists v, pol = Some v /\ callable v = true).
  Lemma evolving_laser w s l x h u d E eps o dim : evolving w s l x h u (Some d) (MLaser E eps) -> sy_op x = Some o ->
    shape d = [dim; l; l] -> laser_means w o dim E eps.
  Proof.
    intros [H1 Hnp (o' & te & b & Ho & H3 & Hs & H2 & Hh & Hu & Hd & Hm) Sh Su] Eo Sd.
    rewrite Ho in Eo. injection Eo as ->. exists te. destruct (te_op te) as [|pulse pol cells| |]; cbn in Hm; try contradiction.
    destruct Hm as (dp & dim' & Edp & Sdp & _ & R). injection Edp as <-. rewrite Sd in Sdp. injection Sdp as <-.
    exists pulse, pol, cells. split; [exact H3|]. split; [reflexivity | exact R].
  Qed.
  Lemma set_laser_ok w s o l h u d dim E eps : elements w s l h u d -> shape d = [dim; l; l] -> (0 < dim)%nat ->
    laser_means w o dim E eps ->
    exists w' x', set_time_evolution_operator s (Some o) w = (Ok tt, w') /\ sy_op x' = Some o /\
      evolving w' s l x' h u (Some d) (MLaser E eps) /\ keepe w w'.
  Proof.
    intros (x & b & H1 & Hnp & H2 & Hh & Hu & Hd & Sh & Su) Sd Hdim (te & pulse & pol & cells & H3 & Eop & R).
    destruct (set_op_ok K w s o x b l h u (Some d) te (MLaser E eps) H1 Hnp H2 Hh Hu Hd Sh Su H3) as (w' & E1 & Ev & Ew).
    { rewrite Eop. cbn. exists d, dim. repeat split; try assumption; apply R. }
    exists w', (with_op (Some o) x). split; [exact E1|]. split; [reflexivity|]. split; [exact Ev|]. subst w'. apply set_op_keepe. exact H1.
  Qed.
  Lemma tour_laser o uses dim E eps : (0 < dim)%nat -> forall w, laser_means w o dim E eps ->
    Forall (fun '(s, ops) => Forall reads ops /\ exists l h u d, elements w s l h u d /\ shape d = [dim; l; l]) uses ->
    laser_means (tour o uses w) o dim E eps /\ keepe w (tour o uses w).
  Proof.
    intros Hdim. induction uses as [|[s ops] r IH]; intros w L H; cbn [tour]; [split; [exact L | apply keepe_refl]|].
    pose proof (Forall_inv H) as H0. pose proof (Forall_inv_tail H) as H'. cbv beta iota in H0.
    destruct H0 as [Hr (l & h & u & d & El & Sd)].
    destruct (set_laser_ok w s o l h u d dim E eps El Sd Hdim L) as (w1 & x1 & E1 & Eo & Ev & Ke).
    assert (E2 : snd (wrun (WSetOp s (Some o)) w) = w1).
    { cbn [wrun]. unfold wdrop, bind. rewrite E1. reflexivity. }
    rewrite E2. pose proof (evolving_reads K ops w1 s l x1 h u (Some d) (MLaser E eps) Hr Ev) as Ev1.
    pose proof (reads_keepe_all ops w1 Hr) as Ke1.
    destruct (IH (wrun_any ops w1)) as [L2 Ke2].
    - eapply evolving_laser; eassumption.
    - eapply Forall_impl; [|exact H']. intros [s0 ops0] [Hr0 (l0 & h0 & u0 & d0 & El0 & Sd0)]. split; [exact Hr0|].
      exists l0, h0, u0, d0. split; [apply Ke1, Ke, El0 | exact Sd0].
    - split; [exact L2|]. eapply keepe_trans; [exact Ke|]. eapply keepe_trans; eassumption.
  Qed.
  Lemma default_polarization_same_dim w o pulse E y dim uses s l h u d :
    (0 < dim)%nat -> nth_error (w_op w) o = Some (Tevo (laser_field pulse None) y) -> callable pulse = true -> number_of [] pulse E ->
    Forall (fun '(s, ops) => Forall reads ops /\ exists l h u d, elements w s l h u d /\ shape d = [dim; l; l]) uses ->
    elements w s l h u d -> shape d = [dim; l; l] ->
    exists w1, set_time_evolution_operator s (Some o) (tour o uses w) = (Ok tt, w1) /\
    forall ops t, Forall reads ops -> exists ht w2,
      sys_h_t s t (wrun_any ops w1) = (Ok (Some ht), w2) /\ shape ht = [l; l] /\
      forall p q, (p < l)%nat -> (q < l)%nat -> mat ht p q = mat h p q + E t * get d [O; p; q].
  Proof.
    intros Hdim H3 Hc HE Hu El Sd.
    destruct (tour_laser o uses dim E (fun _ i => delta i 0) Hdim w) as [L Ke]; [|exact Hu|].
    - exists (Tevo (laser_field pulse None) y), pulse, None, []. split; [exact H3|]. split; [reflexivity|]. split; [exact HE|].
      split; [intros t i _; reflexivity | left; exact Hc].
    - destruct (set_laser_ok (tour o uses w) s o l h u d dim E _ (Ke _ _ _ _ _ El) Sd Hdim L) as (w1 & x1 & E1 & _ & Ev & _).
      exists w1. split; [exact E1|]. intros ops t Hr.
      pose proof (evolving_reads K ops w1 s l x1 h u (Some d) _ Hr Ev) as Ev1.
      destruct (h_t_ok K _ s l x1 h u (Some d) _ t Ev1) as (ht & w2 & E2 & S2 & G2 & _).
      exists ht, w2. split; [exact E2|]. split; [exact S2|]. intros p q Hp Hq. rewrite G2 by assumption. cbn [one_body_term].
      rewrite Sd. cbn [hd]. f_equal. f_equal. unfold dipole_along.
      destruct dim as [|dim]; [lia|]. rewrite (sumn_pick K (S dim) 0 (fun i => delta i 0 * get d [i; p; q])); [cbn; ring | lia|].
      intros i Hi Hne. destruct i; [lia|]. cbn. ring.
  Qed.
  (** A polarization of the wrong length. *)
  Lemma wrong_length w s o x b l te h d dim dim' (pulse pol : pyval K) cells t E eps :
    nth_error (w_sy w) s = Some x -> sy_np x <> None -> sy_op x = Some o ->
    nth_error (w_bs w) (sy_bs x) = Some b -> b_arr b F_h = Some h -> b_arr b F_dip = Some d -> shape d = [dim'; l; l] -> dim' <> dim ->
    nth_error (w_op w) o = Some te -> te_op te = OpLaser pulse (Some pol) cells -> te_sys te = Some s ->
    callable pulse = true -> callable pol = true -> number_of cells pulse E -> vector_of cells pol dim eps ->
    fst (sys_h_t s t w) = Err ValueError.
  Proof.
    intros H1 Hnp Ho H2 Hh Hd Sd Hne H3 Eop Hs C1 C2 HE Hv.
    destruct (sy_np x) as [m|] eqn:Em; [|destruct (Hnp eq_refl)].
    destruct (HE t) as (e & De & Se & Ge). destruct (Hv t) as (v & Dv & Sv & Gv).
    unfold sys_h_t. rewrite (wbind_ok K _ _ _ _ _ (get_sys_ok K s w x H1)), Ho.
    unfold bind at 1, get_op at 1. rewrite H3, Hs, Eop. unfold bind at 1.
    assert (EL : exists w', laser_h_t o s pulse (Some pol) cells t w = (Err ValueError, w')).
    2: { destruct EL as (w' & ->). reflexivity. }
    unfold laser_h_t. rewrite (wbind_ok K _ _ _ _ _ (get_sys_ok K s w x H1)).
    assert (E1 : match pulse with Val a => (Lam (length cells), cells ++ [a]) | _ => (pulse, cells) end = (pulse, cells)).
    { destruct pulse; [discriminate C1 | reflexivity | reflexivity]. }
    rewrite E1. rewrite (wbind_ok K _ _ _ _ _ (laser_set_run K o pulse (Some pol) cells w te H3)).
    match goal with |- context [set_op ?a ?b] => set (w1 := set_op a b) end.
    assert (H31 : nth_error (w_op w1) o = Some (Tevo (OpLaser pulse (Some pol) cells) (te_sys te))).
    { apply nth_lset_same. eapply nth_some_lt; eassumption. }
    rewrite (wbind_ok K (ret pol) _ w1 _ _ eq_refl).
    assert (E2 : match pol with Val a => (Lam (length cells), if (length cells =? length cells)%nat then cells ++ [a] else lset (length cells) a cells)
        | _ => (pol, cells) end = (pol, cells)).
    { destruct pol; [discriminate C2 | reflexivity | reflexivity]. }
    rewrite E2. rewrite (wbind_ok K _ _ _ _ _ (laser_set_run K o pulse (Some pol) cells w1 _ H31)).
    match goal with |- context [set_op ?a ?b] => set (w2 := set_op a b) end.
    assert (G1 : nth_error (w_sy w2) s = Some x) by exact H1.
    assert (G2 : nth_error (w_bs w2) (sy_bs x) = Some b) by exact H2.
    rewrite (wbind_ok K _ _ _ _ _ (sys_get_run K s F_h w2 x b G1 G2)).
    rewrite (denotes_call K cells pulse t e C1 De), (denotes_call K cells pol t v C2 Dv), Em.
    unfold bind at 1, lift at 1. unfold bind at 1, need_np_w at 1, ret at 1. unfold bind at 1, lift at 1.
    rewrite (wbind_ok K _ _ _ _ _ (sys_get_run K s F_dip w2 x b G1 G2)), Hd.
    unfold bind at 1, need_arr at 1, ret at 1. unfold tensordot. rewrite Sv, Sd. cbn [nth_error].
    destruct (Nat.eqb_spec dim dim'); [congruence|]. eexists. reflexivity.
  Qed.
  (** Evaluated once on s1, a laser without polarization cannot be used on a
      system with another number of dipole components. *)
  Lemma frozen w o pulse E y dim dim' s1 l1 h1 u1 d1 s2 l2 h2 u2 d2 t1 t2 :
    nth_error (w_op w) o = Some (Tevo (laser_field pulse None) y) -> callable pulse = true -> number_of [] pulse E ->
    elements w s1 l1 h1 u1 d1 -> shape d1 = [dim; l1; l1] -> (0 < dim)%nat ->
    elements w s2 l2 h2 u2 d2 -> shape d2 = [dim'; l2; l2] -> dim' <> dim ->
    exists w1 r1 w2 w3, set_time_evolution_operator s1 (Some o) w = (Ok tt, w1) /\ sys_h_t s1 t1 w1 = (Ok (Some r1), w2) /\
      set_time_evolution_operator s2 (Some o) w2 = (Ok tt, w3) /\ fst (sys_h_t s2 t2 w3) = Err ValueError.
  Proof.
    intros H3 Hc HE El1 Sd1 Hdim El2 Sd2 Hne.
    assert (L : laser_means w o dim E (fun _ i => delta i 0)).
    { exists (Tevo (laser_field pulse None) y), pulse, None, []. split; [exact H3|]. split; [reflexivity|]. split; [exact HE|].
      split; [intros t i _; reflexivity | left; exact Hc]. }
    destruct (set_laser_ok w s1 o l1 h1 u1 d1 dim E _ El1 Sd1 Hdim L) as (w1 & x1 & E1 & Eo & Ev & Ke).
    exists w1. destruct Ev as [A1 Anp (o' & te & b & Ho & A3 & As & A2 & Ah & Au & Ad & Am) Sh Su].
    rewrite Eo in Ho. injection Ho as <-. destruct (te_op te) as [|p q cells| |] eqn:Eop; cbn in Am; try contradiction.
    destruct Am as (dp & dm & Edp & Sdp & _ & N1 & N2 & N3). injection Edp as <-.
    rewrite Sd1 in Sdp. injection Sdp as <-.
    destruct (laser_h_t_ok K o s1 w1 x1 b h1 d1 l1 dim te p q cells t1 E (fun _ i => delta i 0)) as (r & p' & q' & c' & Er & Sr & Gr & C1 & C2 & M1 & M2);
      try assumption.
    assert (Eh : sys_h_t s1 t1 w1 = (Ok (Some r), op_put K w1 o (Tevo (OpLaser p' (Some q') c') (te_sys te)))).
    { unfold sys_h_t. rewrite (wbind_ok K _ _ _ _ _ (get_sys_ok K s1 w1 x1 A1)), Eo.
      unfold bind at 1, get_op at 1. rewrite A3, As, Eop. unfold bind at 1. rewrite Er, As. reflexivity. }
    exists r. eexists. rewrite Eh.
    set (w2 := op_put K w1 o _).
    pose proof (Ke _ _ _ _ _ El2) as (x2 & b2 & B1 & Bnp & B2 & Bh & Bu & Bd & _ & _).
    pose proof (op_put_get K w1 o te (Tevo (OpLaser p' (Some q') c') (te_sys te)) A3) as B3. fold w2 in B3.
    eexists. split; [exact E1|]. split; [reflexivity|]. split.
    - unfold set_time_evolution_operator. rewrite (wbind_ok K _ _ _ _ _ (get_sys_ok K s2 w2 x2 B1)).
      rewrite (wbind_ok K (put_sys s2 _) _ w2 tt (set_sy (lset s2 (with_op (Some o) x2) (w_sy w2)) w2) eq_refl).
      unfold bind at 1, get_op at 1. cbn [set_sy w_op]. rewrite B3. reflexivity.
    - eapply (wrong_length _ s2 o (with_op (Some o) x2) b2 l2 _ h2 d2 dim dim' p' q' c' t2 E (fun _ i => delta i 0)); try eassumption; try reflexivity.
      + cbn. apply nth_lset_same. eapply nth_some_lt. exact B1.
      + cbn. apply nth_lset_same. eapply nth_some_lt. exact B3.
      + reflexivity.
      + reflexivity.
  Qed.
End OperatorProofs3.
