(** Time-dependent Hamiltonians: C36-C39, C68. *)
From Coq Require Import List Arith ZArith Lia Bool.
From Verif Require Import Scalar Py Numpy BasisSet NumpyFacts Spec TransformFacts BasisSpec BasisFacts ChangeProofs ConvProofs Frame Histories
  Systems SystemFacts SystemProofs Worlds WorldProofs OperatorSpec.
Import ListNotations.

Section OperatorProofs.
  Variable K : scalar.
  Add Ring Kring : (s_ring K).
  Local Open Scope K_scope.
  Notation arr := (arr K).
  Notation basis := (basis K).
  Notation world := (world K).
  Notation WM := (WM K).
  Implicit Types (w : world) (x : system) (b : basis) (h u A : arr).

  (** Broadcasting a number. *)
  Lemma broadcast_number f (e a : arr) : shape e = [] ->
    exists c, broadcast2 f e a = Ok c /\ shape c = shape a /\ forall idx, valid (shape a) idx -> get c idx = f (get e []) (get a idx).
  Proof.
    intros He. unfold broadcast2, bshape. rewrite He. cbn. rewrite rev_involutive. eexists. split; [reflexivity|]. cbn.
    split; [reflexivity|]. intros idx V. f_equal; [unfold bget; rewrite He; reflexivity | apply bget_valid; exact V].
  Qed.
  Lemma mat_number g (e a : arr) l : shape e = [] -> shape a = [l; l] ->
    exists c, broadcast2 g e a = Ok c /\ shape c = [l; l] /\ forall p q, (p < l)%nat -> (q < l)%nat -> mat c p q = g (get e []) (mat a p q).
  Proof.
    intros He Ha. destruct (broadcast_number g e a He) as (c & E & S & G). exists c. rewrite Ha in S, G.
    split; [exact E|]. split; [exact S|]. intros p q Hp Hq. apply G. repeat constructor; assumption.
  Qed.
  Lemma mat_add (a c : arr) l : shape a = [l; l] -> shape c = [l; l] ->
    exists r, aadd a c = Ok r /\ shape r = [l; l] /\ forall p q, (p < l)%nat -> (q < l)%nat -> mat r p q = mat a p q + mat c p q.
  Proof.
    intros Ha Hc. destruct (broadcast2_same K sadd a c) as (r & E & S & _ & G); [congruence|]. exists r.
    split; [exact E|]. rewrite Ha in S, G. split; [exact S|]. intros p q Hp Hq. apply G. repeat constructor; assumption.
  Qed.
  Lemma along_ok (v d : arr) dim l : shape v = [dim] -> shape d = [dim; l; l] ->
    exists r, tensordot v d 0 0 = Ok r /\ shape r = [l; l] /\ forall p q, mat r p q = sumn dim (fun i => get v [i] * get d [i; p; q]).
  Proof.
    intros Sv Sd. unfold tensordot. rewrite Sv, Sd. cbn. rewrite Nat.eqb_refl. eexists. split; [reflexivity|]. split; reflexivity.
  Qed.

  Lemma denotes_call (cells : list arr) v t a : callable v = true -> denotes cells v t a -> call cells v t = Ok a.
  Proof. destruct v; cbn; intros H D; [discriminate H | congruence | rewrite D; reflexivity]. Qed.
  Lemma denotes_app (cells : list arr) v t a y : denotes cells v t a -> denotes (cells ++ [y]) v t a.
  Proof. destruct v; cbn; intros D; try exact D. rewrite nth_error_app1 by (eapply nth_some_lt; eassumption). exact D. Qed.
  Lemma number_app (cells : list arr) v E y : number_of cells v E -> number_of (cells ++ [y]) v E.
  Proof. intros H t. destruct (H t) as (a & D & R). exists a. split; [apply denotes_app; exact D | exact R]. Qed.
  Lemma vector_app (cells : list arr) v dim E y : vector_of cells v dim E -> vector_of (cells ++ [y]) v dim E.
  Proof. intros H t. destruct (H t) as (a & D & R). exists a. split; [apply denotes_app; exact D | exact R]. Qed.

  (** *** Evaluation of h_t *)
  (** State of the operator after a call of h_t, and the values used. *)
  Lemma laser_set_run o p q c w te : nth_error (w_op w) o = Some te ->
    laser_set o p q c w = (Ok tt, set_op (lset o (Tevo (OpLaser p q c) (te_sys te)) (w_op w)) w).
  Proof. intros H. unfold laser_set, bind, get_op. rewrite H. reflexivity. Qed.
  Lemma sys_get_run s f w x b : nth_error (w_sy w) s = Some x -> nth_error (w_bs w) (sy_bs x) = Some b ->
    sys_get s f w = (Ok (b_arr b f), w).
  Proof. intros H1 H2. apply (sys_get_ok K s f w x b H1 H2). Qed.

  Definition op_put w o te' := set_op (lset o te' (w_op w)) w.
  Lemma op_put_put w o t1 t2 : op_put (op_put w o t1) o t2 = op_put w o t2.
  Proof. unfold op_put, set_op. cbn. rewrite lset_lset. reflexivity. Qed.
  Lemma op_put_get w o te te' : nth_error (w_op w) o = Some te -> nth_error (w_op (op_put w o te')) o = Some te'.
  Proof. intros H. apply nth_lset_same. eapply nth_some_lt; eassumption. Qed.

  Lemma laser_tail o s w x b h d l dim te (pulse pol : pyval K) cells t (E : K -> K) (eps : K -> nat -> K) m :
    nth_error (w_sy w) s = Some x -> nth_error (w_bs w) (sy_bs x) = Some b -> nth_error (w_op w) o = Some te ->
    sy_np x = Some m -> b_arr b F_h = Some h -> b_arr b F_dip = Some d -> shape h = [l; l] -> shape d = [dim; l; l] ->
    callable pulse = true -> callable pol = true -> number_of cells pulse E -> vector_of cells pol dim eps ->
    exists r,
      (laser_set o pulse (Some pol) cells ;;
       let* h := sys_get s F_h in
       let* e := lift (call cells pulse t) in
       need_np_w (sy_np x) ;;
       let* p := lift (call cells pol t) in
       let* d := sys_get s F_dip in
       let* d := need_arr IndexError d in
       let* pd := lift (tensordot p d 0 0) in
       let* epd := lift (amul e pd) in
       let* h := need_arr TypeError h in
       lift (aadd h epd)) w = (Ok r, op_put w o (Tevo (OpLaser pulse (Some pol) cells) (te_sys te))) /\
      shape r = [l; l] /\ forall p q, (p < l)%nat -> (q < l)%nat -> mat r p q = mat h p q + E t * dipole_along dim (eps t) d p q.
  Proof.
    intros H1 H2 H3 Hnp Hh Hd Sh Sd Hc1 Hc2 HE Heps.
    destruct (HE t) as (e & De & Se & Ge). destruct (Heps t) as (v & Dv & Sv & Gv).
    destruct (along_ok v d dim l Sv Sd) as (pd & Epd & Spd & Gpd).
    destruct (mat_number smul e pd l Se Spd) as (epd & Eepd & Sepd & Gepd).
    destruct (mat_add h epd l Sh Sepd) as (r & Er & Sr & Gr).
    exists r. rewrite (wbind_ok K _ _ _ _ _ (laser_set_run o pulse (Some pol) cells w te H3)).
    change (set_op (lset o (Tevo (OpLaser pulse (Some pol) cells) (te_sys te)) (w_op w)) w)
      with (op_put w o (Tevo (OpLaser pulse (Some pol) cells) (te_sys te))).
    set (w1 := op_put w o _).
    rewrite (wbind_ok K _ _ _ _ _ (sys_get_run s F_h w1 x b H1 H2)).
    rewrite (denotes_call cells pulse t e Hc1 De), (denotes_call cells pol t v Hc2 Dv), Hnp.
    unfold bind at 1, lift at 1. unfold bind at 1, need_np_w at 1, ret at 1. unfold bind at 1, lift at 1.
    rewrite (wbind_ok K _ _ _ _ _ (sys_get_run s F_dip w1 x b H1 H2)), Hd, Hh.
    unfold bind at 1, need_arr at 1, ret at 1. rewrite Epd. unfold bind at 1, lift at 1.
    unfold amul. rewrite Eepd. unfold bind at 1, lift at 1. unfold bind at 1, need_arr at 1, ret at 1. rewrite Er. unfold lift.
    split; [reflexivity|]. split; [exact Sr|]. intros p q Hp Hq. rewrite Gr, Gepd, Gpd, Ge by assumption.
    unfold dipole_along. f_equal. f_equal. apply sumn_ext. intros i Hi. rewrite Gv by exact Hi. reflexivity.
  Qed.

  Lemma laser_h_t_ok o s w x b h d l dim te (pulse : pyval K) (pol : option (pyval K)) cells t (E : K -> K) (eps : K -> nat -> K) :
    nth_error (w_sy w) s = Some x -> nth_error (w_bs w) (sy_bs x) = Some b -> nth_error (w_op w) o = Some te ->
    sy_np x <> None -> b_arr b F_h = Some h -> b_arr b F_dip = Some d -> shape h = [l; l] -> shape d = [dim; l; l] -> (0 < dim)%nat ->
    number_of cells pulse E -> polarization_of cells pol dim eps ->
    (callable pulse = true \/ exists v, pol = Some v /\ callable v = true) ->
    exists r pulse' pol' cells', laser_h_t o s pulse pol cells t w
        = (Ok r, op_put w o (Tevo (OpLaser pulse' (Some pol') cells') (te_sys te))) /\
      shape r = [l; l] /\ (forall p q, (p < l)%nat -> (q < l)%nat -> mat r p q = mat h p q + E t * dipole_along dim (eps t) d p q) /\
      callable pulse' = true /\ callable pol' = true /\ number_of cells' pulse' E /\ vector_of cells' pol' dim eps.
  Proof.
    intros H1 H2 H3 Hnp Hh Hd Sh Sd Hdim HE Hpol Hsafe.
    destruct (sy_np x) as [m|] eqn:Em; [|destruct (Hnp eq_refl)].
    (* the polarization once it is set *)
    assert (Hset : exists v0, vector_of cells v0 dim eps /\ (pol = Some v0 \/ (pol = None /\ exists a, unit_vector (K:=K) dim = Ok a /\ v0 = Val a))).
    { destruct pol as [v|]; [exists v; split; [exact Hpol | left; reflexivity]|].
      destruct dim as [|dim']; [lia|]. cbn [unit_vector].
      eexists (Val _). split; [|right; split; [reflexivity|]; eexists; split; reflexivity].
      intros t0. eexists. split; [reflexivity|]. cbn. split; [reflexivity|]. intros i Hi.
      rewrite (Hpol t0 i Hi). destruct i; reflexivity. }
    destruct Hset as (v0 & Hv0 & Hcase).
    (* the state after the pulse has been made callable *)
    assert (Hp : exists pulse' cells1, callable pulse' = true /\ number_of cells1 pulse' E /\ vector_of cells1 v0 dim eps /\
       (length cells <= length cells1)%nat /\
       (match pulse with Val a => (Lam (length cells), cells ++ [a]) | _ => (pulse, cells) end) = (pulse', cells1) /\
       (callable v0 = false -> cells1 = cells)).
    { destruct pulse as [a|f|c].
      - exists (Lam (length cells)), (cells ++ [a]). split; [reflexivity|]. split.
        + intros t0. destruct (HE t0) as (a' & D & R). cbn in D. subst a'. exists a. split; [|exact R]. cbn. apply nth_app_last.
        + split; [apply vector_app; exact Hv0|]. rewrite app_length. split; [lia|]. split; [reflexivity|].
          intros Hc. exfalso. destruct Hsafe as [Hs|(v & -> & Hs)]; [discriminate Hs|].
          destruct Hcase as [E1|[E1 _]]; [injection E1 as <-; congruence | discriminate E1].
      - exists (Fun f), cells. repeat split; auto.
      - exists (Lam c), cells. repeat split; auto. }
    destruct Hp as (pulse' & cells1 & Hc1 & HE1 & Hv1 & Hlen & Epc & Hcells).
    set (pol' := match v0 with Val a => Lam (length cells) | _ => v0 end).
    set (cells2 := match v0 with Val a => cells ++ [a] | _ => cells1 end).
    assert (Hc2 : callable pol' = true) by (destruct v0; reflexivity).
    assert (HE2 : number_of cells2 pulse' E).
    { destruct v0 as [a| |]; cbn; try exact HE1. rewrite (Hcells eq_refl) in HE1. apply number_app. exact HE1. }
    assert (Hv2 : vector_of cells2 pol' dim eps).
    { destruct v0 as [a| |]; cbn; try exact Hv1. intros t0. destruct (Hv0 t0) as (a' & D & R). cbn in D. subst a'.
      exists a. split; [|exact R]. cbn. apply nth_app_last. }
    assert (F2 : match v0 with
       | Val a => (Lam (length cells), if (length cells1 =? length cells)%nat then cells1 ++ [a] else lset (length cells) a cells1)
       | _ => (v0, cells1) end = (pol', cells2)).
    { subst pol' cells2. destruct v0 as [a| |]; try reflexivity. rewrite (Hcells eq_refl), Nat.eqb_refl. reflexivity. }
    assert (Run : exists w0 te0, nth_error (w_op w0) o = Some te0 /\ w_sy w0 = w_sy w /\ w_bs w0 = w_bs w /\ te_sys te0 = te_sys te /\
       (forall y, op_put w0 o y = op_put w o y) /\
       laser_h_t o s pulse pol cells t w
       = (laser_set o pulse' (Some pol') cells2 ;;
       let* h := sys_get s F_h in
       let* e := lift (call cells2 pulse' t) in
       need_np_w (sy_np x) ;;
       let* p := lift (call cells2 pol' t) in
       let* d := sys_get s F_dip in
       let* d := need_arr IndexError d in
       let* pd := lift (tensordot p d 0 0) in
       let* epd := lift (amul e pd) in
       let* h := need_arr TypeError h in
       lift (aadd h epd)) w0).
    { unfold laser_h_t. rewrite (wbind_ok K _ _ _ _ _ (get_sys_ok K s w x H1)). rewrite Epc.
      rewrite (wbind_ok K _ _ _ _ _ (laser_set_run o pulse' pol cells1 w te H3)).
      fold (op_put w o (Tevo (OpLaser pulse' pol cells1) (te_sys te))). set (w1 := op_put w o _).
      pose proof (op_put_get w o te (Tevo (OpLaser pulse' pol cells1) (te_sys te)) H3) as H31. fold w1 in H31.
      destruct Hcase as [-> | [-> (a & Ea & ->)]].
      - exists w1. eexists. split; [exact H31|]. split; [reflexivity|]. split; [reflexivity|]. split; [reflexivity|].
        split; [intros y; apply op_put_put|].
        rewrite (wbind_ok K (ret v0) _ w1 _ _ eq_refl). rewrite F2. reflexivity.
      - set (w2 := op_put w1 o (Tevo (OpLaser pulse' (Some (Val (zeros [dim] Float64))) cells1) (te_sys te))).
        set (w3 := op_put w2 o (Tevo (OpLaser pulse' (Some (Val a)) cells1) (te_sys te))).
        assert (H32 : nth_error (w_op w2) o = Some (Tevo (OpLaser pulse' (Some (Val (zeros [dim] Float64))) cells1) (te_sys te))) by (eapply op_put_get; exact H31).
        assert (H33 : nth_error (w_op w3) o = Some (Tevo (OpLaser pulse' (Some (Val a)) cells1) (te_sys te))) by (eapply op_put_get; exact H32).
        exists w3. eexists. split; [exact H33|]. split; [reflexivity|]. split; [reflexivity|]. split; [reflexivity|].
        split; [intros y; unfold w3, w2, w1; rewrite !op_put_put; reflexivity|].
        assert (EX : (let* d := sys_get s F_dip in
           let* d := need_arr AttributeError d in
           let* n := lift (shape_at d 0) in
           need_np_w (sy_np x) ;;
           laser_set o pulse' (Some (Val (zeros [n] Float64))) cells1 ;;
           let* v := lift (unit_vector (K:=K) n) in
           laser_set o pulse' (Some (Val v)) cells1 ;;
           ret (Val v)) w1 = (Ok (Val a), w3)).
        { rewrite (wbind_ok K _ _ _ _ _ (sys_get_run s F_dip w1 x b H1 H2)), Hd.
          unfold bind at 1, need_arr at 1, ret at 1. unfold shape_at at 1. rewrite Sd. cbn [nth_error].
          unfold bind at 1, lift at 1. rewrite Em. unfold bind at 1, need_np_w at 1, ret at 1.
          rewrite (wbind_ok K _ _ _ _ _ (laser_set_run o pulse' (Some (Val (zeros [dim] Float64))) cells1 w1 _ H31)).
          rewrite Ea. unfold bind at 1, lift at 1. cbn [te_sys].
          rewrite (wbind_ok K _ _ _ _ _ (laser_set_run o pulse' (Some (Val a)) cells1 w2 _ H32)). reflexivity. }
        rewrite (wbind_ok K _ _ _ _ _ EX). cbv beta iota. injection F2 as F3. rewrite F3. reflexivity. }
    destruct Run as (w0 & te0 & H30 & Esy & Ebs & Ete & Hput & Run).
    destruct (laser_tail o s w0 x b h d l dim te0 pulse' pol' cells2 t E eps m) as (r & Er & Sr & Gr); try assumption; try congruence.
    exists r, pulse', pol', cells2. split; [|split; [exact Sr|]; split; [exact Gr|]; repeat split; assumption].
    rewrite Run, Er, Ete, Hput. reflexivity.
  Qed.

  Lemma custom_h_t_ok o s w x b h l te (wt : pyval K) A cells t (E : K -> K) :
    nth_error (w_sy w) s = Some x -> nth_error (w_bs w) (sy_bs x) = Some b -> nth_error (w_op w) o = Some te ->
    b_arr b F_h = Some h -> shape h = [l; l] -> shape A = [l; l] -> number_of cells wt E ->
    exists r wt' cells', custom_h_t o s wt A cells t w = (Ok r, op_put w o (Tevo (OpCustom wt' A cells') (te_sys te))) /\
      shape r = [l; l] /\ (forall p q, (p < l)%nat -> (q < l)%nat -> mat r p q = mat h p q + E t * mat A p q) /\
      number_of cells' wt' E.
  Proof.
    intros H1 H2 H3 Hh Sh SA HE. unfold custom_h_t.
    assert (Hp : exists wt' cells', callable wt' = true /\ number_of cells' wt' E /\
       (match wt with Val a => (Lam (length cells), cells ++ [a]) | _ => (wt, cells) end) = (wt', cells')).
    { destruct wt as [a|f|c].
      - exists (Lam (length cells)), (cells ++ [a]). split; [reflexivity|]. split; [|reflexivity].
        intros t0. destruct (HE t0) as (a' & D & R). cbn in D. subst a'. exists a. split; [|exact R]. cbn. apply nth_app_last.
      - exists (Fun f), cells. auto.
      - exists (Lam c), cells. auto. }
    destruct Hp as (wt' & cells' & Hc & HE' & ->).
    destruct (HE' t) as (e & De & Se & Ge).
    destruct (mat_number smul e A l Se SA) as (eA & EeA & SeA & GeA).
    destruct (mat_add h eA l Sh SeA) as (r & Er & Sr & Gr).
    exists r, wt', cells'. unfold bind at 1, get_op at 1. rewrite H3.
    rewrite (wbind_ok K (put_op o _) _ w tt (op_put w o (Tevo (OpCustom wt' A cells') (te_sys te))) eq_refl).
    set (w1 := op_put w o _).
    rewrite (wbind_ok K _ _ _ _ _ (sys_get_run s F_h w1 x b H1 H2)), Hh.
    rewrite (denotes_call cells' wt' t e Hc De). unfold bind at 1, lift at 1.
    unfold amul. rewrite EeA. unfold bind at 1, lift at 1. unfold bind at 1, need_arr at 1, ret at 1. rewrite Er. unfold lift.
    split; [reflexivity|]. split; [exact Sr|]. split; [|exact HE'].
    intros p q Hp Hq. rewrite Gr, GeA, Ge by assumption. reflexivity.
  Qed.

  Lemma h_t_ok w s l x h u d M t : evolving w s l x h u d M ->
    exists r w', sys_h_t s t w = (Ok (Some r), w') /\ shape r = [l; l] /\
      (forall p q, (p < l)%nat -> (q < l)%nat -> mat r p q = mat h p q + one_body_term M d t p q) /\ evolving w' s l x h u d M.
  Proof.
    intros [H1 Hnp (o & te & b & Ho & H3 & Hs & H2 & Hh & Hu & Hd & Hm) Sh Su].
    unfold sys_h_t. rewrite (wbind_ok K _ _ _ _ _ (get_sys_ok K s w x H1)), Ho.
    unfold bind at 1, get_op at 1. rewrite H3, Hs.
    destruct (te_op te) as [|pulse pol cells|f|wt A cells] eqn:Eop, M as [|su|E A'|E eps]; cbn [op_means] in Hm; try contradiction.
    - exists h, w. rewrite (sys_get_run s F_h w x b H1 H2), Hh. split; [reflexivity|]. split; [exact Sh|].
      split; [intros; cbn; ring|]. constructor; try assumption. exists o, te, b. rewrite Eop. repeat split; assumption.
    - destruct Hm as (dp & dim & -> & Sd & Hdim & HE & Hpol & Hsafe).
      destruct (laser_h_t_ok o s w x b h dp l dim te pulse pol cells t E eps) as (r & pulse' & pol' & cells' & Er & Sr & Gr & C1 & C2 & N1 & N2);
        try assumption.
      exists r. eexists. unfold bind at 1. rewrite Er. split; [reflexivity|]. split; [exact Sr|].
      split; [intros; rewrite Gr by assumption; cbn [one_body_term]; rewrite Sd; reflexivity|].
      constructor; try assumption. exists o. eexists. exists b. split; [exact Ho|]. split; [eapply op_put_get; exact H3|].
      repeat split; try assumption. cbn. exists dp, dim. repeat split; try assumption. left. exact C1.
    - exists h, w. rewrite (sys_get_run s F_h w x b H1 H2), Hh. split; [reflexivity|]. split; [exact Sh|].
      split; [intros; cbn; ring|]. constructor; try assumption. exists o, te, b. rewrite Eop. repeat split; try assumption; apply Hm.
    - destruct Hm as (HE & SA & ->).
      destruct (custom_h_t_ok o s w x b h l te wt A cells t E) as (r & wt' & cells' & Er & Sr & Gr & N1); try assumption.
      exists r. eexists. unfold bind at 1. rewrite Er. split; [reflexivity|]. split; [exact Sr|].
      split; [intros; rewrite Gr by assumption; reflexivity|].
      constructor; try assumption. exists o. eexists. exists b. split; [exact Ho|]. split; [eapply op_put_get; exact H3|].
      repeat split; assumption.
  Qed.
  Lemma u_t_ok w s l x h u d M t : evolving w s l x h u d M ->
    exists r, sys_u_t s t w = (Ok (Some r), w) /\ shape r = [l; l; l; l] /\
      forall p q r' s', (p < l)%nat -> (q < l)%nat -> (r' < l)%nat -> (s' < l)%nat ->
        ten r p q r' s' = two_body_factor M t * ten u p q r' s'.
  Proof.
    intros [H1 Hnp (o & te & b & Ho & H3 & Hs & H2 & Hh & Hu & Hd & Hm) Sh Su].
    unfold sys_u_t. rewrite (wbind_ok K _ _ _ _ _ (get_sys_ok K s w x H1)), Ho.
    unfold bind at 1, get_op at 1. rewrite H3, Hs.
    assert (G1 : two_body_factor M t = 1 -> exists r, sys_get s F_u w = (Ok (Some r), w) /\ shape r = [l; l; l; l] /\
      forall p q r' s', (p < l)%nat -> (q < l)%nat -> (r' < l)%nat -> (s' < l)%nat ->
        ten r p q r' s' = two_body_factor M t * ten u p q r' s').
    { intros H. exists u. rewrite (sys_get_run s F_u w x b H1 H2), Hu. split; [reflexivity|]. split; [exact Su|].
      intros. rewrite H. ring. }
    destruct (te_op te) as [|pulse pol cells|f|wt A cells], M as [|su|E A'|E eps]; cbn [op_means] in Hm; try contradiction;
      try (apply G1; reflexivity).
    rewrite (wbind_ok K _ _ _ _ _ (sys_get_run s F_u w x b H1 H2)), Hu. unfold bind at 1, need_arr at 1, ret at 1.
    destruct (Hm t) as [Sf Gf].
    destruct (broadcast_number smul (f t) u Sf) as (r & Er & Sr & Gr). unfold amul. rewrite Er.
    exists r. split; [reflexivity|]. rewrite Su in Sr, Gr. split; [exact Sr|].
    intros p q r' s' Hp Hq Hr Hs'. cbn [two_body_factor]. rewrite <- Gf. apply Gr. repeat constructor; assumption.
  Qed.

  (** *** Effects of evaluations, with the places written restricted to P *)
  Section EffOp.
    Variable R : world -> world -> Prop.
    Hypothesis Rrefl : forall w, R w w.
    Hypothesis Rtrans : forall w1 w2 w3, R w1 w2 -> R w2 w3 -> R w1 w3.
    Variable j : nat.
    Hypothesis Rput : forall op te w, nth_error (w_op w) j = Some te -> R w (op_put w j (Tevo op (te_sys te))).
    Lemma eo_update (f : tevo K -> operator K) : eff K R (let* te := get_op j in put_op j (Tevo (f te) (te_sys te))).
    Proof.
      intros w. unfold bind, get_op. destruct (nth_error (w_op w) j) as [te|] eqn:E; [|apply Rrefl].
      apply (Rput (f te) te w E).
    Qed.
    Ltac step := first
      [ apply (eff_ret K R Rrefl) | apply (eff_raise K R Rrefl) | apply (eff_lift K R Rrefl)
      | apply (eff_get_sys K R Rrefl) | apply (eff_get_op K R Rrefl)
      | apply (eff_need K R Rrefl) | apply (eff_np K R Rrefl)
      | apply (eff_sys_get K R Rrefl Rtrans)
      | apply (eff_bind K R Rtrans); [|intros ?] ].
    Lemma eo_laser_set p q c : eff K R (laser_set j p q c).
    Proof. apply (eo_update (fun _ => OpLaser p q c)). Qed.
    Lemma eo_laser s p q c t : eff K R (laser_h_t j s p q c t).
    Proof.
      unfold laser_h_t. step; [step|]. destruct p as [a|f|k];
        (step; [apply eo_laser_set|]; step; [destruct q as [q|]; repeat first [apply eo_laser_set | step]|];
         destruct x1 as [a1|f1|k1]; (step; [apply eo_laser_set|]; repeat step)).
    Qed.
    Lemma eo_custom s v A c t : eff K R (custom_h_t j s v A c t).
    Proof.
      unfold custom_h_t.
      assert (G : forall v' c', eff K R (let* te := get_op j in put_op j (Tevo (OpCustom v' A c') (te_sys te)) ;;
         let* h := sys_get s F_h in let* e := lift (call c' v' t) in let* eA := lift (amul e A) in
         let* h := need_arr TypeError h in lift (aadd h eA))).
      { intros v' c'. pose proof (eo_update (fun _ => OpCustom v' A c')) as U.
        intros w. specialize (U w). revert U. unfold bind at 1 2, get_op. destruct (nth_error (w_op w) j) as [te|]; [|intros U; exact U].
        intros U. cbn in U. unfold bind at 1. cbn [put_op modify].
        eapply Rtrans; [exact U|].
        match goal with |- R _ (snd (?m _)) => assert (E : eff K R m) by (repeat step); apply E end. }
      destruct v; apply G.
    Qed.
  End EffOp.

  (** Reading operations keep what an operator means. *)
  Definition keepo (o i : nat) w w' : Prop :=
    nth_error (w_op w') o = nth_error (w_op w) o /\ w_sy w' = w_sy w /\
    forall b, nth_error (w_bs w) i = Some b -> exists b', nth_error (w_bs w') i = Some b' /\ forall f, f <> F_bra -> b_arr b' f = b_arr b f.
  Lemma keepo_refl o i w : keepo o i w w.
  Proof. split; [reflexivity|]. split; [reflexivity|]. eauto. Qed.
  Lemma keepo_trans o i w1 w2 w3 : keepo o i w1 w2 -> keepo o i w2 w3 -> keepo o i w1 w3.
  Proof.
    intros (A1&B1&C1) (A2&B2&C2). split; [congruence|]. split; [congruence|]. intros b H.
    destruct (C1 b H) as (b1 & E1 & G1). destruct (C2 b1 E1) as (b2 & E2 & G2). exists b2. split; [exact E2|].
    intros f Hf. rewrite G2, G1 by exact Hf. reflexivity.
  Qed.
  Lemma keepo_op o i j te w : j <> o -> keepo o i w (op_put w j te).
  Proof. intros H. split; [cbn; apply nth_lset_other; exact H|]. split; [reflexivity|]. eauto. Qed.
  Lemma ko_laser o i j s p q c t : j <> o -> eff K (keepo o i) (laser_h_t j s p q c t).
  Proof. intros H. apply eo_laser; [apply keepo_refl | apply keepo_trans | intros; apply keepo_op; exact H]. Qed.
  Lemma ko_custom o i j s v A c t : j <> o -> eff K (keepo o i) (custom_h_t j s v A c t).
  Proof. intros H. apply eo_custom; [apply keepo_refl | apply keepo_trans | intros; apply keepo_op; exact H]. Qed.
  Lemma ko_view (X : Type) o i j (m : BM K X) : keeps_view K m -> eff K (keepo o i) (on_basis j m).
  Proof.
    intros H w. unfold on_basis. destruct (nth_error (w_bs w) j) as [b|] eqn:E; [|apply keepo_refl].
    pose proof (H b) as V. destruct (m b) as [r b1]. cbn in V |- *. split; [reflexivity|]. split; [reflexivity|]. cbn.
    intros b0 H0. destruct (Nat.eq_dec j i) as [<-|Hji].
    - rewrite nth_lset_same by (eapply nth_some_lt; eassumption). exists b1. split; [reflexivity|].
      rewrite E in H0. injection H0 as <-. apply V.
    - rewrite nth_lset_other by exact Hji. eauto.
  Qed.
  Lemma evolving_keepo w w' s l x h u d M o i : evolving w s l x h u d M -> sy_op x = Some o -> sy_bs x = i ->
    keepo o i w w' -> evolving w' s l x h u d M.
  Proof.
    intros [H1 Hnp (o' & te & b & Ho & H3 & Hs & H2 & Hh & Hu & Hd & Hm) Sh Su] Eo Ei (A&B&C).
    rewrite Ho in Eo. injection Eo as ->. subst i. destruct (C b H2) as (b' & Hb' & G).
    constructor; try assumption; [congruence|]. exists o, te, b'. rewrite A, !G by discriminate. repeat split; assumption.
  Qed.
  Lemma evolving_read r w s l x h u d M : reads r -> evolving w s l x h u d M -> evolving (snd (wrun r w)) s l x h u d M.
  Proof.
    intros Hr Ev. destruct (ev_op K _ _ _ _ _ _ _ _ Ev) as (o & te & b & Ho & H3 & Hs & H2 & Hh & Hu & Hd & Hm).
    assert (DW : forall (X : Type) (m : WM X), snd (wdrop m w) = snd (m w)).
    { intros A m. unfold wdrop, bind. destruct (m w) as [[]?]; reflexivity. }
    assert (KE : forall (X : Type) (m : WM X), eff K (keepo o (sy_bs x)) m -> evolving (snd (m w)) s l x h u d M).
    { intros A m E. eapply evolving_keepo; [exact Ev | exact Ho | reflexivity | apply E]. }
    pose proof (keepo_refl o (sy_bs x)) as Rr. pose proof (keepo_trans o (sy_bs x)) as Rt.
    destruct r; cbn [reads] in Hr; try destruct Hr; cbn [wrun]; rewrite DW.
    - apply KE. unfold sys_density. apply (eff_bind K _ Rt); [apply eff_get_sys, Rr|]. intros y. apply ko_view, kv_density.
    - apply KE, (eff_sys_get K _ Rr Rt).
    - apply KE. unfold sys_bra. apply (eff_bind K _ Rt); [apply eff_get_sys, Rr|]. intros y. apply ko_view, kv_get_bra.
    - unfold sys_h_t. unfold bind at 1, get_sys at 1. destruct (nth_error (w_sy w) s0) as [y|] eqn:Ey; [|exact Ev].
      destruct (sy_op y) as [j|] eqn:Ej; [|apply KE, (eff_sys_get K _ Rr Rt)].
      unfold bind at 1, get_op at 1. destruct (nth_error (w_op w) j) as [tj|] eqn:Et; [|exact Ev].
      destruct (te_sys tj) as [s1|] eqn:Es1; [|exact Ev].
      destruct (Nat.eq_dec j o) as [->|Hne].
      + rewrite H3 in Et. injection Et as <-. rewrite Hs in Es1. injection Es1 as <-.
        destruct (h_t_ok w s l x h u d M t Ev) as (r & w' & E & _ & _ & Ev'). revert E.
        unfold sys_h_t. rewrite (wbind_ok K _ _ _ _ _ (get_sys_ok K s w x (ev_sys K _ _ _ _ _ _ _ _ Ev))), Ho.
        unfold bind at 1, get_op at 1. rewrite H3, Hs. intros E. rewrite E. exact Ev'.
      + destruct (te_op tj); [apply KE, (eff_sys_get K _ Rr Rt)|apply KE|apply KE, (eff_sys_get K _ Rr Rt)|apply KE];
          (apply (eff_bind K _ Rt); [first [apply ko_laser | apply ko_custom]; exact Hne | intros; apply eff_ret, Rr]).
    - apply KE, (eff_u_t K _ Rr Rt).
    - apply KE, (eff_has K _ Rr Rt).
    - apply KE, (eff_has K _ Rr Rt).
    - apply KE, (eff_energy K _ Rr Rt).
    - apply KE, (eff_fock K _ Rr Rt).
  Qed.
  Lemma evolving_reads ops w s l x h u d M : Forall reads ops -> evolving w s l x h u d M ->
    evolving (wrun_any ops w) s l x h u d M.
  Proof.
    intros H. revert w. induction H as [|r ops Hr _ IH]; intros w Ev; cbn; [exact Ev|]. apply IH, evolving_read; assumption.
  Qed.

  (** *** Setting an operator *)
  Definition with_op (o : option nat) x : system :=
    System (sy_kind x) (sy_bs x) (sy_np x) (sy_n x) (sy_l x) (sy_m x) (sy_o x) (sy_v x) o.
  Lemma set_op_ok w s o x b l h u d te M : nth_error (w_sy w) s = Some x -> sy_np x <> None ->
    nth_error (w_bs w) (sy_bs x) = Some b -> b_arr b F_h = Some h -> b_arr b F_u = Some u -> b_arr b F_dip = d ->
    shape h = [l; l] -> shape u = [l; l; l; l] -> nth_error (w_op w) o = Some te -> op_means l d (te_op te) M ->
    exists w', set_time_evolution_operator s (Some o) w = (Ok tt, w') /\ evolving w' s l (with_op (Some o) x) h u d M /\
      w' = World (w_bs w) (lset s (with_op (Some o) x) (w_sy w)) (lset o (Tevo (te_op te) (Some s)) (w_op w)).
  Proof.
    intros H1 Hnp H2 Hh Hu Hd Sh Su H3 Hm. unfold set_time_evolution_operator.
    rewrite (wbind_ok K _ _ _ _ _ (get_sys_ok K s w x H1)).
    rewrite (wbind_ok K (put_sys s _) _ w tt (set_sy (lset s (with_op (Some o) x) (w_sy w)) w) eq_refl).
    unfold bind at 1, get_op at 1. cbn [set_sy w_op]. rewrite H3.
    eexists. split; [reflexivity|]. split; [|reflexivity]. constructor; cbn.
    - apply nth_lset_same. eapply nth_some_lt; eassumption.
    - exact Hnp.
    - exists o, (Tevo (te_op te) (Some s)), b. split; [reflexivity|]. split; [apply nth_lset_same; eapply nth_some_lt; eassumption|].
      split; [reflexivity|]. split; [exact H2|]. repeat split; assumption.
    - exact Sh.
    - exact Su.
  Qed.
  (** After setting it, whatever is read and evaluated in between. *)
  Lemma operator_semantics w s o x b l h u d te M : nth_error (w_sy w) s = Some x -> sy_np x <> None ->
    nth_error (w_bs w) (sy_bs x) = Some b -> b_arr b F_h = Some h -> b_arr b F_u = Some u -> b_arr b F_dip = d ->
    shape h = [l; l] -> shape u = [l; l; l; l] -> nth_error (w_op w) o = Some te -> op_means l d (te_op te) M ->
    exists w1, set_time_evolution_operator s (Some o) w = (Ok tt, w1) /\
    forall ops t, Forall reads ops -> exists ht w2 ut,
      sys_h_t s t (wrun_any ops w1) = (Ok (Some ht), w2) /\ shape ht = [l; l] /\
      (forall p q, (p < l)%nat -> (q < l)%nat -> mat ht p q = mat h p q + one_body_term M d t p q) /\
      sys_u_t s t (wrun_any ops w1) = (Ok (Some ut), wrun_any ops w1) /\ shape ut = [l; l; l; l] /\
      (forall p q r r', (p < l)%nat -> (q < l)%nat -> (r < l)%nat -> (r' < l)%nat ->
        ten ut p q r r' = two_body_factor M t * ten u p q r r').
  Proof.
    intros H1 Hnp H2 Hh Hu Hd Sh Su H3 Hm.
    destruct (set_op_ok w s o x b l h u d te M H1 Hnp H2 Hh Hu Hd Sh Su H3 Hm) as (w1 & E & Ev & _).
    exists w1. split; [exact E|]. intros ops t Hr. pose proof (evolving_reads ops w1 s l _ h u d M Hr Ev) as Ev1.
    destruct (h_t_ok _ s l _ h u d M t Ev1) as (ht & w2 & E2 & S2 & G2 & _).
    destruct (u_t_ok _ s l _ h u d M t Ev1) as (ut & E3 & S3 & G3).
    exists ht, w2, ut. repeat split; assumption.
  Qed.
  Lemma laser_semantics w s o x b l dim h u d pulse pol E eps y : nth_error (w_sy w) s = Some x -> sy_np x <> None ->
    nth_error (w_bs w) (sy_bs x) = Some b -> b_arr b F_h = Some h -> b_arr b F_u = Some u -> b_arr b F_dip = Some d ->
    shape h = [l; l] -> shape u = [l; l; l; l] -> shape d = [dim; l; l] -> (0 < dim)%nat ->
    nth_error (w_op w) o = Some (Tevo (laser_field pulse pol) y) ->
    number_of [] pulse E -> polarization_of [] pol dim eps ->
    (callable pulse = true \/ exists v, pol = Some v /\ callable v = true) ->
    exists w1, set_time_evolution_operator s (Some o) w = (Ok tt, w1) /\
    forall ops t, Forall reads ops -> exists ht w2 ut,
      sys_h_t s t (wrun_any ops w1) = (Ok (Some ht), w2) /\ shape ht = [l; l] /\
      (forall p q, (p < l)%nat -> (q < l)%nat ->
         mat ht p q = mat h p q + E t * sumn dim (fun i => eps t i * get d [i; p; q])) /\
      sys_u_t s t (wrun_any ops w1) = (Ok (Some ut), wrun_any ops w1) /\ aeq ut u.
  Proof.
    intros H1 Hnp H2 Hh Hu Hd Sh Su Sd Hdim H3 HE Hpol Hsafe.
    destruct (operator_semantics w s o x b l h u (Some d) _ (MLaser E eps) H1 Hnp H2 Hh Hu Hd Sh Su H3) as (w1 & E1 & H).
    { cbn. exists d, dim. repeat split; assumption. }
    exists w1. split; [exact E1|]. intros ops t Hr. destruct (H ops t Hr) as (ht & w2 & ut & A1 & A2 & A3 & A4 & A5 & A6).
    exists ht, w2, ut. split; [exact A1|]. split; [exact A2|].
    split; [intros p q Hp Hq; rewrite A3 by assumption; cbn [one_body_term]; rewrite Sd; reflexivity|].
    split; [exact A4|]. apply (aeq4 K ut u l l l l A5 Su). intros. rewrite A6 by assumption. cbn. ring.
  Qed.
  Lemma switching_semantics w s o x b l h u f E y : nth_error (w_sy w) s = Some x -> sy_np x <> None ->
    nth_error (w_bs w) (sy_bs x) = Some b -> b_arr b F_h = Some h -> b_arr b F_u = Some u ->
    shape h = [l; l] -> shape u = [l; l; l; l] ->
    nth_error (w_op w) o = Some (Tevo (adiabatic_switching f) y) -> number_of [] f E ->
    exists w1, set_time_evolution_operator s (Some o) w = (Ok tt, w1) /\
    forall ops t, Forall reads ops -> exists ht w2 ut,
      sys_h_t s t (wrun_any ops w1) = (Ok (Some ht), w2) /\ aeq ht h /\
      sys_u_t s t (wrun_any ops w1) = (Ok (Some ut), wrun_any ops w1) /\ shape ut = [l; l; l; l] /\
      (forall p q r r', (p < l)%nat -> (q < l)%nat -> (r < l)%nat -> (r' < l)%nat -> ten ut p q r r' = E t * ten u p q r r').
  Proof.
    intros H1 Hnp H2 Hh Hu Sh Su H3 HE.
    destruct (operator_semantics w s o x b l h u (b_arr b F_dip) _ (MSwitch E) H1 Hnp H2 Hh Hu eq_refl Sh Su H3) as (w1 & E1 & H).
    { destruct f as [a|f|c]; cbn.
      - intros t. destruct (HE t) as (a' & D & S & G). cbn in D. subst. auto.
      - intros t. destruct (HE t) as (a' & D & S & G). cbn in D. subst. auto.
      - destruct (HE 0) as (a' & D & _). cbn in D. destruct c; discriminate D. }
    exists w1. split; [exact E1|]. intros ops t Hr. destruct (H ops t Hr) as (ht & w2 & ut & A1 & A2 & A3 & A4 & A5 & A6).
    exists ht, w2, ut. split; [exact A1|].
    split; [apply (aeq2 K ht h l l A2 Sh); intros; rewrite A3 by assumption; cbn; ring|].
    split; [exact A4|]. split; [exact A5|]. exact A6.
  Qed.
  Lemma custom_semantics w s o x b l h u wt A E y : nth_error (w_sy w) s = Some x -> sy_np x <> None ->
    nth_error (w_bs w) (sy_bs x) = Some b -> b_arr b F_h = Some h -> b_arr b F_u = Some u ->
    shape h = [l; l] -> shape u = [l; l; l; l] -> shape A = [l; l] ->
    nth_error (w_op w) o = Some (Tevo (custom_one_body wt A) y) -> number_of [] wt E ->
    exists w1, set_time_evolution_operator s (Some o) w = (Ok tt, w1) /\
    forall ops t, Forall reads ops -> exists ht w2 ut,
      sys_h_t s t (wrun_any ops w1) = (Ok (Some ht), w2) /\ shape ht = [l; l] /\
      (forall p q, (p < l)%nat -> (q < l)%nat -> mat ht p q = mat h p q + E t * mat A p q) /\
      sys_u_t s t (wrun_any ops w1) = (Ok (Some ut), wrun_any ops w1) /\ aeq ut u.
  Proof.
    intros H1 Hnp H2 Hh Hu Sh Su SA H3 HE.
    destruct (operator_semantics w s o x b l h u (b_arr b F_dip) _ (MCustom E A) H1 Hnp H2 Hh Hu eq_refl Sh Su H3) as (w1 & E1 & H).
    { cbn. auto. }
    exists w1. split; [exact E1|]. intros ops t Hr. destruct (H ops t Hr) as (ht & w2 & ut & A1 & A2 & A3 & A4 & A5 & A6).
    exists ht, w2, ut. split; [exact A1|]. split; [exact A2|]. split; [exact A3|].
    split; [exact A4|]. apply (aeq4 K ut u l l l l A5 Su). intros. rewrite A6 by assumption. cbn. ring.
  Qed.
  Lemma no_operator w s x b t : nth_error (w_sy w) s = Some x -> nth_error (w_bs w) (sy_bs x) = Some b -> sy_op x = None ->
    sys_h_t s t w = (Ok (b_arr b F_h), w) /\ sys_u_t s t w = (Ok (b_arr b F_u), w) /\
    has_op is_one_body s w = (Ok false, w) /\ has_op is_two_body s w = (Ok false, w).
  Proof.
    intros H1 H2 Ho. unfold sys_h_t, sys_u_t, has_op.
    rewrite !(wbind_ok K _ _ _ _ _ (get_sys_ok K s w x H1)), Ho, !(sys_get_run s _ w x b H1 H2). repeat split.
  Qed.
  (** A part whose flag is off is time independent. *)
  Lemma flags_sound w s l x h u d M : evolving w s l x h u d M ->
    exists f1 f2, has_op is_one_body s w = (Ok f1, w) /\ has_op is_two_body s w = (Ok f2, w) /\
      (f1 = false -> forall t p q, one_body_term M d t p q = 0) /\ (f2 = false -> forall t, two_body_factor M t = 1) /\
      f1 = (match M with MLaser _ _ | MCustom _ _ => true | _ => false end) /\
      f2 = (match M with MSwitch _ => true | _ => false end).
  Proof.
    intros [H1 Hnp (o & te & b & Ho & H3 & Hs & H2 & Hh & Hu & Hd & Hm) Sh Su].
    unfold has_op. rewrite !(wbind_ok K _ _ _ _ _ (get_sys_ok K s w x H1)), Ho.
    unfold bind, get_op. rewrite H3. unfold ret.
    exists (is_one_body (te_op te)), (is_two_body (te_op te)). split; [reflexivity|]. split; [reflexivity|].
    destruct (te_op te), M; cbn [op_means] in Hm; try contradiction; repeat split; discriminate.
  Qed.
End OperatorProofs.
