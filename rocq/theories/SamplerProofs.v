(** Sample collection. *)
From Coq Require Import List Arith Lia Bool String.
From Verif Require Import Py Sampler.
Import ListNotations.
Local Open Scope nat_scope.
Local Open Scope list_scope.

Section SamplerProofs.
  Variables (key val time user : Type) (key_eqb : key -> key -> bool).
  Notation sampler := (sampler key val time user).
  Notation world := (world key val time user).
  Notation event := (event time).
  Implicit Types (w : world) (ss : list sampler).

  (** The sampling calls in a log *)
  Definition sampling (l : list event) : list (nat * time) :=
    flat_map (fun e => match e with Sampled i t => [(i, t)] | Dumped _ _ _ => [] end) l.
  Lemma sampling_app l l' : sampling (l ++ l') = sampling l ++ sampling l'.
  Proof. apply flat_map_app. Qed.
  (** The steps of a history *)
  Definition steps_of (h : list (op key val time)) : list time :=
    flat_map (fun o => match o with OpSample t => [t] | _ => [] end) h.
  (** No sampler raises while sampling *)
  Definition quiet ss : Prop := forall s t st, In s ss -> exists st', sp_sample s t st = (Ok tt, st').

  Lemma loop_sample (t : time) : forall (ps : list (nat * sampler)) w,
    (forall s st, In s (map snd ps) -> exists st', sp_sample s t st = (Ok tt, st')) ->
    exists w', for_each ps (fun p => record_event (Sampled (fst p) t) ;; in_sampler (sp_sample (snd p) t)) w = (Ok tt, w') /\
      w_log w' = w_log w ++ map (fun p => Sampled (fst p) t) ps /\ w_samples w' = w_samples w.
  Proof.
    induction ps as [|[i s] ps IH]; intros w H.
    - exists w. cbn. rewrite app_nil_r. auto.
    - cbn [for_each]. unfold bind at 1 2. cbn [record_event modify]. unfold in_sampler at 1. cbn [fst snd w_user w_heap w_log w_dirs w_files w_samples].
      destruct (H s (w_user w, w_heap w) ltac:(left; reflexivity)) as (st' & ->).
      match goal with |- exists w', for_each _ _ ?w1 = _ /\ _ => destruct (IH w1) as (w' & E & L & R) end.
      { intros. apply H. right. assumption. }
      exists w'. split; [exact E|]. cbn in L, R. rewrite L, R. cbn. rewrite <- app_assoc. auto.
  Qed.
  Lemma positions_samplers ss : map snd (positions ss) = ss.
  Proof.
    unfold positions. assert (forall n, map snd (combine (seq n (List.length ss)) ss) = ss) as H; [|apply H].
    induction ss as [|s ss IH]; intros n; [reflexivity|]. cbn. f_equal. apply IH.
  Qed.
  Lemma positions_index ss : map fst (positions ss) = seq 0 (List.length ss).
  Proof.
    unfold positions. generalize 0. induction ss as [|s ss IH]; intros n; [reflexivity|]. cbn. f_equal. apply IH.
  Qed.
  Lemma sample_ok ss t w : quiet ss -> exists w', sample ss t w = (Ok tt, w') /\
    w_log w' = w_log w ++ map (fun i => Sampled i t) (seq 0 (List.length ss)) /\ w_samples w' = w_samples w.
  Proof.
    intros Q. destruct (loop_sample t (positions ss) w) as (w' & E & L & R).
    { intros s st Hs. rewrite positions_samplers in Hs. apply Q. exact Hs. }
    exists w'. split; [exact E|]. split; [|exact R]. rewrite L. f_equal. rewrite <- positions_index, map_map. reflexivity.
  Qed.
  (** A raising sampler stops the loop: it and those before it were called. *)
  Lemma loop_stops (t : time) : forall (ps : list (nat * sampler)) w r w',
    for_each ps (fun p => record_event (Sampled (fst p) t) ;; in_sampler (sp_sample (snd p) t)) w = (r, w') ->
    match r with
    | Ok _ => w_log w' = w_log w ++ map (fun p => Sampled (fst p) t) ps
    | Err e => exists k, k < List.length ps /\ w_log w' = w_log w ++ map (fun p => Sampled (fst p) t) (firstn (S k) ps) /\
                 exists s st, nth_error (map snd ps) k = Some s /\ fst (sp_sample s t st) = Err e
    end.
  Proof.
    induction ps as [|[i s] ps IH]; intros w r w' E.
    - injection E as <- <-. cbn. rewrite app_nil_r. reflexivity.
    - cbn [for_each] in E. unfold bind at 1 2 in E. cbn [record_event modify] in E. unfold in_sampler at 1 in E. cbn [fst snd w_user w_heap w_log w_dirs w_files w_samples] in E.
      destruct (sp_sample s t (w_user w, w_heap w)) as [[[]|e] st'] eqn:Es.
      + specialize (IH _ _ _ E). destruct r as [[]|e]; cbn [w_log] in IH.
        * rewrite IH, <- app_assoc. reflexivity.
        * destruct IH as (k & Hk & L & s' & st & Hn & He). exists (S k). split; [cbn; lia|]. split.
          -- rewrite L, <- app_assoc. reflexivity.
          -- exists s', st. auto.
      + injection E as <- <-. cbn [w_log]. exists 0. split; [cbn; lia|]. split; [reflexivity|]. exists s, (w_user w, w_heap w). cbn. rewrite Es. auto.
  Qed.
  Lemma sample_stops ss t w e w' : sample ss t w = (Err e, w') ->
    exists k, k < List.length ss /\ w_log w' = w_log w ++ map (fun i => Sampled i t) (seq 0 (S k)) /\
      exists s st, nth_error ss k = Some s /\ fst (sp_sample s t st) = Err e.
  Proof.
    intros E. pose proof (loop_stops t (positions ss) w _ _ E) as H. cbv beta iota in H. destruct H as (k & Hk & L & s & st & Hn & He). rewrite positions_samplers in Hn. exists k.
    assert (Hk' : k < List.length ss). { rewrite <- (positions_samplers ss), map_length. exact Hk. }
    split; [exact Hk'|]. split; [|eauto]. rewrite L. f_equal.
    rewrite <- (map_map fst (fun i => Sampled i t)), <- firstn_map, positions_index. f_equal.
    clear -Hk'. generalize 0. revert k Hk'. induction (List.length ss) as [|n IH]; intros k Hk m; [lia|].
    cbn [seq firstn]. f_equal. destruct k as [|k]; [destruct n; reflexivity|]. apply (IH k). lia.
  Qed.

  (** Dumping *)
  (** The dictionaries handed on in a log of dumping calls, from [r] to [r'] *)
  Fixpoint chain (i r : nat) (l : list event) (r' : nat) : Prop :=
    match l with
    | [] => r = r'
    | Dumped j rin rout :: l' => j = i /\ rin = r /\ chain (S i) rout l' r'
    | _ => False
    end.
  Definition dump_body (p : nat * sampler) : SM key val time user unit :=
    let* w := get_st in
    let* r := in_sampler (sp_dump (snd p) (w_samples w)) in
    record_event (Dumped (fst p) (w_samples w) r) ;;
    set_samples r.
  Lemma loop_dump ss : forall n w w', for_each (combine (seq n (List.length ss)) ss) dump_body w = (Ok tt, w') ->
    exists l, w_log w' = w_log w ++ l /\ chain n (w_samples w) l (w_samples w') /\ List.length l = List.length ss.
  Proof.
    induction ss as [|s ss IH]; intros n w w' E.
    - injection E as <-. exists []. rewrite app_nil_r. cbn. auto.
    - cbn [combine seq List.length for_each] in E. unfold bind at 1 in E. unfold dump_body at 1, bind at 1, get_st at 1 in E.
      unfold bind at 1, in_sampler at 1 in E. cbn [fst snd] in E.
      destruct (sp_dump s (w_samples w) (w_user w, w_heap w)) as [[r|e] st']; [|discriminate E].
      unfold bind at 1 in E. cbn [record_event set_samples modify w_user w_heap w_log w_dirs w_files w_samples] in E.
      destruct (IH _ _ _ E) as (l & L & Hc & Hl). cbn [w_log w_samples] in L, Hc.
      exists (Dumped n (w_samples w) r :: l). rewrite L, <- app_assoc. cbn. auto.
  Qed.
  Lemma dump_not_sampling ss : forall n w, sampling (w_log (snd (for_each (combine (seq n (List.length ss)) ss) dump_body w))) = sampling (w_log w).
  Proof.
    induction ss as [|s ss IH]; intros n w; [reflexivity|].
    cbn [combine seq List.length for_each]. unfold bind at 1. unfold dump_body at 1, bind at 1, get_st at 1.
    unfold bind at 1, in_sampler at 1. cbn [fst snd].
    destruct (sp_dump s (w_samples w) (w_user w, w_heap w)) as [[r|e] st']; [|reflexivity].
    unfold bind at 1. cbn [record_event set_samples modify w_user w_heap w_log w_dirs w_files w_samples].
    rewrite IH. cbn [w_log]. rewrite sampling_app. cbn. apply app_nil_r.
  Qed.
  Lemma makedirs_log path e w : w_log (snd (makedirs path e w)) = w_log w.
  Proof. unfold makedirs, bind, get_st. destruct (w_dirs w path); [destruct e|]; reflexivity. Qed.
  Lemma dump_log ss cls p f e s w : sampling (w_log (snd (dump ss cls p f e s w))) = sampling (w_log w).
  Proof.
    unfold dump. fold dump_body. unfold bind at 1.
    pose proof (dump_not_sampling ss 0 w) as H. fold (positions ss) in H. change (for_each (positions ss) dump_body w) with (for_each (positions ss) (fun p0 => dump_body p0) w) in H.
    match goal with |- context [for_each (positions ss) ?g w] => change (for_each (positions ss) g w) with (for_each (positions ss) dump_body w) end.
    change (for_each (positions ss) (fun p0 => dump_body p0) w) with (for_each (positions ss) dump_body w) in H.
    destruct (for_each (positions ss) dump_body w) as [[[]|x] w1]; [|exact H]. cbn [snd] in H. rewrite <- H.
    unfold bind at 1, get_st. destruct s; cbn [negb]; [|reflexivity].
    unfold bind at 1. pose proof (makedirs_log p e w1) as M1. destruct (makedirs p e w1) as [[[]|x] w2]; cbn [snd] in M1.
    - rewrite <- M1. reflexivity.
    - cbn [snd]. rewrite M1. reflexivity.
  Qed.

  (** All sampling calls made during a history *)
  Lemma history_sampling ss cls (h : list (op key val time)) : quiet ss -> forall w,
    sampling (w_log (run key_eqb ss cls h w)) =
    sampling (w_log w) ++ flat_map (fun t => map (fun i => (i, t)) (seq 0 (List.length ss))) (steps_of h).
  Proof.
    intros Q. induction h as [|o h IH]; intros w.
    - cbn. rewrite app_nil_r. reflexivity.
    - cbn [run fold_left]. fold (run key_eqb ss cls h (run1 key_eqb ss cls o w)). rewrite IH. destruct o as [t|p f e s|k v|]; cbn [run1 steps_of flat_map].
      + destruct (sample_ok ss t w Q) as (w' & -> & L & _). cbn [snd]. rewrite L, sampling_app, <- app_assoc. f_equal.
        cbn [app flat_map]. f_equal. clear. induction (seq 0 (List.length ss)) as [|a l IHl]; [reflexivity|]. cbn. f_equal. exact IHl.
      + rewrite dump_log. reflexivity.
      + f_equal. f_equal. unfold add_sample, bind, get_st. destruct (w_heap w (w_samples w)); reflexivity.
      + reflexivity.
  Qed.
  (** Seen by one sampler *)
  Definition seen_by (i : nat) (l : list event) : list time := map snd (filter (fun p => fst p =? i) (sampling l)).
  Lemma one_step (i n : nat) (t : time) : i < n -> map snd (filter (fun p => fst p =? i) (map (fun j => (j, t)) (seq 0 n))) = [t].
  Proof.
    intros Hi. assert (forall m, m <= i < m + n -> map snd (filter (fun p => fst p =? i) (map (fun j => (j, t)) (seq m n))) = [t]) as H.
    { clear Hi. induction n as [|n IH]; intros m Hm; [lia|]. cbn [seq map filter fst]. destruct (Nat.eqb_spec m i) as [->|Hne].
      - cbn. f_equal. assert (forall n m, i < m -> map snd (filter (fun p => fst p =? i) (map (fun j => (j, t)) (seq m n))) = []) as Z.
        { clear. induction n as [|n IH]; intros m Hm; [reflexivity|]. cbn. destruct (Nat.eqb_spec m i); [lia|]. apply IH. lia. }
        apply Z. lia.
      - apply IH. lia. }
    apply H. lia.
  Qed.
  Lemma history_seen ss cls (h : list (op key val time)) w i : quiet ss -> i < List.length ss ->
    seen_by i (w_log (run key_eqb ss cls h w)) = seen_by i (w_log w) ++ steps_of h.
  Proof.
    intros Q Hi. unfold seen_by. rewrite (history_sampling ss cls h Q), filter_app, map_app. f_equal.
    induction (steps_of h) as [|t ts IH]; [reflexivity|]. cbn [flat_map]. rewrite filter_app, map_app, IH, (one_step _ _ _ Hi). reflexivity.
  Qed.

  (** What dump does *)
  Lemma dump_chain ss cls p f e s w r w' : dump ss cls p f e s w = (Ok r, w') ->
    exists l, w_log w' = w_log w ++ l /\ chain 0 (w_samples w) l r /\ List.length l = List.length ss /\ w_samples w' = r /\
      (s = true -> w_files w' p (match f with None => ("tmp_" ++ cls ++ ".samples")%string | Some f => f end) = w_heap w' r).
  Proof.
    unfold dump. unfold bind at 1. intros E.
    match type of E with context [for_each (positions ss) ?g w] => change (for_each (positions ss) g w) with (for_each (positions ss) dump_body w) in E end.
    destruct (for_each (positions ss) dump_body w) as [[[]|x] w1] eqn:El; [|discriminate E].
    destruct (loop_dump ss 0 w w1 El) as (l & L & Hc & Hl). exists l.
    unfold bind at 1, get_st in E. destruct s; cbn [negb] in E.
    - unfold makedirs in E. unfold bind at 1, bind at 1, get_st in E.
      destruct (w_dirs w1 p); [destruct e; [|discriminate E]|];
        injection E as <- <-; cbn [w_log w_samples w_heap w_files]; rewrite !String.eqb_refl; auto.
    - injection E as <- <-. split; [exact L|]. split; [exact Hc|]. split; [exact Hl|]. split; [reflexivity|]. discriminate.
  Qed.
  (** It fails only when a sampler does, or when the directory is there and must not be; in
      that case the samplers have been dumped already. *)
  Lemma dump_fails ss cls p f e s w x w' : dump ss cls p f e s w = (Err x, w') ->
    (exists i sp r st, nth_error ss i = Some sp /\ fst (sp_dump sp r st) = Err x) \/
    (s = true /\ e = false /\ x = OSError /\ w_dirs w' p = true /\
     exists l, w_log w' = w_log w ++ l /\ chain 0 (w_samples w) l (w_samples w') /\ List.length l = List.length ss).
  Proof.
    unfold dump. unfold bind at 1. intros E.
    match type of E with context [for_each (positions ss) ?g w] => change (for_each (positions ss) g w) with (for_each (positions ss) dump_body w) in E end.
    destruct (for_each (positions ss) dump_body w) as [[[]|x1] w1] eqn:El.
    - right. destruct (loop_dump ss 0 w w1 El) as (l & L & Hc & Hl).
      unfold bind at 1, get_st in E. destruct s; cbn [negb] in E; [|discriminate E].
      unfold makedirs in E. unfold bind at 1, bind at 1, get_st in E.
      destruct (w_dirs w1 p) eqn:Ed; [destruct e; [discriminate E|]|discriminate E].
      injection E as <- <-. do 4 (split; [auto|]). eauto.
    - left. injection E as <- <-. revert El. unfold positions. generalize 0. revert w.
      induction ss as [|sp ss IH]; intros w n El; [discriminate El|].
      cbn [combine seq List.length for_each] in El. unfold bind at 1 in El. unfold dump_body at 1, bind at 1, get_st at 1 in El.
      unfold bind at 1, in_sampler at 1 in El. cbn [fst snd] in El.
      destruct (sp_dump sp (w_samples w) (w_user w, w_heap w)) as [[r|e1] st'] eqn:Ed.
      + unfold bind at 1 in El. cbn [record_event set_samples modify w_user w_heap w_log w_dirs w_files w_samples] in El.
        destruct (IH _ _ El) as (i & sp' & r' & st & Hi & Hx). exists (S i), sp', r', st. auto.
      + injection El as -> _. exists 0, sp, (w_samples w), (w_user w, w_heap w). rewrite Ed. auto.
  Qed.

  (** The dictionary as a map *)
  Hypothesis key_spec : forall a b, key_eqb a b = true <-> a = b.
  Lemma add_get k v w d : w_heap w (w_samples w) = Some d ->
    exists w' d', add_sample key_eqb k v w = (Ok tt, w') /\ get_samples w' = (Ok (w_samples w), w') /\
      w_heap w' (w_samples w) = Some d' /\ d' k = Some v /\ (forall k', k' <> k -> d' k' = d k') /\
      (forall r, r <> w_samples w -> w_heap w' r = w_heap w r).
  Proof.
    intros Hd. unfold add_sample, bind, get_st. rewrite Hd. eexists. eexists. split; [reflexivity|].
    split; [reflexivity|]. cbn [set_heap w_heap w_samples]. unfold hset. rewrite Nat.eqb_refl. split; [reflexivity|]. cbv beta.
    split; [rewrite (proj2 (key_spec k k) eq_refl); reflexivity|]. split.
    - intros k' Hk. destruct (key_eqb k' k) eqn:E; [|reflexivity]. apply key_spec in E. contradiction.
    - intros r Hr. destruct (Nat.eqb_spec r (w_samples w)); [contradiction|reflexivity].
  Qed.
  (** Samplers that put their value under their own key into the dictionary they are given *)
  Definition storing (own : list (key * val)) ss : Prop :=
    Forall2 (fun kv s => forall r u (h : heap key val) d, h r = Some d -> exists u',
      sp_dump s r (u, h) = (Ok r, (u', hset r (fun k' => if key_eqb k' (fst kv) then Some (snd kv) else d k') h))) own ss.
  Lemma storing_loop own ss : storing own ss -> forall n w d, w_heap w (w_samples w) = Some d -> NoDup (map fst own) ->
    exists w' d', for_each (combine (seq n (List.length ss)) ss) dump_body w = (Ok tt, w') /\ w_samples w' = w_samples w /\
      w_heap w' (w_samples w) = Some d' /\ (forall kv, In kv own -> d' (fst kv) = Some (snd kv)) /\
      (forall k, ~ In k (map fst own) -> d' k = d k).
  Proof.
    intros S. induction S as [|kv s own ss Hs _ IH]; intros n w d Hd Hnd.
    - exists w, d. split; [reflexivity|]. split; [reflexivity|]. split; [exact Hd|]. split; [intros ? []|reflexivity].
    - cbn [map] in Hnd. inversion Hnd as [|? ? Hni Hnd']; subst.
      cbn [combine seq List.length for_each]. unfold bind at 1. unfold dump_body at 1, bind at 1, get_st at 1.
      unfold bind at 1, in_sampler at 1. cbn [fst snd].
      destruct (Hs (w_samples w) (w_user w) (w_heap w) d Hd) as (u' & ->).
      unfold bind at 1. cbn [record_event set_samples modify w_user w_heap w_log w_dirs w_files w_samples fst snd].
      match goal with |- exists w' d', for_each _ _ ?w1 = _ /\ _ => destruct (IH (Datatypes.S n) w1 (fun k' => if key_eqb k' (fst kv) then Some (snd kv) else d k')) as (w' & d' & E & R & Hd' & Hin & Hout) end.
      + cbn. unfold hset. rewrite Nat.eqb_refl. reflexivity.
      + exact Hnd'.
      + exists w', d'. split; [exact E|]. split; [exact R|]. split; [exact Hd'|]. split.
        * intros kv' [<-|Hk]; [|apply Hin; exact Hk]. rewrite Hout by exact Hni. rewrite (proj2 (key_spec _ _) eq_refl). reflexivity.
        * intros k Hk. rewrite Hout by (intros H; apply Hk; right; exact H).
          destruct (key_eqb k (fst kv)) eqn:E'; [|reflexivity]. apply key_spec in E'. exfalso. apply Hk. left. auto.
  Qed.
  Lemma storing_dump own ss cls p f e w d : storing own ss -> w_heap w (w_samples w) = Some d -> NoDup (map fst own) ->
    exists w' d', dump ss cls p f e false w = (Ok (w_samples w), w') /\ w_heap w' (w_samples w) = Some d' /\
      (forall kv, In kv own -> d' (fst kv) = Some (snd kv)) /\ (forall k, ~ In k (map fst own) -> d' k = d k).
  Proof.
    intros S Hd Hnd. destruct (storing_loop own ss S 0 w d Hd Hnd) as (w' & d' & E & R & H).
    exists w', d'. split; [|exact H]. unfold dump, bind at 1.
    match goal with |- context [for_each (positions ss) ?g w] => change (for_each (positions ss) g w) with (for_each (positions ss) dump_body w) end.
    unfold positions. rewrite E. unfold bind, get_st. cbn [negb]. rewrite R. reflexivity.
  Qed.
End SamplerProofs.
