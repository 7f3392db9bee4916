(** Proofs about the Coulomb cache: C45, C46. *)
From Coq Require Import List Arith ZArith Lia Bool Reals Lra.
From Verif Require Import Py TwoDim Coulomb CoulombSpec CoulombProofs Cache.
Import ListNotations.

Definition sound (s : fs) : Prop := forall d n f, s d n = Some f -> f = image n.

Lemma load_image n : np_load (image n) = Ok (coulomb_array n).
Proof.
  unfold image, np_load. rewrite map_length, Nat.leb_refl. rewrite firstn_all2 by (rewrite map_length; lia). rewrite map_map, map_id. reflexivity.
Qed.
Lemma fs_set_same s d n f : fs_set s d n f d n = Some f.
Proof. unfold fs_set. rewrite !Nat.eqb_refl. reflexivity. Qed.
Lemma fs_set_other s d n f d' n' : (d', n') <> (d, n) -> fs_set s d n f d' n' = s d' n'.
Proof. intros H. unfold fs_set. destruct (Nat.eqb_spec d' d), (Nat.eqb_spec n' n); try reflexivity. subst. contradiction. Qed.

(** ** C45 *)
Lemma call_sound e n s : sound s -> sound (snd (get_coulomb_elements e n s)) /\
  (cached e = false \/ writable e = true \/ s (dir e) n <> None -> fst (get_coulomb_elements e n s) = Ok (coulomb_array n)).
Proof.
  intros Hs. unfold get_coulomb_elements. destruct (cached e); cbn; [|auto]. unfold bind, get_st. destruct (s (dir e) n) as [f|] eqn:E; cbn.
  - split; [exact Hs|]. intros _. rewrite (Hs _ _ _ E). apply load_image.
  - destruct (writable e); cbn; [|split; [exact Hs | intros [H|[H|H]]; congruence]]. split; [|reflexivity].
    intros d n' f. unfold fs_set. destruct (Nat.eqb_spec n' n) as [->|]; [|rewrite andb_false_r; apply Hs].
    destruct (d =? dir e)%nat; cbn; [intros [= <-]; reflexivity | apply Hs].
Qed.
Lemma history_transparent h s : sound s -> Forall (fun c => cached (fst c) = false \/ writable (fst c) = true) h ->
  fst (calls h s) = map (fun c => Ok (coulomb_array (snd c))) h /\ sound (snd (calls h s)).
Proof.
  intros Hs Hh. revert s Hs. induction Hh as [|[e n] h He Hh IH]; intros s Hs; [split; [reflexivity | exact Hs]|]. cbn [fst] in He. cbn [calls map snd].
  destruct (call_sound e n s Hs) as [A B]. destruct (get_coulomb_elements e n s) as [r s1]. cbn [fst snd] in A, B.
  rewrite B by tauto. destruct (IH s1 A) as [C D]. destruct (calls h s1) as [rs s2]. cbn [fst snd] in C, D |- *. rewrite C. split; [reflexivity | exact D].
Qed.
Lemma readonly e n s : cached e = true -> writable e = false -> s (dir e) n = None -> get_coulomb_elements e n s = (Err OSError, s).
Proof. intros H1 H2 H3. unfold get_coulomb_elements. rewrite H1. cbn. unfold bind, get_st. rewrite H3, H2. reflexivity. Qed.

(** ** Cells of a file *)
Lemma nth_write f off cs i : nth_error (write_at f off cs) i =
  if (i <? off)%nat then (if (i <? length f)%nat then nth_error f i else Some Hole)
  else if (i <? off + length cs)%nat then nth_error cs (i - off) else nth_error f i.
Proof.
  unfold write_at. assert (HL : length (firstn off (f ++ repeat Hole (off - length f))) = off) by (rewrite firstn_length, app_length, repeat_length; lia).
  assert (F : forall {A} (l : list A) k j, (j < k)%nat -> nth_error (firstn k l) j = nth_error l j).
  { clear. induction l as [|x l IH]; intros k j H; [rewrite firstn_nil; reflexivity|]. destruct k; [lia|]. destruct j; [reflexivity|]. cbn. apply IH. lia. }
  assert (Sk : forall {A} (l : list A) k j, nth_error (skipn k l) j = nth_error l (k + j)).
  { clear. induction l as [|x l IH]; intros k j; [rewrite skipn_nil; transitivity (@None A); [destruct j; reflexivity | destruct (k + j)%nat; reflexivity]|]. destruct k; [reflexivity|]. cbn. apply IH. }
  destruct (Nat.ltb_spec i off).
  - rewrite nth_error_app1 by lia. rewrite F by exact H. destruct (Nat.ltb_spec i (length f)).
    + apply nth_error_app1. exact H0.
    + rewrite nth_error_app2 by exact H0. apply nth_error_repeat. lia.
  - rewrite nth_error_app2 by lia. rewrite HL. destruct (Nat.ltb_spec i (off + length cs)).
    + apply nth_error_app1. lia.
    + rewrite nth_error_app2 by lia. rewrite Sk. f_equal. lia.
Qed.
Lemma length_write f off cs : length (write_at f off cs) = Nat.max (off + length cs) (length f).
Proof. unfold write_at. rewrite !app_length, firstn_length, app_length, repeat_length, skipn_length. lia. Qed.
Lemma nth_replace {A} i (x y : A) l j : nth_error l i = Some y -> nth_error (replace_at i x l) j = if (j =? i)%nat then Some x else nth_error l j.
Proof.
  revert i j. induction l as [|z l IH]; intros i j H; [destruct i; discriminate H|]. destruct i, j; cbn in *; try reflexivity. apply IH. exact H.
Qed.

(** ** Invariants of every interleaving *)
(** Every cell of a cache file is right or was never written. *)
Definition cells_ok (s : fs) : Prop := forall d n f, s d n = Some f ->
  (length f <= length (image n))%nat /\ forall i c, nth_error f i = Some c -> c = Hole \/ nth_error (image n) i = Some c.
(** A returned array is right up to entries that read as zero. *)
Definition torn (n : nat) (xs : list R) : Prop := Forall2 (fun x y => x = y \/ x = 0%R) xs (coulomb_array n).
Definition result_ok (n : nat) (r : res (list R)) : Prop :=
  match r with Ok xs => torn n xs | Err e => e = ValueError \/ e = OSError end.
Definition procs_ok (ps : list process) : Prop := forall i p, nth_error ps i = Some p ->
  match p_at p with Returned r => result_ok (p_n p) r | _ => True end.

Lemma torn_refl n : torn n (coulomb_array n).
Proof. unfold torn. induction (coulomb_array n); constructor; auto. Qed.
Lemma load_cells s d n f : cells_ok s -> s d n = Some f -> result_ok n (np_load f).
Proof.
  intros Hs Hf. destruct (Hs d n f Hf) as [Hlen Hc]. destruct f as [|c rest]; [left; reflexivity|].
  destruct (Hc 0%nat c eq_refl) as [->|H0]; [left; reflexivity|]. cbn in H0. injection H0 as <-. unfold np_load.
  destruct (Nat.leb_spec (length (coulomb_array n)) (length rest)) as [H|H]; [|left; reflexivity].
  rewrite firstn_all2 by (cbn in Hlen; rewrite map_length in Hlen; lia). cbn [result_ok]. unfold torn.
  assert (Hc' : forall i c, nth_error rest i = Some c -> c = Hole \/ nth_error (map Datum (coulomb_array n)) i = Some c) by (intros i c; apply (Hc (S i))).
  assert (Hl' : length rest = length (coulomb_array n)) by (cbn in Hlen; rewrite map_length in Hlen; lia).
  clear -Hc' Hl'. revert Hc' Hl'. generalize (coulomb_array n) as ys. induction rest as [|c rest IH]; intros ys Hc Hl; destruct ys as [|y ys]; try discriminate Hl; [constructor|].
  constructor.
  - destruct (Hc 0%nat c eq_refl) as [->|H]; [right; reflexivity|]. cbn in H. injection H as <-. left. reflexivity.
  - apply IH; [intros i c' H; apply (Hc (S i) c' H) | cbn in Hl; lia].
Qed.
Lemma firstn_skipn_nth {A} (l : list A) off k i x : nth_error (firstn k (skipn off l)) i = Some x -> nth_error l (off + i) = Some x.
Proof.
  intros H. assert (Hi : (i < k)%nat). { pose proof (proj1 (nth_error_Some (firstn k (skipn off l)) i)). rewrite firstn_length in H0. rewrite H in H0. specialize (H0 ltac:(discriminate)). lia. }
  assert (E : nth_error (skipn off l) i = Some x).
  { rewrite <- (firstn_skipn k (skipn off l)). rewrite nth_error_app1; [exact H|]. apply nth_error_Some. rewrite H. discriminate. }
  rewrite <- E. clear. revert off. induction l as [|y l IH]; intros off; [rewrite skipn_nil; transitivity (@None A); [destruct (off + i)%nat; reflexivity | destruct i; reflexivity]|]. destruct off; [reflexivity|]. cbn. apply IH.
Qed.
Lemma advance_ok chunk p s : cells_ok s -> match p_at p with Returned r => result_ok (p_n p) r | Writing off => (off <= length (image (p_n p)))%nat | _ => True end ->
  let (p', s') := advance chunk p s in p_n p' = p_n p /\ p_env p' = p_env p /\ cells_ok s' /\
    match p_at p' with Returned r => result_ok (p_n p') r | Writing off => (off <= length (image (p_n p')))%nat | _ => True end.
Proof.
  intros Hs Hp. unfold advance. destruct p as [e n q]. cbn [p_env p_n p_at] in *. destruct q as [| | |off|r|].
  - destruct (cached e); cbn; [destruct (s (dir e) n); cbn; auto | refine (conj eq_refl (conj eq_refl (conj Hs (torn_refl n))))].
  - destruct (s (dir e) n) as [f|] eqn:E; cbn; refine (conj eq_refl (conj eq_refl (conj Hs _))); [apply (load_cells s (dir e) n f Hs E) | auto].
  - destruct (writable e); cbn; [|refine (conj eq_refl (conj eq_refl (conj Hs _))); auto]. refine (conj eq_refl (conj eq_refl (conj _ (Nat.le_0_l _)))). intros d n' f. unfold fs_set.
    destruct ((d =? dir e)%nat && (n' =? n)%nat); [intros [= <-] | apply Hs]. split; [cbn; lia | intros i c H; destruct i; discriminate H].
  - pose proof (firstn_length (S chunk) (skipn off (image n))) as HL. rewrite skipn_length in HL.
    pose proof (firstn_skipn_nth (image n) off (S chunk)) as HN.
    destruct (firstn (S chunk) (skipn off (image n))) as [|c0 cs0] eqn:Ecs; [refine (conj eq_refl (conj eq_refl (conj Hs (torn_refl n))))|].
    set (cs := c0 :: cs0) in *. cbn [p_env p_n p_at]. split; [reflexivity|]. split; [reflexivity|]. split; [|lia].
    set (f0 := match s (dir e) n with Some f => f | None => [] end).
    assert (Hf0 : (length f0 <= length (image n))%nat /\ forall i c, nth_error f0 i = Some c -> c = Hole \/ nth_error (image n) i = Some c).
    { unfold f0. destruct (s (dir e) n) eqn:E; [apply (Hs _ _ _ E)|]. split; [cbn; lia | intros i c H; destruct i; discriminate H]. }
    intros d n' f. unfold fs_set. destruct (Nat.eqb_spec n' n) as [->|]; [|rewrite andb_false_r; apply Hs].
    destruct (d =? dir e)%nat; cbn [andb]; [|apply Hs]. intros [= <-]. split; [rewrite length_write; lia|].
    intros i c. rewrite nth_write. destruct (Nat.ltb_spec i off).
    + destruct (Nat.ltb_spec i (length f0)); [apply Hf0 | intros [= <-]; auto].
    + destruct (Nat.ltb_spec i (off + length cs)); [|apply Hf0]. intros H1. right. apply HN in H1. replace (off + (i - off))%nat with i in H1 by lia. exact H1.
  - cbn. auto.
  - cbn. auto.
Qed.
Definition point_ok (p : process) : Prop := match p_at p with Returned r => result_ok (p_n p) r | Writing off => (off <= length (image (p_n p)))%nat | _ => True end.
Definition machine_ok (m : machine) : Prop := cells_ok (m_fs m) /\ forall i p, nth_error (m_procs m) i = Some p -> point_ok p.
Lemma nth_app_one {A} (l : list A) x i y : nth_error (l ++ [x]) i = Some y -> nth_error l i = Some y \/ (i = length l /\ y = x).
Proof.
  intros H. destruct (Nat.lt_ge_cases i (length l)) as [L|L]; [rewrite nth_error_app1 in H by exact L; auto|].
  rewrite nth_error_app2 in H by exact L. destruct (i - length l)%nat as [|k] eqn:E; [|destruct k; discriminate H]. cbn in H. injection H as <-. right. split; [lia | reflexivity].
Qed.
Lemma act_ok a m : machine_ok m -> machine_ok (act a m).
Proof.
  intros [Hs Hp]. destruct a as [e n|i chunk|i]; cbn [act].
  - split; [exact Hs|]. intros i p H. cbn [m_procs] in H. apply nth_app_one in H as [H|[_ ->]]; [apply (Hp i p H) | exact I].
  - destruct (nth_error (m_procs m) i) as [p|] eqn:E; [|split; assumption]. pose proof (advance_ok chunk p (m_fs m) Hs (Hp i p E)) as A.
    destruct (advance chunk p (m_fs m)) as [p' s']. destruct A as (A1 & A2 & A3 & A4). split; [exact A3|]. intros j q H. cbn [m_procs] in H.
    rewrite (nth_replace i p' p _ j E) in H. destruct (j =? i)%nat; [injection H as <-; exact A4 | apply (Hp j q H)].
  - destruct (nth_error (m_procs m) i) as [p|] eqn:E; [|split; assumption]. split; [exact Hs|]. intros j q H. cbn [m_procs] in H.
    rewrite (nth_replace i _ p _ j E) in H. destruct (j =? i)%nat; [injection H as <-; exact I | apply (Hp j q H)].
Qed.
Lemma run_ok t m : machine_ok m -> machine_ok (run t m).
Proof. revert m. induction t as [|a t IH]; intros m H; [exact H|]. apply IH, act_ok, H. Qed.
Lemma sound_cells s : sound s -> cells_ok s.
Proof. intros H d n f E. rewrite (H d n f E). split; [lia | auto]. Qed.
Lemma start_ok s : sound s -> machine_ok (Machine s []).
Proof. intros H. split; [apply sound_cells, H | intros i p E; destruct i; discriminate E]. Qed.
(** Whatever happens, a call raises or returns the right elements except for zeros. *)
Lemma returned_torn s t i p r : sound s -> nth_error (m_procs (run t (Machine s []))) i = Some p -> p_at p = Returned r -> result_ok (p_n p) r.
Proof. intros Hs Hp Hr. destruct (run_ok t _ (start_ok s Hs)) as [_ H]. specialize (H i p Hp). unfold point_ok in H. rewrite Hr in H. exact H. Qed.

(** ** Without crashes *)
Definition writes (p : process) (d n off : nat) : Prop := p_at p = Writing off /\ dir (p_env p) = d /\ p_n p = n.
Definition pending (ps : list process) (d n i : nat) : Prop := exists j p off, nth_error ps j = Some p /\ writes p d n off /\ (off <= i)%nat.
Definition covered (m : machine) : Prop := forall d n f, m_fs m d n = Some f -> forall i, (i < length (image n))%nat ->
  nth_error f i = nth_error (image n) i \/ pending (m_procs m) d n i.
Definition crash_free (t : list action) : Prop := Forall (fun a => match a with Crash _ => False | _ => True end) t.
(** A file being written exists. *)
Definition opened (m : machine) : Prop := forall i p d n off, nth_error (m_procs m) i = Some p -> writes p d n off -> m_fs m d n <> None.
Lemma advance_grows chunk p s d n : s d n <> None -> snd (advance chunk p s) d n <> None.
Proof.
  intros H. unfold advance. destruct p as [e k q]. cbn [p_env p_n p_at]. destruct q; try exact H.
  - destruct (cached e); [|exact H]. cbn [negb]. destruct (s (dir e) k); exact H.
  - destruct (s (dir e) k); exact H.
  - destruct (writable e); [|exact H]. cbn [snd]. unfold fs_set. destruct (_ && _); [discriminate | exact H].
  - destruct (firstn (S chunk) (skipn offset (image k))); [exact H|]. cbn [snd]. unfold fs_set. destruct (_ && _); [discriminate | exact H].
Qed.
Lemma advance_opened chunk p s d n off : (forall off', writes p d n off' -> s d n <> None) -> writes (fst (advance chunk p s)) d n off -> snd (advance chunk p s) d n <> None.
Proof.
  intros H (W1 & W2 & W3). destruct p as [e k q]. unfold advance in *. cbn [p_env p_n p_at] in *. destruct q; cbn [fst snd] in *.
  - destruct (negb (cached e)); [discriminate W1|]. destruct (s (dir e) k); discriminate W1.
  - destruct (s (dir e) k); discriminate W1.
  - destruct (writable e); [|discriminate W1]. cbn in *. subst. rewrite fs_set_same. discriminate.
  - destruct (firstn (S chunk) (skipn offset (image k))); [discriminate W1|]. cbn [fst snd p_env p_n] in *. subst. rewrite fs_set_same. discriminate.
  - discriminate W1.
  - discriminate W1.
Qed.
Lemma act_opened a m : opened m -> opened (act a m).
Proof.
  intros Ho. destruct a as [e n|i chunk|i]; cbn [act].
  - intros i p d k off Hi Hw. cbn [m_procs m_fs] in *. apply nth_app_one in Hi as [Hi|[_ ->]]; [apply (Ho i p d k off Hi Hw) | destruct Hw as [W _]; discriminate W].
  - destruct (nth_error (m_procs m) i) as [p|] eqn:E; [|exact Ho].
    pose proof (advance_grows chunk p (m_fs m)) as A. pose proof (advance_opened chunk p (m_fs m)) as B.
    destruct (advance chunk p (m_fs m)) as [p' s']. cbn [fst snd] in A, B. intros j q d k off Hj Hw. cbn [m_procs m_fs] in *.
    rewrite (nth_replace i p' p _ j E) in Hj. destruct (j =? i)%nat; [injection Hj as <- | apply A, (Ho j q d k off Hj Hw)].
    apply (B d k off); [|exact Hw]. intros off' W. apply (Ho i p d k off' E W).
  - destruct (nth_error (m_procs m) i) as [p|] eqn:E; [|exact Ho]. intros j q d k off Hj Hw. cbn [m_procs m_fs] in *.
    rewrite (nth_replace i _ p _ j E) in Hj. destruct (j =? i)%nat; [injection Hj as <-; destruct Hw as [W _]; discriminate W | apply (Ho j q d k off Hj Hw)].
Qed.
Lemma act_covered a m : (match a with Crash _ => False | _ => True end) -> machine_ok m -> opened m -> covered m -> covered (act a m).
Proof.
  intros Ha Hok Hop Hc. destruct a as [e n|i chunk|i]; [| |destruct Ha]; cbn [act].
  - intros d n' f Hf k Hk. destruct (Hc d n' f Hf k Hk) as [H|(j & p & off & Hj & Hw & Ho)]; [auto|]. right. exists j, p, off. split; [|auto].
    cbn [m_procs]. rewrite nth_error_app1; [exact Hj | apply nth_error_Some; congruence].
  - destruct (nth_error (m_procs m) i) as [p|] eqn:E; [|exact Hc]. destruct Hok as [_ Hok]. specialize (Hok i p E).
    (* a step that neither writes nor ends a pending write *)
    assert (Quiet : forall p' , (forall d n off, ~ writes p d n off) -> covered (Machine (m_fs m) (replace_at i p' (m_procs m)))).
    { intros p' Hq d n f Hf k Hk. destruct (Hc d n f Hf k Hk) as [H|(j & q & off & Hj & Hw & Ho)]; [auto|]. right. exists j, q, off. split; [|auto].
      cbn [m_procs]. rewrite (nth_replace i p' p _ j E). destruct (Nat.eqb_spec j i) as [->|]; [|exact Hj]. rewrite E in Hj. injection Hj as <-. destruct (Hq _ _ _ Hw). }
    unfold advance. destruct p as [e n q]. cbn [p_env p_n p_at] in *. destruct q as [| | |off|r|].
    + destruct (negb (cached e)); [apply Quiet; intros d n0 off [H _]; discriminate H|]. destruct (m_fs m (dir e) n); apply Quiet; intros d n0 off [H _]; discriminate H.
    + destruct (m_fs m (dir e) n); apply Quiet; intros d n0 off [H _]; discriminate H.
    + destruct (writable e); [|apply Quiet; intros d n0 off [H _]; discriminate H].
      intros d n' f Hf k Hk. cbn [m_fs m_procs] in *. destruct (Nat.eq_dec d (dir e)) as [->|Hd]; [destruct (Nat.eq_dec n' n) as [->|Hn]|].
      * right. exists i, (Process e n (Writing 0)), 0%nat. split; [rewrite (nth_replace i _ _ _ i E), Nat.eqb_refl; reflexivity|]. split; [repeat split | lia].
      * rewrite fs_set_other in Hf by congruence. destruct (Quiet (Process e n (Writing 0)) ltac:(intros ? ? ? [H _]; discriminate H) (dir e) n' f Hf k Hk) as [H|H]; auto.
      * rewrite fs_set_other in Hf by congruence. destruct (Quiet (Process e n (Writing 0)) ltac:(intros ? ? ? [H _]; discriminate H) d n' f Hf k Hk) as [H|H]; auto.
    + unfold point_ok in Hok. cbn [p_at p_n] in Hok.
      pose proof (firstn_length (S chunk) (skipn off (image n))) as HL. rewrite skipn_length in HL.
      pose proof (firstn_skipn_nth (image n) off (S chunk)) as HN.
      destruct (firstn (S chunk) (skipn off (image n))) as [|c0 cs0] eqn:Ecs.
      * (* nothing left to write *)
        assert (Hoff : off = length (image n)) by (cbn [length] in HL; lia).
        intros d n' f Hf k Hk. cbn [m_fs m_procs] in *. destruct (Hc d n' f Hf k Hk) as [H|(j & p & off' & Hj & Hw & Ho)]; [auto|]. right.
        exists j, p, off'. split; [|auto]. rewrite (nth_replace i _ _ _ j E). destruct (Nat.eqb_spec j i) as [->|]; [|exact Hj].
        rewrite E in Hj. injection Hj as <-. destruct Hw as (W1 & W2 & W3). cbn in W1, W3. injection W1 as <-. subst n'. lia.
      * set (cs := c0 :: cs0) in *. intros d n' f Hf k Hk. cbn [m_fs m_procs] in *.
        assert (Keep : (d, n') <> (dir e, n) -> pending (m_procs m) d n' k -> pending (replace_at i (Process e n (Writing (off + length cs))) (m_procs m)) d n' k).
        { intros Hne (j & p & off' & Hj & Hw & Ho). exists j, p, off'. split; [|auto]. rewrite (nth_replace i _ _ _ j E). destruct (Nat.eqb_spec j i) as [->|]; [|exact Hj].
          rewrite E in Hj. injection Hj as <-. destruct Hw as (W1 & W2 & W3). cbn in W2, W3. subst. contradiction. }
        destruct (Nat.eq_dec d (dir e)) as [->|Hd]; [destruct (Nat.eq_dec n' n) as [->|Hn]|].
        -- rewrite fs_set_same in Hf. injection Hf as <-. rewrite nth_write. set (f0 := match m_fs m (dir e) n with Some f => f | None => [] end).
           destruct (Nat.ltb_spec k off) as [K|K]; [|destruct (Nat.ltb_spec k (off + length cs)) as [K'|K']].
           ++ assert (P : nth_error f0 k = nth_error (image n) k \/ exists j p off', nth_error (m_procs m) j = Some p /\ writes p (dir e) n off' /\ (off' <= k)%nat /\ j <> i \/ m_fs m (dir e) n = None).
              { unfold f0. destruct (m_fs m (dir e) n) as [f|] eqn:F; [|right; exists 0%nat, (Process e n Begin), 0%nat; auto].
                destruct (Hc (dir e) n f F k Hk) as [H|(j & p & off' & Hj & Hw & Ho)]; [auto|]. right. exists j, p, off'. left. repeat split; try assumption; try apply Hw.
                intros ->. rewrite E in Hj. injection Hj as <-. destruct Hw as (W1 & _). cbn in W1. injection W1 as <-. lia. }
              destruct P as [P|(j & p & off' & [(Hj & Hw & Ho & Hji)|Hnone])].
              ** left. destruct (Nat.ltb_spec k (length f0)) as [Lk|Lk]; [exact P|]. exfalso.
                 assert (nth_error f0 k = None) by (apply nth_error_None; exact Lk). rewrite H in P. symmetry in P. apply nth_error_None in P. lia.
              ** right. exists j, p, off'. split; [|auto]. rewrite (nth_replace i _ _ _ j E). destruct (Nat.eqb_spec j i); [contradiction | exact Hj].
              ** destruct (Hop i _ (dir e) n off E); [repeat split | exact Hnone].
           ++ left. destruct (nth_error cs (k - off)) as [c|] eqn:Ec; [|apply nth_error_None in Ec; lia]. apply HN in Ec. replace (off + (k - off))%nat with k in Ec by lia. auto.
           ++ right. exists i, (Process e n (Writing (off + length cs))), (off + length cs)%nat. split; [rewrite (nth_replace i _ _ _ i E), Nat.eqb_refl; reflexivity|]. split; [repeat split | lia].
        -- rewrite fs_set_other in Hf by congruence. destruct (Hc (dir e) n' f Hf k Hk) as [H|H]; [auto|]. right. apply Keep; [congruence | exact H].
        -- rewrite fs_set_other in Hf by congruence. destruct (Hc d n' f Hf k Hk) as [H|H]; [auto|]. right. apply Keep; [congruence | exact H].
    + apply Quiet; intros d n0 off [H _]; discriminate H.
    + apply Quiet; intros d n0 off [H _]; discriminate H.
Qed.
Lemma run_covered t m : crash_free t -> machine_ok m -> opened m -> covered m -> machine_ok (run t m) /\ opened (run t m) /\ covered (run t m).
Proof.
  intros Ht. revert m. induction Ht as [|a t Ha Ht IH]; intros m H1 H2 H3; [auto|]. apply IH; [apply act_ok, H1 | apply act_opened, H2 | apply act_covered; assumption].
Qed.
(** When nobody is writing, all files are complete. *)
Lemma quiescent_sound s t : sound s -> crash_free t ->
  (forall i p off, nth_error (m_procs (run t (Machine s []))) i = Some p -> p_at p <> Writing off) -> sound (m_fs (run t (Machine s []))).
Proof.
  intros Hs Ht Hq. destruct (run_covered t (Machine s []) Ht) as (A & _ & C).
  - apply start_ok, Hs.
  - intros i p d n off H. destruct i; discriminate H.
  - intros d n f Hf i _. cbn in Hf. rewrite (Hs d n f Hf). auto.
  - intros d n f Hf. destruct A as [A _]. destruct (A d n f Hf) as [Hlen _]. specialize (C d n f Hf).
    assert (E : forall i, nth_error f i = nth_error (image n) i).
    { intros i. destruct (Nat.lt_ge_cases i (length (image n))) as [H|H].
      - destruct (C i H) as [G|(j & p & off & Hj & (W & _) & _)]; [exact G|]. destruct (Hq j p off Hj W).
      - rewrite (proj2 (nth_error_None f i)) by lia. rewrite (proj2 (nth_error_None (image n) i)) by lia. reflexivity. }
    clear -E. revert E. generalize (image n) as g. induction f as [|c f IH]; intros g E; destruct g as [|c' g]; [reflexivity | discriminate (E 0%nat) | discriminate (E 0%nat)|].
    pose proof (E 0%nat) as E0. cbn in E0. injection E0 as ->. f_equal. apply IH. intros i. apply (E (S i)).
Qed.

(** ** A process running alone does what get_coulomb_elements does *)
Lemma write_prefix n off cs : (off + length cs <= length (image n))%nat -> (forall i c, nth_error cs i = Some c -> nth_error (image n) (off + i) = Some c) ->
  write_at (firstn off (image n)) off cs = firstn (off + length cs) (image n).
Proof.
  intros H Hc. assert (HL : length (firstn off (image n)) = off) by (rewrite firstn_length; lia).
  assert (X : forall {A} (f g : list A), (forall i, nth_error f i = nth_error g i) -> f = g).
  { clear. intros A f. induction f as [|c f IH]; intros g E; destruct g as [|c' g]; [reflexivity | discriminate (E 0%nat) | discriminate (E 0%nat)|].
    pose proof (E 0%nat) as E0. cbn in E0. injection E0 as ->. f_equal. apply IH. intros i. apply (E (S i)). }
  assert (F : forall {A} (l : list A) k j, (j < k)%nat -> nth_error (firstn k l) j = nth_error l j).
  { clear. induction l as [|x l IH]; intros k j H; [rewrite firstn_nil; reflexivity|]. destruct k; [lia|]. destruct j; [reflexivity|]. cbn. apply IH. lia. }
  apply X. intros i. rewrite nth_write, HL. destruct (Nat.ltb_spec i off).
  - rewrite !F by lia. reflexivity.
  - destruct (Nat.ltb_spec i (off + length cs)).
    + rewrite F by lia. destruct (nth_error cs (i - off)) as [c|] eqn:E; [|apply nth_error_None in E; lia]. apply Hc in E. replace (off + (i - off))%nat with i in E by lia. auto.
    + rewrite (proj2 (nth_error_None (firstn off (image n)) i)) by lia. symmetry. apply nth_error_None. rewrite firstn_length. lia.
Qed.
(** The states of a lone writer. *)
Inductive alone (e : setting) (n : nat) (s : fs) : machine -> Prop :=
| al_begin : alone e n s (Machine s [Process e n Begin])
| al_computed : s (dir e) n = None -> cached e = true -> alone e n s (Machine s [Process e n Computed])
| al_writing s' off : s (dir e) n = None -> cached e = true -> writable e = true -> (off <= length (image n))%nat ->
    s' (dir e) n = Some (firstn off (image n)) -> (forall d k, (d, k) <> (dir e, n) -> s' d k = s d k) ->
    alone e n s (Machine s' [Process e n (Writing off)])
| al_found f : s (dir e) n = Some f -> cached e = true -> alone e n s (Machine s [Process e n Found])
| al_done r s' : r = fst (get_coulomb_elements e n s) -> (forall d k, s' d k = snd (get_coulomb_elements e n s) d k) ->
    alone e n s (Machine s' [Process e n (Returned r)]).
Lemma alone_step e n s m chunk : alone e n s m -> alone e n s (act (Run 0 chunk) m).
Proof.
  intros H. destruct H as [|H1 H2|s' off H1 H2 H3 H4 H5 H6|f H1 H2|r s' H1 H2]; cbn [act nth_error m_procs m_fs].
  - unfold advance. cbn [p_at p_env p_n]. destruct (cached e) eqn:C; cbn.
    + destruct (s (dir e) n) as [f|] eqn:E; [apply (al_found e n s f E C) | apply (al_computed e n s E C)].
    + apply al_done; unfold get_coulomb_elements; rewrite C; reflexivity.
  - unfold advance. cbn [p_at p_env p_n]. destruct (writable e) eqn:W; cbn.
    + apply al_writing; try assumption; [lia | apply fs_set_same | intros; apply fs_set_other; assumption].
    + apply al_done; unfold get_coulomb_elements; rewrite H2; cbn; unfold bind, get_st; rewrite H1, W; reflexivity.
  - unfold advance. cbn [p_at p_env p_n].
    pose proof (firstn_length (S chunk) (skipn off (image n))) as HL. rewrite skipn_length in HL.
    pose proof (firstn_skipn_nth (image n) off (S chunk)) as HN.
    destruct (firstn (S chunk) (skipn off (image n))) as [|c0 cs0] eqn:Ecs.
    + assert (Hoff : off = length (image n)) by (cbn [length] in HL; lia). cbn [replace_at].
      apply al_done; unfold get_coulomb_elements; rewrite H2; cbn [negb]; unfold bind, get_st; rewrite H1, H3; cbn; [reflexivity|].
      intros d k. destruct (Nat.eq_dec d (dir e)) as [->|]; [destruct (Nat.eq_dec k n) as [->|]|].
      * rewrite H5, fs_set_same, Hoff, firstn_all. reflexivity.
      * rewrite fs_set_other by congruence. apply H6. congruence.
      * rewrite fs_set_other by congruence. apply H6. congruence.
    + set (cs := c0 :: cs0) in *. cbn [replace_at]. rewrite H5. apply al_writing; try assumption; [lia| |].
      * rewrite fs_set_same. f_equal. apply write_prefix; [lia | exact HN].
      * intros d k Hne. rewrite fs_set_other by exact Hne. apply H6. exact Hne.
  - unfold advance. cbn [p_at p_env p_n]. rewrite H1. cbn. apply al_done; unfold get_coulomb_elements; rewrite H2; cbn; unfold bind, get_st; rewrite H1; reflexivity.
  - cbn. apply al_done; assumption.
Qed.
Lemma alone_run e n s ks : alone e n s (run (Spawn e n :: map (Run 0) ks) (Machine s [])).
Proof.
  cbn [run fold_left act m_fs m_procs app]. assert (H : alone e n s (Machine s [Process e n Begin])) by apply al_begin.
  revert H. generalize (Machine s [Process e n Begin]) as m. induction ks as [|k ks IH]; intros m H; [exact H|]. apply IH. apply alone_step. exact H.
Qed.
Lemma alone_result e n s ks r :
  (exists p, nth_error (m_procs (run (Spawn e n :: map (Run 0) ks) (Machine s []))) 0 = Some p /\ p_at p = Returned r) -> r = fst (get_coulomb_elements e n s).
Proof.
  intros (p & Hp & Hr). destruct (alone_run e n s ks) as [|H1 H2|s' off H1 H2 H3 H4 H5 H6|f H1 H2|r' s' H1 H2]; cbn in Hp; injection Hp as <-; cbn in Hr; try discriminate Hr. injection Hr as <-. exact H1.
Qed.

(** ** C46: a crash while writing poisons the cache *)
Lemma load_partial n off : (off < length (image n))%nat -> np_load (firstn off (image n)) = Err ValueError.
Proof.
  intros H. destruct off as [|off]; [reflexivity|]. unfold image in *. cbn [firstn]. cbn [length] in H. rewrite map_length in H. unfold np_load.
  rewrite firstn_length, map_length. destruct (Nat.leb_spec (length (coulomb_array n)) (Nat.min off (length (coulomb_array n)))); [lia | reflexivity].
Qed.
Lemma poisoned h s d n f : s d n = Some f -> np_load f = Err ValueError ->
  snd (calls h s) d n = Some f /\
  forall i e, nth_error h i = Some (e, n) -> cached e = true -> dir e = d -> nth_error (fst (calls h s)) i = Some (Err ValueError).
Proof.
  revert s. induction h as [|[e k] h IH]; intros s Hf Hl; cbn [calls]; [split; [exact Hf | intros i e H; destruct i; discriminate H]|].
  assert (Keep : snd (get_coulomb_elements e k s) d n = Some f).
  { unfold get_coulomb_elements. destruct (cached e); cbn; [|exact Hf]. unfold bind, get_st. destruct (s (dir e) k) as [f'|] eqn:E; cbn; [exact Hf|].
    destruct (writable e); cbn; [|exact Hf]. rewrite fs_set_other; [exact Hf|]. intros [= -> ->]. congruence. }
  assert (Bad : k = n -> cached e = true -> dir e = d -> fst (get_coulomb_elements e k s) = Err ValueError).
  { intros -> C D. unfold get_coulomb_elements. rewrite C. cbn. unfold bind, get_st. rewrite D, Hf. exact Hl. }
  destruct (get_coulomb_elements e k s) as [r s1]. cbn [fst snd] in Keep, Bad. destruct (IH s1 Keep Hl) as [A B]. destruct (calls h s1) as [rs s2]. cbn [fst snd] in *. split; [exact A|].
  intros i e' Hi Hc Hd. destruct i as [|i]; cbn in Hi |- *; [injection Hi as -> ->; rewrite Bad by auto; reflexivity | apply (B i e'); assumption].
Qed.
Lemma crash_poisons e n s ks h off : s (dir e) n = None ->
  let m := run (Spawn e n :: map (Run 0) ks) (Machine s []) in
  nth_error (m_procs m) 0 = Some (Process e n (Writing off)) -> (off < length (image n))%nat ->
  forall i e', nth_error h i = Some (e', n) -> cached e' = true -> dir e' = dir e ->
  nth_error (fst (calls h (m_fs (act (Crash 0) m)))) i = Some (Err ValueError).
Proof.
  intros Hn m Hp Hoff i e' Hi Hc Hd. pose proof (alone_run e n s ks) as A. fold m in A.
  destruct A as [|H1 H2|s' off' H1 H2 H3 H4 H5 H6|f H1 H2|r' s' H1 H2]; cbn in Hp; try discriminate Hp. injection Hp as ->.
  cbn [act nth_error m_procs m_fs]. eapply (poisoned h s' (dir e) n); [exact H5 | apply load_partial; exact Hoff | exact Hi | exact Hc | exact Hd].
Qed.
