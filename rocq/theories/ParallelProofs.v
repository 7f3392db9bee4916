(** The parallel loop gives the same array for every schedule. *)
From Coq Require Import List Arith ZArith Reals Lia Bool Sorting.Permutation.
From Verif Require Import TwoDim Coulomb Cache Parallel ParallelSpec.
Import ListNotations.
Open Scope nat_scope.

Section Proofs.
  Context {V : Type}.
  Variables (zero : V) (indices : nat -> Z * Z) (element : Z * Z -> Z * Z -> Z * Z -> Z * Z -> V) (n : nat).
  Notation cells := (nat -> nat -> nat -> nat -> V).
  Notation act := (action indices element n).
  Notation turn := (turn indices element n).
  Notation execute := (execute indices element n).
  Let value p q r s : V := element (indices p) (indices q) (indices r) (indices s).

  (** Registers are what they should be *)
  Definition control_ok (c : control) : Prop :=
    match c with
    | NextP => True
    | NextQ p np q => np = indices p /\ q <= n
    | NextR p np q nq r => np = indices p /\ nq = indices q /\ q < n /\ r <= n
    | NextS p np q nq r nr s => np = indices p /\ nq = indices q /\ nr = indices r /\ q < n /\ r < n /\ s <= n
    | Store p np q nq r nr s v => np = indices p /\ nq = indices q /\ nr = indices r /\ q < n /\ r < n /\ s < n /\ v = value p q r s
    end.
  Definition current (c : control (V := V)) : list nat :=
    match c with NextP => [] | NextQ p _ _ | NextR p _ _ _ _ | NextS p _ _ _ _ _ _ | Store p _ _ _ _ _ _ _ => [p] end.
  (** The cells of row p still to be written *)
  Definition ahead (c : control (V := V)) (p q r s : nat) : Prop :=
    match c with
    | NextP => False
    | NextQ p' _ q' => p = p' /\ q' <= q
    | NextR p' _ q' _ r' => p = p' /\ (q' < q \/ (q' = q /\ r' <= r))
    | NextS p' _ q' _ r' _ s' | Store p' _ q' _ r' _ s' _ => p = p' /\ (q' < q \/ (q' = q /\ (r' < r \/ (r' = r /\ s' <= s))))
    end.
  Definition pending (t : thread) p q r s : Prop := In p (queue t) \/ ahead (at_ t) p q r s.
  Definition claims (t : thread (V := V)) : list nat := current (at_ t) ++ queue t.

  Lemma store_hit (u : cells) p q r s (v : V) : store u p q r s v p q r s = v.
  Proof. unfold store. rewrite !Nat.eqb_refl. reflexivity. Qed.
  Lemma store_miss (u : cells) p q r s v p' q' r' s' : (p', q', r', s') <> (p, q, r, s) -> store u p q r s v p' q' r' s' = u p' q' r' s'.
  Proof.
    intros H. unfold store. destruct (p' =? p) eqn:A, (q' =? q) eqn:B, (r' =? r) eqn:C, (s' =? s) eqn:D; try reflexivity.
    apply Nat.eqb_eq in A, B, C, D. subst. congruence.
  Qed.
  Lemma cell_dec (a b : nat * nat * nat * nat) : {a = b} + {a <> b}.
  Proof. repeat decide equality. Qed.

  (** One action *)
  Lemma action_ok t u t' u' : act t u = Some (t', u') -> control_ok (at_ t) ->
    control_ok (at_ t') /\
    (forall p q r s, p < n -> q < n -> r < n -> s < n -> pending t p q r s -> pending t' p q r s \/ u' p q r s = value p q r s) /\
    (forall p q r s, u' p q r s = u p q r s \/ u' p q r s = value p q r s) /\
    (exists l, claims t = l ++ claims t') .
  Proof.
    destruct t as [qu c]. unfold action, pending, claims. cbn [queue at_]. destruct c as [|p np q|p np q nq r|p np q nq r nr s|p np q nq r nr s v]; cbn [control_ok ahead current].
    - destruct qu as [|p rest]; [discriminate|]. intros [= <- <-] _. cbn [queue at_ control_ok ahead current]. split; [auto with arith|].
      split; [|split; [auto | exists []; reflexivity]]. intros p0 q r s _ _ _ _ [[-> | H]|[]]; [left; right; auto with arith | left; left; exact H].
    - intros E [-> Hq]. destruct (Nat.ltb_spec q n) as [L|L]; injection E as <- <-; cbn [queue at_ control_ok ahead current].
      + split; [auto with arith|]. split; [|split; [auto | exists []; reflexivity]]. intros p0 q0 r s _ _ _ _ [H|[-> H]]; [tauto|]. left. right. split; [reflexivity|]. lia.
      + split; [exact I|]. split; [|split; [auto | exists [p]; reflexivity]]. intros p0 q0 r s _ Hq0 _ _ [H|[-> H]]; [tauto|]. lia.
    - intros E (-> & -> & Hq & Hr). destruct (Nat.ltb_spec r n) as [L|L]; injection E as <- <-; cbn [queue at_ control_ok ahead current].
      + split; [auto 6 with arith|]. split; [|split; [auto | exists []; reflexivity]]. intros p0 q0 r0 s _ _ _ _ [H|[-> H]]; [tauto|]. left. right. split; [reflexivity|]. lia.
      + split; [auto with arith|]. split; [|split; [auto | exists []; reflexivity]]. intros p0 q0 r0 s _ _ Hr0 _ [H|[-> H]]; [tauto|]. left. right. split; [reflexivity|]. lia.
    - intros E (-> & -> & -> & Hq & Hr & Hs). destruct (Nat.ltb_spec s n) as [L|L]; injection E as <- <-; cbn [queue at_ control_ok ahead current].
      + split; [repeat (split; [solve [reflexivity | assumption]|]); reflexivity|]. split; [|split; [auto | exists []; reflexivity]]. intros p0 q0 r0 s0 _ _ _ _ H. left. exact H.
      + split; [auto 6 with arith|]. split; [|split; [auto | exists []; reflexivity]]. intros p0 q0 r0 s0 _ _ _ Hs0 [H|[-> H]]; [tauto|]. left. right. split; [reflexivity|]. lia.
    - intros E (-> & -> & -> & Hq & Hr & Hs & ->). injection E as <- <-. cbn [queue at_ control_ok ahead current]. split; [auto 8 with arith|]. split; [|split].
      + intros p0 q0 r0 s0 _ _ _ _ [H|[-> H]]; [tauto|]. destruct (cell_dec (p, q0, r0, s0) (p, q, r, s)) as [[= -> -> ->]|N]; [right; apply store_hit|].
        left. right. split; [reflexivity|]. assert (~ (q0 = q /\ r0 = r /\ s0 = s)) by (intros (-> & -> & ->); congruence). lia.
      + intros p0 q0 r0 s0. destruct (cell_dec (p0, q0, r0, s0) (p, q, r, s)) as [[= -> -> -> ->]|N]; [right; apply store_hit | left; apply store_miss; exact N].
      + exists []. reflexivity.
  Qed.

  (** Lists of threads *)
  Lemma set_nth_forall (P : thread (V := V) -> Prop) t ts : forall i, Forall P ts -> P t -> Forall P (set_nth i t ts).
  Proof. induction ts as [|x ts IH]; intros i H Ht; [constructor|]. inversion H; subst. destruct i; cbn; constructor; auto. Qed.
  Lemma set_nth_exists (P Q : thread (V := V) -> Prop) t t0 ts : forall i, nth_error ts i = Some t0 -> (P t0 -> Q t) -> (forall x, P x -> Q x) ->
    Exists P ts -> Exists Q (set_nth i t ts).
  Proof.
    induction ts as [|x ts IH]; intros i E H1 H2 Hx; [inversion Hx|]. destruct i; cbn in *.
    - injection E as ->. inversion Hx; subst; [left; auto | right]. eapply Exists_impl; eauto.
    - inversion Hx; subst; [left; auto | right; eapply IH; eauto].
  Qed.
  Lemma set_nth_concat t t0 ts : forall i, nth_error ts i = Some t0 -> (exists l, claims t0 = l ++ claims t) ->
    NoDup (concat (map claims ts)) -> NoDup (concat (map claims (set_nth i t ts))).
  Proof.
    intros i E (l & El). enough (H : exists a b, concat (map claims ts) = a ++ claims t0 ++ b /\ concat (map claims (set_nth i t ts)) = a ++ claims t ++ b).
    { destruct H as (a & b & -> & ->). rewrite El. intros N. clear - N. rewrite <- app_assoc in N. induction l as [|x l IH]; cbn in N; [exact N|].
      apply NoDup_remove_1 in N. auto. }
    revert i E. induction ts as [|x ts IH]; intros i E; [destruct i; discriminate|]. destruct i; cbn in *.
    - injection E as ->. exists [], (concat (map claims ts)). split; reflexivity.
    - destruct (IH i E) as (a & b & H1 & H2). exists (claims x ++ a), b. rewrite H1, H2, <- !app_assoc. split; reflexivity.
  Qed.

  (** The state of the pool *)
  Record good (m : pool) : Prop := Good {
    g_control : Forall (fun t => control_ok (at_ t)) (threads m);
    g_cells : forall p q r s, shared m p q r s = zero \/ shared m p q r s = value p q r s;
    g_all : forall p q r s, p < n -> q < n -> r < n -> s < n -> shared m p q r s = value p q r s \/ Exists (fun t => pending t p q r s) (threads m);
    g_apart : NoDup (concat (map claims (threads m))) }.

  Lemma launch_good shares : dealt n shares -> good (launch zero shares).
  Proof.
    intros H. unfold launch. constructor; cbn [threads shared].
    - apply Forall_forall. intros t Ht. apply in_map_iff in Ht as (x & <- & _). exact I.
    - auto.
    - intros p q r s Hp _ _ _. right. assert (I0 : In p (concat shares)) by (apply (Permutation_in p (Permutation_sym H)); apply in_seq; lia).
      apply in_concat in I0 as (ps & I1 & I2). apply Exists_exists. exists (Thread ps NextP). split; [apply in_map_iff; exists ps; auto | left; exact I2].
    - rewrite map_map. unfold claims. cbn. rewrite map_id. apply (Permutation_NoDup (Permutation_sym H)), seq_NoDup.
  Qed.
  Lemma turn_good i m : good m -> good (turn i m).
  Proof.
    intros G. unfold Parallel.turn. destruct (nth_error (threads m) i) as [t|] eqn:E; [|exact G]. destruct (act t (shared m)) as [[t' u']|] eqn:A; [|exact G].
    assert (Ct : control_ok (at_ t)) by (apply (proj1 (Forall_forall _ _) (g_control m G)); eapply nth_error_In; eauto).
    destruct (action_ok _ _ _ _ A Ct) as (C' & Pn & U & L). constructor; cbn [threads shared].
    - apply set_nth_forall; [apply (g_control m G) | exact C'].
    - intros p q r s. destruct (U p q r s) as [-> | ->]; [apply (g_cells m G) | right; reflexivity].
    - intros p q r s Hp Hq Hr Hs. destruct (U p q r s) as [Eu | Eu]; [|left; exact Eu]. destruct (g_all m G p q r s Hp Hq Hr Hs) as [H|H]; [left; congruence|].
      apply (set_nth_exists _ (fun x => pending x p q r s \/ u' p q r s = value p q r s) t' t _ i E) in H; [| intros K; apply Pn; assumption | auto].
      apply Exists_exists in H as (x & I1 & [I2|I2]); [right; apply Exists_exists; exists x; auto | left; exact I2].
    - eapply set_nth_concat; [exact E | exact L | apply (g_apart m G)].
  Qed.
  Lemma execute_good sched : forall m, good m -> good (execute sched m).
  Proof. unfold Parallel.execute. induction sched as [|i sched IH]; intros m G; cbn; [exact G | apply IH, turn_good, G]. Qed.

  Theorem any_schedule shares sched : dealt n shares -> finished (execute sched (launch zero shares)) = true ->
    holds_values n (shared (execute sched (launch zero shares))) value.
  Proof.
    intros D F p q r s Hp Hq Hr Hs. pose proof (execute_good sched _ (launch_good shares D)) as G.
    destruct (g_all _ G p q r s Hp Hq Hr Hs) as [H|H]; [exact H|]. apply Exists_exists in H as (t & I1 & I2).
    apply (proj1 (forallb_forall _ _) F) in I1. destruct t as [qu c]. unfold done in I1. cbn in I1. destruct qu; [|discriminate]. destruct c; try discriminate. destruct I2 as [[]|[]].
  Qed.
  Theorem no_garbage shares sched p q r s : dealt n shares ->
    shared (execute sched (launch zero shares)) p q r s = zero \/ shared (execute sched (launch zero shares)) p q r s = value p q r s.
  Proof. intros D. apply (g_cells _ (execute_good sched _ (launch_good shares D))). Qed.

  Lemma claims_apart ts : NoDup (concat (map claims ts)) -> forall i j t t' (p : nat), nth_error ts i = Some t -> nth_error ts j = Some t' -> i <> j ->
    In p (claims t) -> In p (claims t') -> False.
  Proof.
    assert (D : forall (l1 l2 : list nat) x, NoDup (l1 ++ l2) -> In x l1 -> In x l2 -> False).
    { induction l1 as [|a l1 IH]; intros l2 x N I1 I2; [destruct I1|]. cbn in N. inversion N; subst. destruct I1 as [-> | I1]; [apply H1, in_or_app; auto | eapply IH; eauto]. }
    assert (K : forall (ts : list (thread (V := V))) i t p, nth_error ts i = Some t -> In p (claims t) -> In p (concat (map claims ts))).
    { intros ts0 i t p E I0. apply in_concat. exists (claims t). split; [apply in_map; eapply nth_error_In; eauto | exact I0]. }
    assert (T : forall (l1 l2 : list nat), NoDup (l1 ++ l2) -> NoDup l2) by (induction l1; intros l2 N; [exact N | inversion N; auto]).
    induction ts as [|x ts IH]; intros N i j t t' p Ei Ej Hij I1 I2; [destruct i; discriminate|]. cbn in N.
    destruct i, j; cbn in Ei, Ej; [lia | | |].
    - injection Ei as ->. eapply D; [exact N | exact I1 | eapply K; eauto].
    - injection Ej as ->. eapply D; [exact N | exact I2 | eapply K; eauto].
    - eapply (IH (T _ _ N) i j t t' p); eauto.
  Qed.
  Theorem no_race shares sched i j t t' c : dealt n shares ->
    nth_error (threads (execute sched (launch zero shares))) i = Some t -> nth_error (threads (execute sched (launch zero shares))) j = Some t' ->
    target t = Some c -> target t' = Some c -> i = j.
  Proof.
    intros D Ei Ej T1 T2. destruct (Nat.eq_dec i j) as [|Hij]; [assumption|exfalso]. destruct c as [[[p q] r] s].
    assert (K : forall t : thread (V := V), target t = Some (p, q, r, s) -> In p (claims t)).
    { intros [qu []] H; try discriminate H. injection H as -> _ _ _. left. reflexivity. }
    eapply (claims_apart _ (g_apart _ (execute_good sched _ (launch_good shares D))) i j t t' p); eauto.
  Qed.

  (** Termination *)
  Let cs := 2 * n + 1.
  Let cr := n * (cs + 1) + 1.
  Let cq := n * (cr + 1) + 1.
  Definition left_in (c : control (V := V)) : nat :=
    match c with
    | NextP => 0
    | NextQ _ _ q => (n - q) * (cr + 1) + 1
    | NextR _ _ q _ r => (n - S q) * (cr + 1) + 1 + ((n - r) * (cs + 1) + 1)
    | NextS _ _ q _ r _ s => (n - S q) * (cr + 1) + 1 + ((n - S r) * (cs + 1) + 1) + (2 * (n - s) + 1)
    | Store _ _ q _ r _ s _ => (n - S q) * (cr + 1) + 1 + ((n - S r) * (cs + 1) + 1) + (2 * (n - s))
    end.
  Definition left_of (t : thread (V := V)) : nat := length (queue t) * (cq + 1) + left_in (at_ t).
  Lemma action_left t u t' u' : act t u = Some (t', u') -> control_ok (at_ t) -> left_of t = S (left_of t').
  Proof.
    destruct t as [qu c]. unfold action, left_of. cbn [queue at_]. destruct c as [|p np q|p np q nq r|p np q nq r nr s|p np q nq r nr s v]; cbn [control_ok left_in].
    - destruct qu as [|p rest]; [discriminate|]. intros [= <- <-] _. cbn [queue at_ left_in length]. unfold cq. rewrite Nat.sub_0_r. lia.
    - intros E [_ Hq]. destruct (Nat.ltb_spec q n); injection E as <- <-; cbn [queue at_ left_in].
      + replace (n - q) with (S (n - S q)) by lia. rewrite Nat.sub_0_r. change (n * (cs + 1) + 1) with cr. rewrite Nat.mul_succ_l. generalize ((n - S q) * (cr + 1)); intros X. lia.
      + replace (n - q) with 0 by lia. lia.
    - intros E (_ & _ & Hq & Hr). destruct (Nat.ltb_spec r n); injection E as <- <-; cbn [queue at_ left_in].
      + replace (n - r) with (S (n - S r)) by lia. rewrite Nat.sub_0_r. change (2 * n + 1) with cs. rewrite Nat.mul_succ_l. lia.
      + replace (n - r) with 0 by lia. lia.
    - intros E (_ & _ & _ & Hq & Hr & Hs). destruct (Nat.ltb_spec s n); injection E as <- <-; cbn [queue at_ left_in].
      + lia.
      + replace (n - s) with 0 by lia. lia.
    - intros E (_ & _ & _ & Hq & Hr & Hs & _). injection E as <- <-. cbn [queue at_ left_in]. lia.
  Qed.
  Lemma left_done t u : act t u = None -> done t = true.
  Proof.
    destruct t as [qu c]. unfold action, done. cbn. destruct c; [destruct qu; [reflexivity | discriminate]| | | |]; try discriminate.
    all: match goal with |- (if ?b then _ else _) = None -> _ => destruct b; discriminate end.
  Qed.
  Lemma left_zero t : left_of t = 0 -> done t = true.
  Proof. destruct t as [qu c]. unfold left_of, done. cbn [queue at_]. destruct qu; [|cbn [length Nat.mul]; lia].
    destruct c; [reflexivity| | | |]; intros H; exfalso; cbn [length left_in Nat.mul Nat.add] in H;
      repeat match goal with H : _ + _ = 0 |- _ => apply Nat.eq_add_0 in H as [? ?] end; discriminate.
  Qed.
  Lemma done_zero t : done t = true -> left_of t = 0.
  Proof. destruct t as [qu c]. unfold left_of, done. cbn. destruct qu; [|discriminate]. destruct c; try discriminate. reflexivity. Qed.

  Lemma set_nth_same t ts : forall i, i < length ts -> nth_error (set_nth (V := V) i t ts) i = Some t.
  Proof. induction ts as [|x ts IH]; intros i H; cbn in *; [lia|]. destruct i; cbn; [reflexivity | apply IH; lia]. Qed.
  Lemma set_nth_other t ts : forall i j, i <> j -> nth_error (set_nth (V := V) i t ts) j = nth_error ts j.
  Proof. induction ts as [|x ts IH]; intros i j H; cbn; [destruct i; reflexivity|]. destruct i, j; cbn; try reflexivity; [lia|]. apply IH. lia. Qed.
  Definition left_at (m : pool) (i : nat) : nat := match nth_error (threads m) i with Some t => left_of t | None => 0 end.
  Lemma turn_left i m j : good m -> left_at (turn i m) j = if i =? j then pred (left_at m j) else left_at m j.
  Proof.
    intros G. unfold Parallel.turn, left_at. destruct (nth_error (threads m) i) as [t|] eqn:E.
    - destruct (act t (shared m)) as [[t' u']|] eqn:A; cbn [threads].
      + destruct (Nat.eqb_spec i j) as [<- | H].
        * rewrite set_nth_same by (apply nth_error_Some; congruence). rewrite E. erewrite (action_left t); [reflexivity | exact A |].
          apply (proj1 (Forall_forall _ _) (g_control m G)). eapply nth_error_In; eauto.
        * rewrite set_nth_other by exact H. reflexivity.
      + destruct (Nat.eqb_spec i j) as [<- | H]; [|reflexivity]. rewrite E. rewrite (done_zero t (left_done t _ A)). reflexivity.
    - destruct (Nat.eqb_spec i j) as [<- | H]; [|reflexivity]. rewrite E. reflexivity.
  Qed.
  Lemma execute_left sched : forall m j, good m -> left_at (execute sched m) j = left_at m j - count_occ Nat.eq_dec sched j.
  Proof.
    unfold Parallel.execute. induction sched as [|i sched IH]; intros m j G; cbn [fold_left count_occ]; [lia|].
    rewrite IH by (apply turn_good, G). rewrite turn_left by exact G. destruct (Nat.eq_dec i j) as [<- | H]; [rewrite Nat.eqb_refl; lia|].
    apply Nat.eqb_neq in H. rewrite H. reflexivity.
  Qed.
  Lemma set_nth_length t ts : forall i, length (set_nth (V := V) i t ts) = length ts.
  Proof. induction ts as [|x ts IH]; intros i; cbn; [reflexivity|]. destruct i; cbn; [reflexivity | rewrite IH; reflexivity]. Qed.
  Lemma execute_length sched : forall m, length (threads (execute sched m)) = length (threads m).
  Proof.
    unfold Parallel.execute. induction sched as [|i sched IH]; intros m; cbn [fold_left]; [reflexivity|]. rewrite IH. unfold Parallel.turn.
    destruct (nth_error (threads m) i) as [t|]; [|reflexivity]. destruct (act t (shared m)) as [[t' u']|]; [|reflexivity]. cbn. apply set_nth_length.
  Qed.
  (** A schedule is long enough exactly when every thread gets its number of turns. *)
  Definition turns_needed (k : nat) : nat := k * (cq + 1).
  Theorem finishes shares sched : dealt n shares ->
    (finished (execute sched (launch zero shares)) = true <->
     forall i ps, nth_error shares i = Some ps -> turns_needed (length ps) <= count_occ Nat.eq_dec sched i).
  Proof.
    intros D. pose proof (launch_good shares D) as G. set (m := launch zero shares) in *.
    assert (L0 : forall i ps, nth_error shares i = Some ps -> left_at m i = turns_needed (length ps)).
    { intros i ps E. unfold left_at, m, launch. cbn [threads]. rewrite nth_error_map, E. cbn. unfold left_of, turns_needed. cbn. lia. }
    assert (Len : length (threads (execute sched m)) = length shares) by (rewrite execute_length; unfold m, launch; cbn; apply map_length).
    unfold finished. rewrite forallb_forall. split.
    - intros F i ps E. pose proof (execute_left sched m i G) as X. rewrite (L0 i ps E) in X. unfold left_at in X.
      destruct (nth_error (threads (execute sched m)) i) as [t|] eqn:Et.
      + rewrite (done_zero t) in X by (apply F; eapply nth_error_In; eauto). lia.
      + apply nth_error_None in Et. assert (i < length shares) by (apply nth_error_Some; congruence). lia.
    - intros H t It. apply In_nth_error in It as (i & Et). apply left_zero.
      assert (Hi : i < length shares) by (rewrite <- Len; apply nth_error_Some; congruence). destruct (nth_error shares i) as [ps|] eqn:E; [|apply nth_error_None in E; lia].
      pose proof (execute_left sched m i G) as X. rewrite (L0 i ps E) in X. unfold left_at in X. rewrite Et in X. specialize (H i ps E). lia.
  Qed.
End Proofs.

(** The array that Cache.v works with *)
Lemma flat_ext {A B} (f g : A -> list B) l : (forall x, In x l -> f x = g x) -> flat_map f l = flat_map g l.
Proof. induction l as [|x l IH]; intros H; cbn; [reflexivity|]. rewrite H by (left; reflexivity). rewrite IH; [reflexivity|]. intros y Hy. apply H. right. exact Hy. Qed.
Lemma coulomb_parallel n shares sched : dealt n shares ->
  finished (execute shell_state coulomb_call n sched (launch 0%R shares)) = true ->
  in_order n (shared (execute shell_state coulomb_call n sched (launch 0%R shares))) = coulomb_array n.
Proof.
  intros D F. pose proof (any_schedule 0%R shell_state coulomb_call n shares sched D F) as H. unfold in_order, coulomb_array.
  apply flat_ext. intros p Hp. apply flat_ext. intros q Hq. apply flat_ext. intros r Hr. apply map_ext_in. intros s Hs.
  apply in_seq in Hp, Hq, Hr, Hs. rewrite H by lia. reflexivity.
Qed.
