(** Orbital numbering and shells: C40, C41. *)
From Coq Require Import List Arith ZArith Lia Bool.
From Verif Require Import Py TwoDim.
Import ListNotations.
Open Scope Z_scope.

Lemma sum_range_id len a acc : 2 * sum_range a len (fun i => i) acc = 2 * acc + Z.of_nat len * (2 * a + Z.of_nat len - 1).
Proof. revert a acc. induction len as [|k IH]; intros a acc; cbn [sum_range]; [lia|]. rewrite IH. nia. Qed.

(** Shell k holds the orbitals k(k-1)/2 <= p < k(k+1)/2. *)
Lemma shell_loop_ok fuel p previous current counter :
  1 <= counter -> 2 * previous = counter * (counter - 1) -> current = previous + counter -> previous <= p ->
  p - current < Z.of_nat fuel -> 
  exists k, shell_loop fuel p previous current counter = Some (k * (k - 1) / 2, k * (k - 1) / 2 + k, k) /\
    1 <= k /\ k * (k - 1) <= 2 * p < k * (k + 1).
Proof.
  revert previous current counter. induction fuel as [|f IH]; intros pr cu co H1 H2 H3 H4 H5; cbn [shell_loop];
    (destruct (Z.leb_spec cu p); [|exists co; split; [|nia]; repeat f_equal; [|subst cu]; replace (co * (co - 1)) with (pr * 2) by lia;
       rewrite Z.div_mul by lia; lia]).
  - lia.
  - apply IH; nia.
Qed.
Lemma shell_even k : exists t, k * (k - 1) = 2 * t.
Proof. destruct (Z.Even_or_Odd k) as [[a Ha]|[a Ha]]; [exists (a * (k - 1)) | exists (k * a)]; subst k; ring. Qed.
Lemma shell_mono k k' : 1 <= k -> k + 1 <= k' -> k * (k + 1) <= k' * (k' - 1).
Proof. intros. apply Z.le_trans with ((k + 1) * (k' - 1)); [rewrite Z.mul_comm; apply Z.mul_le_mono_nonneg_l; lia | apply Z.mul_le_mono_nonneg_r; lia]. Qed.
Lemma shell_unique p k k' : 1 <= k -> 1 <= k' -> k * (k - 1) <= 2 * p < k * (k + 1) -> k' * (k' - 1) <= 2 * p < k' * (k' + 1) -> k = k'.
Proof.
  intros H H' A B. destruct (Z.lt_trichotomy k k') as [L|[L|L]]; [|exact L|];
    [pose proof (shell_mono k k' H ltac:(lia)) | pose proof (shell_mono k' k H' ltac:(lia))]; lia.
Qed.
Lemma get_indices_ok p : 0 <= p ->
  exists k t n m, get_indices_nm p = Some (n, m) /\ 1 <= k /\ k * (k - 1) = 2 * t /\ t <= p < t + k /\
    m = 2 * (p - t) - (k - 1) /\ 2 * n + Z.abs m + 1 = k /\ 0 <= n.
Proof.
  intros Hp. unfold get_indices_nm.
  destruct (shell_loop_ok (Z.to_nat p) p 0 1 1) as (k & E & Hk & Hs); try lia. rewrite E.
  destruct (shell_even k) as (t & Ht). rewrite Ht. rewrite (Z.mul_comm 2 t), Z.div_mul by lia.
  replace (t + k - t) with k by ring. exists k, t.
  replace (k + 2 * t) with (k + t * 2) by ring. rewrite Z.div_add by lia.
  pose proof (Z.div_mod k 2 ltac:(lia)) as D. pose proof (Z.mod_pos_bound k 2 ltac:(lia)) as B.
  destruct (Z.odd k) eqn:Eo; cbn [andb].
  - rewrite Zodd_mod in Eo. apply Zeq_bool_eq in Eo. destruct (Z.eqb_spec p (k / 2 + t)).
    + exists (k / 2), 0. split; [reflexivity|]. lia.
    + destruct (Z.ltb_spec (2 * p) (k + t * 2)); do 2 eexists; (split; [reflexivity|]); lia.
  - destruct (Z.ltb_spec (2 * p) (k + t * 2)); do 2 eexists; (split; [reflexivity|]); lia.
Qed.
Lemma get_index_ok n m t : 0 <= n -> (2 * n + Z.abs m + 1) * (2 * n + Z.abs m) = 2 * t ->
  2 * (get_index_p n m - t) = m + (2 * n + Z.abs m).
Proof.
  intros Hn Ht. unfold get_index_p.
  pose proof (sum_range_id (Z.to_nat (2 * n + Z.abs m + 1 - 1)) 1 0) as S.
  set (pr := sum_range _ _ _ _) in *. rewrite Z2Nat.id in S by lia.
  assert (Epr : pr = t) by nia. rewrite Epr. clear S pr Epr.
  replace (t + (2 * n + Z.abs m + 1) - t) with (2 * n + Z.abs m + 1) by ring.
  destruct (Z.eqb_spec m 0) as [->|Hm].
  - change (Z.abs 0) with 0 in *. destruct (Z.eqb_spec n 0) as [->|]; [lia|].
    replace (2 * n + 0 + 1) with (1 + n * 2) by ring. rewrite Z.div_add by lia. change (1 / 2) with 0. lia.
  - destruct (Z.ltb_spec m 0); lia.
Qed.
(** C40 *)
Lemma indices_of_index n m : 0 <= n -> get_indices_nm (get_index_p n m) = Some (n, m).
Proof.
  intros Hn. destruct (shell_even (2 * n + Z.abs m + 1)) as (t & Ht).
  pose proof (get_index_ok n m t Hn) as G. specialize (G ltac:(lia)). set (p := get_index_p n m) in *.
  assert (Ht0 : 0 <= t) by nia.
  destruct (get_indices_ok p) as (k & t' & n' & m' & E & Hk & Ht' & Hp & Em & En & Hn'); [lia|]. rewrite E.
  set (k0 := 2 * n + Z.abs m + 1) in *.
  assert (k = k0) by (apply (shell_unique p); lia). subst k. assert (t' = t) by lia. subst t'. assert (m' = m) by lia. subst m'. do 2 f_equal. lia.
Qed.
Lemma index_of_indices p : 0 <= p -> exists n m, get_indices_nm p = Some (n, m) /\ 0 <= n /\ get_index_p n m = p.
Proof.
  intros Hp. destruct (get_indices_ok p Hp) as (k & t & n & m & E & Hk & Ht & Hpt & Em & En & Hn).
  exists n, m. split; [exact E|]. split; [exact Hn|].
  pose proof (get_index_ok n m t Hn) as G. rewrite En in G. specialize (G ltac:(lia)). lia.
Qed.
Lemma index_nonneg n m : 0 <= n -> 0 <= get_index_p n m.
Proof.
  intros Hn. destruct (shell_even (2 * n + Z.abs m + 1)) as (t & Ht).
  pose proof (get_index_ok n m t Hn ltac:(lia)). nia.
Qed.
(** C41 *)
Lemma diagonal_shell p k : 0 <= p -> 1 <= k ->
  (one_body_diagonal p = Some k <-> k * (k - 1) <= 2 * p < k * (k + 1)).
Proof.
  intros Hp Hk. unfold one_body_diagonal.
  destruct (get_indices_ok p Hp) as (k' & t & n & m & E & Hk' & Ht & Hpt & Em & En & Hn). rewrite E. unfold get_shell_energy. rewrite En.
  split; [intros [= <-]; lia | intros H; f_equal; apply (shell_unique p); lia].
Qed.
Lemma diagonal_defined p : 0 <= p -> exists k, one_body_diagonal p = Some k /\ 1 <= k.
Proof.
  intros Hp. unfold one_body_diagonal.
  destruct (get_indices_ok p Hp) as (k' & t & n & m & E & Hk' & Ht & Hpt & Em & En & Hn). rewrite E.
  eexists. split; [reflexivity|]. unfold get_shell_energy. lia.
Qed.
Lemma diagonal_monotone p q k k' : 0 <= p <= q -> one_body_diagonal p = Some k -> one_body_diagonal q = Some k' -> k <= k'.
Proof.
  intros H E1 E2.
  destruct (diagonal_defined p) as (k1 & F1 & G1); [lia|]. destruct (diagonal_defined q) as (k2 & F2 & G2); [lia|].
  rewrite E1 in F1. injection F1 as <-. rewrite E2 in F2. injection F2 as <-.
  apply diagonal_shell in E1; [|lia|lia]. apply diagonal_shell in E2; [|lia|lia].
  destruct (Z.le_gt_cases k k') as [L|L]; [exact L|]. pose proof (shell_mono k' k G2 ltac:(lia)). lia.
Qed.
(** The k orbitals of shell k are consecutive. *)
Lemma shell_interval k : 1 <= k -> exists first, 0 <= first /\ 2 * first = k * (k - 1) /\
  forall p, 0 <= p -> (one_body_diagonal p = Some k <-> first <= p < first + k).
Proof.
  intros Hk. destruct (shell_even k) as (t & Ht). exists t. split; [nia|]. split; [lia|].
  intros p Hp. rewrite diagonal_shell by assumption. lia.
Qed.
