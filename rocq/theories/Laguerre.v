(** Orthogonality of the Laguerre polynomials, as a statement about finite sums. *)
From Coq Require Import Reals Lra Lia Arith.
From Coquelicot Require Import Coquelicot.
From Verif Require Import Orbitals.
Open Scope R_scope.

Lemma sum_zero f n : (forall i, (i <= n)%nat -> f i = 0) -> sum_f_R0 f n = 0.
Proof. induction n as [|n IH]; intros H; cbn; [apply H; lia|]. rewrite IH by (intros; apply H; lia). rewrite H by lia. ring. Qed.
Lemma sum_ext f g n : (forall i, (i <= n)%nat -> f i = g i) -> sum_f_R0 f n = sum_f_R0 g n.
Proof. apply sum_eq. Qed.
Lemma sum_scal c f n : sum_f_R0 (fun i => c * f i) n = c * sum_f_R0 f n.
Proof. induction n as [|n IH]; cbn; [reflexivity|]. rewrite IH. ring. Qed.
Lemma sum_scal_r c f n : sum_f_R0 (fun i => f i * c) n = sum_f_R0 f n * c.
Proof. induction n as [|n IH]; cbn; [reflexivity|]. rewrite IH. ring. Qed.
Lemma sum_add f g n : sum_f_R0 (fun i => f i + g i) n = sum_f_R0 f n + sum_f_R0 g n.
Proof. induction n as [|n IH]; cbn; [reflexivity|]. rewrite IH. ring. Qed.
Lemma sum_swap (f : nat -> nat -> R) n m : sum_f_R0 (fun i => sum_f_R0 (f i) m) n = sum_f_R0 (fun j => sum_f_R0 (fun i => f i j) n) m.
Proof. induction n as [|n IH]; cbn [sum_f_R0]; [reflexivity|]. rewrite IH, <- sum_add. reflexivity. Qed.

(** Binomial coefficients *)
Fixpoint binom (n i : nat) : R :=
  match n, i with
  | _, O => 1
  | O, S _ => 0
  | S n, S i => binom n i + binom n (S i)
  end.
Lemma binom_above n i : (n < i)%nat -> binom n i = 0.
Proof. revert i. induction n as [|n IH]; intros [|i] H; cbn; try lia; [reflexivity|]. rewrite !IH by lia. ring. Qed.
Lemma fact_pos n : 0 < INR (fact n).
Proof. apply lt_0_INR, lt_O_fact. Qed.
Lemma fact_S n : INR (fact (S n)) = INR (S n) * INR (fact n).
Proof. rewrite <- mult_INR. reflexivity. Qed.
Lemma binom_0 n : binom n 0 = 1.
Proof. destruct n; reflexivity. Qed.
Lemma binom_diag n : binom n n = 1.
Proof. induction n as [|n IH]; [reflexivity|]. cbn. rewrite IH, binom_above by lia. ring. Qed.
Lemma binom_fact n i : (i <= n)%nat -> binom n i * (INR (fact i) * INR (fact (n - i))) = INR (fact n).
Proof.
  revert i. induction n as [|n IH]; intros [|i] H; try lia.
  - cbn. ring.
  - rewrite binom_0, Nat.sub_0_r. cbn [fact INR]. change (INR (fact 0)) with 1. ring.
  - cbn [binom]. change (S n - S i)%nat with (n - i)%nat. destruct (Nat.eq_dec i n) as [->|N].
    + rewrite binom_diag, binom_above, Nat.sub_diag by lia. change (INR (fact 0)) with 1. ring.
    + pose proof (IH i ltac:(lia)) as A. pose proof (IH (S i) ltac:(lia)) as B. replace (n - i)%nat with (S (n - S i)) in * by lia. rewrite !fact_S in *.
      replace (INR (S n)) with (INR (S i) + INR (S (n - S i))) by (rewrite <- plus_INR; f_equal; lia).
      transitivity (INR (S i) * (binom n i * (INR (fact i) * (INR (S (n - S i)) * INR (fact (n - S i))))) + INR (S (n - S i)) * (binom n (S i) * (INR (S i) * INR (fact i) * INR (fact (n - S i))))); [ring|].
      rewrite A, B. ring.
Qed.

(** Alternating binomial sums *)
Definition fd (n : nat) (f : nat -> R) : R := sum_f_R0 (fun i => (-1) ^ i * binom n i * f i) n.
Lemma fd_S n f : fd (S n) f = fd n f - fd n (fun i => f (S i)).
Proof.
  unfold fd. rewrite (decomp_sum _ (S n)) by lia. cbn [Nat.pred]. rewrite binom_0.
  rewrite (sum_ext (fun i => (-1) ^ S i * binom (S n) (S i) * f (S i)) (fun i => -1 * ((-1) ^ i * binom n i * f (S i)) + (-1) ^ S i * binom n (S i) * f (S i))) by (intros i _; cbn [binom pow]; ring).
  rewrite sum_add, sum_scal.
  replace (sum_f_R0 (fun i => (-1) ^ i * binom n i * f i) n) with (f 0%nat + sum_f_R0 (fun i => (-1) ^ S i * binom n (S i) * f (S i)) n); [cbn [pow]; ring|].
  transitivity (sum_f_R0 (fun i => (-1) ^ i * binom n i * f i) (S n)).
  - rewrite (decomp_sum _ (S n)) by lia. cbn [Nat.pred]. rewrite binom_0. cbn [pow]. ring.
  - cbn [sum_f_R0]. rewrite binom_above by lia. ring.
Qed.
Lemma fd_ext n f g : (forall i, (i <= n)%nat -> f i = g i) -> fd n f = fd n g.
Proof. intros H. apply sum_ext. intros i Hi. rewrite H by exact Hi. reflexivity. Qed.
Lemma fd_minus n f g : fd n (fun i => f i - g i) = fd n f - fd n g.
Proof.
  unfold fd. rewrite (sum_ext _ (fun i => (-1) ^ i * binom n i * f i + -1 * ((-1) ^ i * binom n i * g i))) by (intros; ring). rewrite sum_add, sum_scal. ring.
Qed.
Lemma fd_scal n c f : fd n (fun i => c * f i) = c * fd n f.
Proof. unfold fd. rewrite <- sum_scal. apply sum_ext. intros; ring. Qed.

(** (i + k + 1) (i + k + 2) ... (i + k + j) *)
Definition rising (j k i : nat) : R := INR (fact (i + k + j)) / INR (fact (i + k)).
Lemma rising_0 k i : rising 0 k i = 1.
Proof. unfold rising. rewrite Nat.add_0_r. field. pose proof (fact_pos (i + k)). lra. Qed.
Lemma rising_diff j k i : rising (S j) k (S i) - rising (S j) k i = INR (S j) * rising j (S k) i.
Proof.
  unfold rising. replace (S i + k + S j)%nat with (S (S (i + k + j))) by lia. replace (i + k + S j)%nat with (S (i + k + j)) by lia. replace (i + S k + j)%nat with (S (i + k + j)) by lia.
  replace (S i + k)%nat with (S (i + k)) by lia. replace (i + S k)%nat with (S (i + k)) by lia. rewrite (fact_S (i + k)). rewrite (fact_S (S (i + k + j))).
  pose proof (fact_pos (i + k)). pose proof (fact_pos (S (i + k + j))). assert (0 < INR (S (i + k))) by (apply lt_0_INR; lia).
  replace (INR (S (S (i + k + j)))) with (INR (S (i + k)) + INR (S j)) by (rewrite <- plus_INR; f_equal; lia). field. lra.
Qed.
Lemma fd_rising n : forall j k, (j <= n)%nat -> fd n (rising j k) = if (j =? n)%nat then (-1) ^ n * INR (fact n) else 0.
Proof.
  induction n as [|n IH]; intros j k Hj.
  - destruct j; [|lia]. unfold fd. cbn. rewrite rising_0. ring.
  - rewrite fd_S. replace (fd n (rising j k) - fd n (fun i => rising j k (S i))) with (- fd n (fun i => rising j k (S i) - rising j k i)) by (rewrite fd_minus; ring).
    destruct j as [|j].
    + rewrite (fd_ext _ _ (fun i => 0 * 1)) by (intros; rewrite !rising_0; ring). rewrite fd_scal. cbn [Nat.eqb]. ring.
    + rewrite (fd_ext _ _ (fun i => INR (S j) * rising j (S k) i)) by (intros; apply rising_diff). rewrite fd_scal, IH by lia. cbn [Nat.eqb].
      destruct (Nat.eqb_spec j n) as [->|N]; [|ring]. rewrite fact_S. cbn [pow]. ring.
Qed.

(** The coefficients *)
Definition lag (n k i : nat) : R := (-1) ^ i * (INR (fact (n + k)) / (INR (fact (n - i)) * INR (fact (k + i)) * INR (fact i))).
Lemma lag_moment n k j : (j <= n)%nat ->
  sum_f_R0 (fun i => lag n k i * INR (fact (i + j + k))) n = if (j =? n)%nat then (-1) ^ n * INR (fact (n + k)) else 0.
Proof.
  intros Hj. pose proof (fd_rising n j k Hj) as F. unfold fd in F.
  rewrite (sum_ext _ (fun i => INR (fact (n + k)) / INR (fact n) * ((-1) ^ i * binom n i * rising j k i))).
  - rewrite sum_scal, F. pose proof (fact_pos n). destruct (j =? n)%nat; field; lra.
  - intros i Hi. unfold lag, rising. pose proof (binom_fact n i Hi) as B. rewrite <- B.
    replace (k + i)%nat with (i + k)%nat by lia. replace (i + j + k)%nat with (i + k + j)%nat by lia.
    pose proof (fact_pos (n - i)); pose proof (fact_pos i); pose proof (fact_pos (i + k)); pose proof (fact_pos n).
    assert (binom n i <> 0) by (intros E; rewrite E in B; lra). field. lra.
Qed.
Definition lag_product (n n' k : nat) : R := sum_f_R0 (fun i => sum_f_R0 (fun j => lag n k i * lag n' k j * INR (fact (i + j + k))) n') n.
Lemma lag_sym n n' k : lag_product n n' k = lag_product n' n k.
Proof. unfold lag_product. rewrite sum_swap. apply sum_ext. intros i _. apply sum_ext. intros j _. replace (i + j + k)%nat with (j + i + k)%nat by lia. ring. Qed.
Lemma lag_lower n n' k : (n' <= n)%nat -> lag_product n n' k = if (n' =? n)%nat then INR (fact (n + k)) / INR (fact n) else 0.
Proof.
  intros H. unfold lag_product. rewrite sum_swap.
  rewrite (sum_ext _ (fun j => lag n' k j * (if (j =? n)%nat then (-1) ^ n * INR (fact (n + k)) else 0))).
  - destruct (Nat.eqb_spec n' n) as [->|N].
    + destruct n as [|n].
      * cbn. unfold lag. cbn. rewrite Nat.add_0_r. pose proof (fact_pos k). field. lra.
      * cbn [sum_f_R0]. rewrite sum_zero.
        -- rewrite Nat.eqb_refl. unfold lag. rewrite Nat.sub_diag. replace (k + S n)%nat with (S n + k)%nat by lia. change (INR (fact 0)) with 1. pose proof (fact_pos (S n + k)); pose proof (fact_pos (S n)).
           transitivity ((-1) ^ S n * (-1) ^ S n * (INR (fact (S n + k)) / INR (fact (S n)))); [field; lra|]. rewrite <- Rpow_mult_distr. replace (-1 * -1) with 1 by ring. rewrite pow1. ring.
        -- intros i Hi. destruct (Nat.eqb_spec i (S n)); [lia | ring].
    + apply sum_zero. intros i Hi. destruct (Nat.eqb_spec i n); [lia | ring].
  - intros j Hj. rewrite <- lag_moment by lia. rewrite <- sum_scal. apply sum_ext. intros i _. ring.
Qed.
Lemma lag_orthogonal n n' k : lag_product n n' k = if (n' =? n)%nat then INR (fact (n + k)) / INR (fact n) else 0.
Proof.
  destruct (le_lt_dec n' n) as [H|H]; [apply lag_lower; exact H|]. rewrite lag_sym, lag_lower by lia. rewrite Nat.eqb_sym. destruct (Nat.eqb_spec n n'); [lia|]. destruct (Nat.eqb_spec n' n); [lia | reflexivity].
Qed.
