(** Proofs about the Coulomb elements: C42-C44. *)
From Coq Require Import List Arith ZArith Lia Bool Reals Lra.
From Verif Require Import TwoDim TwoDimProofs Coulomb CoulombSpec.
Import ListNotations.
Open Scope R_scope.

(** ** Sums *)
Fixpoint rsum (n : nat) (f : nat -> R) : R := match n with O => 0 | S k => rsum k f + f k end.
Lemma rsum_ext n f g : (forall k, (k < n)%nat -> f k = g k) -> rsum n f = rsum n g.
Proof. induction n as [|n IH]; intros H; cbn; [reflexivity|]. rewrite (H n) by lia. rewrite IH by (intros; apply H; lia). reflexivity. Qed.
Lemma rsum_plus n f g : rsum n (fun k => f k + g k) = rsum n f + rsum n g.
Proof. induction n as [|n IH]; cbn; [ring|]. rewrite IH. ring. Qed.
Lemma rsum_scal n c f : rsum n (fun k => c * f k) = c * rsum n f.
Proof. induction n as [|n IH]; cbn; [ring|]. rewrite IH. ring. Qed.
Lemma rsum_zero n : rsum n (fun _ => 0) = 0.
Proof. induction n as [|n IH]; cbn; [reflexivity|]. rewrite IH. ring. Qed.
Lemma rsum_swap n m f : rsum n (fun i => rsum m (fun j => f i j)) = rsum m (fun j => rsum n (fun i => f i j)).
Proof.
  induction n as [|n IH]; cbn; [symmetry; apply rsum_zero|]. rewrite IH, rsum_plus. reflexivity.
Qed.
Lemma rsum_sigma n f : rsum (n + 1) f = sum_f_R0 f n.
Proof. induction n as [|n IH]; [cbn; ring|]. cbn [Nat.add rsum sum_f_R0]. rewrite IH, Nat.add_1_r. reflexivity. Qed.
Lemma for_range_from a n (body : nat -> R -> R) f acc : (forall x r, (a <= x < a + n)%nat -> body x r = r + f x) ->
  fold_left (fun r x => body x r) (seq a n) acc = acc + rsum n (fun k => f (a + k)%nat).
Proof.
  revert a acc. induction n as [|n IH]; intros a acc H; [cbn; ring|]. rewrite seq_S, fold_left_app. cbn [fold_left rsum].
  rewrite IH by (intros; apply H; lia). rewrite H by lia. ring.
Qed.
Lemma for_range_sum n (body : nat -> R -> R) f acc : (forall x r, (x < n)%nat -> body x r = r + f x) ->
  for_range n body acc = acc + rsum n f.
Proof. intros H. unfold for_range. rewrite (for_range_from 0 n body f); [reflexivity|]. intros; apply H; lia. Qed.

(** ** Logarithms *)
Lemma fact_pos n : 0 < INR (fact n).
Proof. apply lt_0_INR, lt_O_fact. Qed.
Lemma log_factorial_ok n : log_factorial n = ln (INR (fact n)).
Proof.
  unfold log_factorial. destruct n as [|n]; [cbn; symmetry; apply ln_1|]. replace (S n - 1)%nat with n by lia.
  rewrite (for_range_from 2 n (fun x r => r + ln (INR x)) (fun x => ln (INR x))) by reflexivity. rewrite Rplus_0_l.
  induction n as [|n IH]; [cbn; symmetry; apply ln_1|]. cbn [rsum]. rewrite IH. change (2 + n)%nat with (S (S n)).
  change (fact (S (S n))) with (S (S n) * fact (S n))%nat.
  rewrite mult_INR, ln_mult; [ring | apply lt_0_INR; lia | apply fact_pos].
Qed.
Lemma exp_plus_ln a x : 0 < x -> exp (a + ln x) = exp a * x.
Proof. intros H. rewrite exp_plus, exp_ln by exact H. reflexivity. Qed.
Lemma exp_minus_ln a x : 0 < x -> exp (a - ln x) = exp a / x.
Proof. intros H. unfold Rminus, Rdiv. rewrite exp_plus, exp_Ropp, exp_ln by exact H. reflexivity. Qed.
Lemma exp_half x : exp (1 / 2 * x) = sqrt (exp x).
Proof.
  replace (exp x) with (exp (1 / 2 * x) * exp (1 / 2 * x)) by (rewrite <- exp_plus; f_equal; field).
  rewrite sqrt_square; [reflexivity | left; apply exp_pos].
Qed.
Lemma gamma2_pos k : (1 <= k)%nat -> 0 < gamma2 k.
Proof.
  induction k as [k IH] using (well_founded_induction lt_wf). destruct k as [|[|[|k]]]; intros H.
  - lia.
  - cbn. apply sqrt_lt_R0, PI_RGT_0.
  - cbn. lra.
  - change (gamma2 (S (S (S k)))) with (INR (S k) / 2 * gamma2 (S k)).
    apply Rmult_lt_0_compat; [|apply IH; lia]. assert (0 < INR (S k)) by (apply lt_0_INR; lia). lra.
Qed.
(** Whatever function has the properties of Gamma, [gamma2 k] is its value at k/2. *)
Lemma gamma2_ok Gam k : is_gamma Gam -> (1 <= k)%nat -> gamma2 k = Gam (INR k / 2).
Proof.
  intros (H1 & H2 & H3). induction k as [k IH] using (well_founded_induction lt_wf). destruct k as [|[|[|k]]]; intros H.
  - lia.
  - cbn. symmetry. replace (1 / 2) with (1 / 2) by reflexivity. exact H1.
  - replace (INR 2 / 2) with 1 by (cbn; field). symmetry. exact H2.
  - change (gamma2 (S (S (S k)))) with (INR (S k) / 2 * gamma2 (S k)). rewrite IH by lia.
    rewrite <- H3 by (assert (0 < INR (S k)) by (apply lt_0_INR; lia); lra). f_equal. rewrite !S_INR. field.
Qed.
Lemma sign_of_ok x : sign_of x = (-1) ^ x.
Proof.
  unfold sign_of. rewrite <- Nat.bit0_mod. destruct (Nat.Even_or_Odd x) as [[k ->]|[k ->]].
  - rewrite Nat.testbit_even_0. cbn [Nat.b2n INR]. rewrite pow_1_even. ring.
  - rewrite Nat.testbit_odd_0. cbn [Nat.b2n INR]. rewrite Nat.add_1_r, pow_1_odd. ring.
Qed.
Lemma big_M_ok m : big_M m = mplus m.
Proof. unfold big_M, mplus. destruct (Z.abs_spec m) as [[H ->]|[H ->]]; [replace (m + m)%Z with (m * 2)%Z by ring; rewrite Z.div_mul by lia; reflexivity | replace (- m + m)%Z with 0%Z by ring; cbn; lia]. Qed.
Lemma delta_m_ok m : delta_m m = mminus m.
Proof. unfold delta_m, mminus. destruct (Z.abs_spec m) as [[H ->]|[H ->]]; [rewrite Z.sub_diag; cbn; lia | replace (- m - m)%Z with (- m * 2)%Z by ring; rewrite Z.div_mul by lia; reflexivity]. Qed.

Ltac pos := repeat first [apply fact_pos | apply Rmult_lt_0_compat | apply Rdiv_lt_0_compat | apply exp_pos | apply gamma2_pos; lia].
(** ** C44 *)
Lemma exp_product_3 l0 l1 l2 l3 g0 g1 g2 g3 a b : (1 <= a)%nat -> (1 <= b)%nat ->
  exp (log_product_3 [l0; l1; l2; l3] [g0; g1; g2; g3] + lgamma2 a + lgamma2 b)
  = Binomial.C g0 l0 * Binomial.C g1 l1 * Binomial.C g2 l2 * Binomial.C g3 l3 * gamma2 a * gamma2 b.
Proof.
  intros Ha Hb. unfold log_product_3, lgamma2. cbn [combine fold_left]. rewrite !log_factorial_ok.
  repeat first [rewrite exp_plus_ln by pos | rewrite exp_minus_ln by pos]. rewrite exp_0. unfold Binomial.C.
  field. repeat split; apply Rgt_not_eq, fact_pos.
Qed.
Lemma exp_weight n0 m0 n1 m1 n2 m2 n3 m3 j0 j1 j2 j3 G : (j0 <= n0)%nat -> (j1 <= n1)%nat -> (j2 <= n2)%nat -> (j3 <= n3)%nat ->
  exp (log_ratio_1 [j0; j1; j2; j3] + log_product_2 [n0; n1; n2; n3] [m0; m1; m2; m3] [j0; j1; j2; j3] + log_ratio_2 G)
  = / (INR (fact j0) * INR (fact j1) * INR (fact j2) * INR (fact j3))
    * Binomial.C (n0 + Z.abs_nat m0) (n0 - j0) * Binomial.C (n1 + Z.abs_nat m1) (n1 - j1)
    * Binomial.C (n2 + Z.abs_nat m2) (n2 - j2) * Binomial.C (n3 + Z.abs_nat m3) (n3 - j3) / sqrt (2 ^ (G + 1)).
Proof.
  intros H0 H1 H2 H3. rewrite !exp_plus.
  assert (E1 : exp (log_ratio_1 [j0; j1; j2; j3]) = / (INR (fact j0) * INR (fact j1) * INR (fact j2) * INR (fact j3))).
  { unfold log_ratio_1. cbn [fold_left]. rewrite !log_factorial_ok. rewrite !exp_minus_ln by pos. rewrite exp_0. field. repeat split; apply Rgt_not_eq, fact_pos. }
  assert (E2 : exp (log_product_2 [n0; n1; n2; n3] [m0; m1; m2; m3] [j0; j1; j2; j3]) =
    Binomial.C (n0 + Z.abs_nat m0) (n0 - j0) * Binomial.C (n1 + Z.abs_nat m1) (n1 - j1) * Binomial.C (n2 + Z.abs_nat m2) (n2 - j2) * Binomial.C (n3 + Z.abs_nat m3) (n3 - j3)).
  { unfold log_product_2. cbn [combine fold_left]. rewrite !log_factorial_ok.
    repeat first [rewrite exp_plus_ln by pos | rewrite exp_minus_ln by pos]. rewrite exp_0. unfold Binomial.C.
    replace (n0 + Z.abs_nat m0 - (n0 - j0))%nat with (j0 + Z.abs_nat m0)%nat by lia. replace (n1 + Z.abs_nat m1 - (n1 - j1))%nat with (j1 + Z.abs_nat m1)%nat by lia.
    replace (n2 + Z.abs_nat m2 - (n2 - j2))%nat with (j2 + Z.abs_nat m2)%nat by lia. replace (n3 + Z.abs_nat m3 - (n3 - j3))%nat with (j3 + Z.abs_nat m3)%nat by lia.
    field. repeat split; apply Rgt_not_eq, fact_pos. }
  assert (E3 : exp (log_ratio_2 G) = / sqrt (2 ^ (G + 1))).
  { unfold log_ratio_2. replace (- (1 / 2) * (INR G + 1) * ln 2) with (- (1 / 2 * (INR (G + 1) * ln 2))) by (rewrite plus_INR; cbn; ring).
    rewrite exp_Ropp, exp_half. do 2 f_equal. change (exp (INR (G + 1) * ln 2)) with (Rpower 2 (INR (G + 1))). apply Rpower_pow. lra. }
  rewrite E1, E2, E3. unfold Rdiv. ring.
Qed.
Lemma exp_product_1 n0 m0 n1 m1 n2 m2 n3 m3 :
  log_product_1 [n0; n1; n2; n3] [m0; m1; m2; m3]
  = sqrt (INR (fact n0) * INR (fact n1) * INR (fact n2) * INR (fact n3)
      / (INR (fact (n0 + Z.abs_nat m0)) * INR (fact (n1 + Z.abs_nat m1)) * INR (fact (n2 + Z.abs_nat m2)) * INR (fact (n3 + Z.abs_nat m3)))).
Proof.
  unfold log_product_1. rewrite exp_half. f_equal. cbn [combine fold_left]. rewrite !log_factorial_ok.
  repeat first [rewrite exp_plus_ln by pos | rewrite exp_minus_ln by pos]. rewrite exp_0. field. repeat split; apply Rgt_not_eq, fact_pos.
Qed.

(** The same formula with [gamma2]; sums as [rsum]. *)
Definition inner_sum (g0 g1 g2 g3 : nat) : R :=
  rsum (g0 + 1) (fun l0 => rsum (g1 + 1) (fun l1 => rsum (g2 + 1) (fun l2 => rsum (g3 + 1) (fun l3 =>
    if Nat.eq_dec (l0 + l1) (l2 + l3) then
      (-1) ^ (g1 + g2 - l1 - l2) * Binomial.C g0 l0 * Binomial.C g1 l1 * Binomial.C g2 l2 * Binomial.C g3 l3
      * gamma2 (2 + (l0 + l1 + l2 + l3)) * gamma2 (g0 + g1 + g2 + g3 - (l0 + l1 + l2 + l3) + 1)
    else 0)))).
Lemma inner_ok g0 g1 g2 g3 : inner g0 g1 g2 g3 (g0 + g1 + g2 + g3) = inner_sum g0 g1 g2 g3.
Proof.
  unfold inner, inner_sum. rewrite <- Rplus_0_l. apply for_range_sum. intros l0 t0 H0. apply for_range_sum. intros l1 t1 H1.
  apply for_range_sum. intros l2 t2 H2. apply for_range_sum. intros l3 t3 H3.
  destruct (Nat.eqb_spec (l0 + l1) (l2 + l3)) as [E|E]; destruct (Nat.eq_dec (l0 + l1) (l2 + l3)); try contradiction; [|ring].
  cbv zeta. rewrite sign_of_ok, exp_product_3 by lia. ring.
Qed.
Definition weight (n : nat) (m : Z) (j : nat) : R := (-1) ^ j / INR (fact j) * Binomial.C (n + Z.abs_nat m) (n - j).
Definition norm4 (n0 : nat) (m0 : Z) (n1 : nat) (m1 : Z) (n2 : nat) (m2 : Z) (n3 : nat) (m3 : Z) : R :=
  sqrt (INR (fact n0) * INR (fact n1) * INR (fact n2) * INR (fact n3)
      / (INR (fact (n0 + Z.abs_nat m0)) * INR (fact (n1 + Z.abs_nat m1)) * INR (fact (n2 + Z.abs_nat m2)) * INR (fact (n3 + Z.abs_nat m3)))).
Definition term (g0 g1 g2 g3 : nat) : R := / sqrt (2 ^ (g0 + g1 + g2 + g3 + 1)) * inner_sum g0 g1 g2 g3.
Definition closed (n0 : nat) (m0 : Z) (n1 : nat) (m1 : Z) (n2 : nat) (m2 : Z) (n3 : nat) (m3 : Z) : R :=
  norm4 n0 m0 n1 m1 n2 m2 n3 m3 *
  rsum (n0 + 1) (fun j0 => rsum (n1 + 1) (fun j1 => rsum (n2 + 1) (fun j2 => rsum (n3 + 1) (fun j3 =>
    weight n0 m0 j0 * weight n1 m1 j1 * weight n2 m2 j2 * weight n3 m3 j3
    * term (j0 + j3 + mplus m0 + mminus m3) (j1 + j2 + mplus m1 + mminus m2) (j1 + j2 + mplus m2 + mminus m1) (j0 + j3 + mplus m3 + mminus m0))))).
Lemma coulomb_closed ni mi nj mj nl ml nk mk : (mi + mj = mk + ml)%Z ->
  coulomb_ho ni mi nj mj nl ml nk mk = closed ni mi nj mj nk mk nl ml.
Proof.
  intros H. unfold coulomb_ho, closed. rewrite (proj2 (Z.eqb_eq _ _) H). cbn [negb]. cbv zeta. rewrite exp_product_1. rewrite Rmult_comm. f_equal.
  rewrite <- Rplus_0_l. apply for_range_sum. intros j0 t0 H0. apply for_range_sum. intros j1 t1 H1. apply for_range_sum. intros j2 t2 H2. apply for_range_sum. intros j3 t3 H3.
  rewrite sign_of_ok, exp_weight, inner_ok, !big_M_ok, !delta_m_ok by lia. f_equal. unfold weight, term.
  rewrite (Nat.add_comm j2 j1), (Nat.add_comm j3 j0). rewrite !pow_add. unfold Rdiv. rewrite !Rinv_mult. ring.
Qed.
Lemma coulomb_zero ni mi nj mj nl ml nk mk : (mi + mj <> mk + ml)%Z -> coulomb_ho ni mi nj mj nl ml nk mk = 0.
Proof. intros H. unfold coulomb_ho. rewrite (proj2 (Z.eqb_neq _ _) H). reflexivity. Qed.

Lemma formula Gam ni mi nj mj nl ml nk mk : is_gamma Gam ->
  coulomb_ho ni mi nj mj nl ml nk mk = anisimovas_matulis Gam ni mi nj mj nk mk nl ml.
Proof.
  intros HG. unfold anisimovas_matulis. destruct (Z.eq_dec (mi + mj) (mk + ml)) as [H|H]; [|apply coulomb_zero; exact H].
  rewrite coulomb_closed by exact H. unfold closed, norm4. f_equal.
  rewrite rsum_sigma. apply sum_eq. intros j0 H0. rewrite rsum_sigma. apply sum_eq. intros j1 H1. rewrite rsum_sigma. apply sum_eq. intros j2 H2. rewrite rsum_sigma. apply sum_eq. intros j3 H3.
  cbv zeta. unfold term. set (g0 := (j0 + j3 + mplus mi + mminus ml)%nat). set (g1 := (j1 + j2 + mplus mj + mminus mk)%nat).
  set (g2 := (j1 + j2 + mplus mk + mminus mj)%nat). set (g3 := (j0 + j3 + mplus ml + mminus mi)%nat).
  replace (inner_sum g0 g1 g2 g3) with (am_inner Gam g0 g1 g2 g3).
  - unfold weight. rewrite !pow_add. unfold Rdiv. rewrite !Rinv_mult. ring.
  - symmetry. unfold inner_sum, am_inner. cbv zeta. rewrite rsum_sigma. apply sum_eq. intros l0 L0. rewrite rsum_sigma. apply sum_eq. intros l1 L1. rewrite rsum_sigma. apply sum_eq. intros l2 L2. rewrite rsum_sigma. apply sum_eq. intros l3 L3.
    destruct (Nat.eq_dec (l0 + l1) (l2 + l3)); [|reflexivity]. rewrite !(gamma2_ok Gam) by (exact HG || lia).
    set (L := (l0 + l1 + l2 + l3)%nat). set (GG := (g0 + g1 + g2 + g3)%nat).
    replace (INR (2 + L) / 2) with (1 + INR L / 2) by (rewrite plus_INR; cbn; field).
    replace (INR (GG - L + 1)) with (INR GG - INR L + 1); [reflexivity|]. rewrite plus_INR, minus_INR by (unfold GG, L; lia). reflexivity.
Qed.

(** ** C43: symmetries *)
Lemma rsum_rev3 a b c F : rsum a (fun i => rsum b (fun j => rsum c (fun k => F i j k))) = rsum c (fun k => rsum b (fun j => rsum a (fun i => F i j k))).
Proof.
  rewrite (rsum_ext a _ (fun i => rsum c (fun k => rsum b (fun j => F i j k)))) by (intros; apply rsum_swap).
  rewrite rsum_swap. apply rsum_ext. intros k _. apply rsum_swap.
Qed.
Lemma rsum_rev4 a b c d F : rsum a (fun i => rsum b (fun j => rsum c (fun k => rsum d (fun l => F i j k l))))
  = rsum d (fun l => rsum c (fun k => rsum b (fun j => rsum a (fun i => F i j k l)))).
Proof.
  rewrite (rsum_ext a _ (fun i => rsum d (fun l => rsum c (fun k => rsum b (fun j => F i j k l))))) by (intros; apply rsum_rev3).
  rewrite rsum_swap. apply rsum_ext. intros l _. rewrite rsum_swap. apply rsum_ext. intros k _. apply rsum_swap.
Qed.
Lemma rsum_pair4 a b c d F : rsum a (fun i => rsum b (fun j => rsum c (fun k => rsum d (fun l => F i j k l))))
  = rsum b (fun j => rsum a (fun i => rsum d (fun l => rsum c (fun k => F i j k l)))).
Proof. rewrite rsum_swap. apply rsum_ext. intros j _. apply rsum_ext. intros i _. apply rsum_swap. Qed.
Lemma sum4_ext a b c d F F' : (forall i j k l, (i < a -> j < b -> k < c -> l < d -> F i j k l = F' i j k l)%nat) ->
  rsum a (fun i => rsum b (fun j => rsum c (fun k => rsum d (fun l => F i j k l)))) = rsum a (fun i => rsum b (fun j => rsum c (fun k => rsum d (fun l => F' i j k l)))).
Proof. intros H. apply rsum_ext. intros i Hi. apply rsum_ext. intros j Hj. apply rsum_ext. intros k Hk. apply rsum_ext. intros l Hl. apply H; assumption. Qed.
Lemma inner_rev g0 g1 g2 g3 : inner_sum g3 g2 g1 g0 = inner_sum g0 g1 g2 g3.
Proof.
  unfold inner_sum. rewrite rsum_rev4. apply sum4_ext. intros l0 l1 l2 l3 _ _ _ _.
  destruct (Nat.eq_dec (l3 + l2) (l1 + l0)), (Nat.eq_dec (l0 + l1) (l2 + l3)); try lia; [|reflexivity].
  replace (g2 + g1 - l2 - l1)%nat with (g1 + g2 - l1 - l2)%nat by lia. replace (l3 + l2 + l1 + l0)%nat with (l0 + l1 + l2 + l3)%nat by lia.
  replace (g3 + g2 + g1 + g0)%nat with (g0 + g1 + g2 + g3)%nat by lia. ring.
Qed.
Lemma sign_parity a b : Nat.Even (a + b) -> (-1) ^ a = (-1) ^ b.
Proof.
  intros H. destruct (Nat.Even_or_Odd a) as [[x ->]|[x ->]], (Nat.Even_or_Odd b) as [[y ->]|[y ->]]; rewrite ?Nat.add_1_r, ?pow_1_even, ?pow_1_odd; try reflexivity; destruct H as [z Hz]; lia.
Qed.
Lemma inner_pair g0 g1 g2 g3 : Nat.Even (g0 + g1 + g2 + g3) -> inner_sum g1 g0 g3 g2 = inner_sum g0 g1 g2 g3.
Proof.
  intros [G HG]. unfold inner_sum. rewrite rsum_pair4. apply sum4_ext. intros l0 l1 l2 l3 H0 H1 H2 H3.
  destruct (Nat.eq_dec (l1 + l0) (l3 + l2)), (Nat.eq_dec (l0 + l1) (l2 + l3)); try lia; [|reflexivity].
  rewrite (sign_parity (g0 + g3 - l0 - l3) (g1 + g2 - l1 - l2)) by (exists (G - l0 - l1)%nat; lia).
  replace (l1 + l0 + l3 + l2)%nat with (l0 + l1 + l2 + l3)%nat by lia. replace (g1 + g0 + g3 + g2)%nat with (g0 + g1 + g2 + g3)%nat by lia. ring.
Qed.
Lemma term_rev g0 g1 g2 g3 : term g3 g2 g1 g0 = term g0 g1 g2 g3.
Proof. unfold term. rewrite inner_rev. replace (g3 + g2 + g1 + g0)%nat with (g0 + g1 + g2 + g3)%nat by lia. reflexivity. Qed.
Lemma term_pair g0 g1 g2 g3 : Nat.Even (g0 + g1 + g2 + g3) -> term g1 g0 g3 g2 = term g0 g1 g2 g3.
Proof. intros H. unfold term. rewrite inner_pair by exact H. replace (g1 + g0 + g3 + g2)%nat with (g0 + g1 + g2 + g3)%nat by lia. reflexivity. Qed.
Lemma closed_rev n0 m0 n1 m1 n2 m2 n3 m3 : closed n3 m3 n2 m2 n1 m1 n0 m0 = closed n0 m0 n1 m1 n2 m2 n3 m3.
Proof.
  unfold closed. f_equal.
  - unfold norm4. f_equal. field. repeat split; apply Rgt_not_eq, fact_pos.
  - rewrite rsum_rev4. apply sum4_ext. intros j0 j1 j2 j3 _ _ _ _.
    rewrite (Nat.add_comm j3 j0), (Nat.add_comm j2 j1), term_rev. ring.
Qed.
Lemma closed_pair n0 m0 n1 m1 n2 m2 n3 m3 : (m0 + m1 = m2 + m3)%Z -> closed n1 m1 n0 m0 n3 m3 n2 m2 = closed n0 m0 n1 m1 n2 m2 n3 m3.
Proof.
  intros H. unfold closed. f_equal.
  - unfold norm4. f_equal. field. repeat split; apply Rgt_not_eq, fact_pos.
  - rewrite rsum_pair4. apply sum4_ext. intros j0 j1 j2 j3 _ _ _ _. rewrite term_pair; [ring|].
    unfold mplus, mminus. exists (Z.to_nat (Z.of_nat (j0 + j1 + j2 + j3) + (Z.max m0 0 + Z.max m1 0 + Z.max (- m2) 0 + Z.max (- m3) 0)))%nat. lia.
Qed.
Lemma abs_nat_opp m : Z.abs_nat (- m) = Z.abs_nat m.
Proof. lia. Qed.
Lemma weight_neg n m j : weight n (- m) j = weight n m j.
Proof. unfold weight. rewrite abs_nat_opp. reflexivity. Qed.
Lemma closed_neg n0 m0 n1 m1 n2 m2 n3 m3 : closed n0 (- m0) n1 (- m1) n2 (- m2) n3 (- m3) = closed n0 m0 n1 m1 n2 m2 n3 m3.
Proof.
  unfold closed. f_equal.
  - unfold norm4. rewrite !abs_nat_opp. reflexivity.
  - apply sum4_ext. intros j0 j1 j2 j3 _ _ _ _. rewrite !weight_neg. rewrite <- term_rev. f_equal. unfold mplus, mminus. rewrite !Z.opp_involutive. f_equal; lia.
Qed.
Lemma coulomb_exchange ni mi nj mj nl ml nk mk : coulomb_ho nj mj ni mi nk mk nl ml = coulomb_ho ni mi nj mj nl ml nk mk.
Proof.
  destruct (Z.eq_dec (mi + mj) (mk + ml)) as [H|H]; [rewrite !coulomb_closed by lia; apply closed_pair; exact H | rewrite !coulomb_zero by lia; reflexivity].
Qed.
Lemma coulomb_transpose ni mi nj mj nl ml nk mk : coulomb_ho nl ml nk mk ni mi nj mj = coulomb_ho ni mi nj mj nl ml nk mk.
Proof.
  destruct (Z.eq_dec (mi + mj) (mk + ml)) as [H|H]; [rewrite !coulomb_closed by lia; apply closed_rev | rewrite !coulomb_zero by lia; reflexivity].
Qed.
Lemma coulomb_mirror ni mi nj mj nl ml nk mk : coulomb_ho ni (- mi) nj (- mj) nl (- ml) nk (- mk) = coulomb_ho ni mi nj mj nl ml nk mk.
Proof.
  destruct (Z.eq_dec (mi + mj) (mk + ml)) as [H|H]; [rewrite !coulomb_closed by lia; apply closed_neg | rewrite !coulomb_zero by lia; reflexivity].
Qed.
