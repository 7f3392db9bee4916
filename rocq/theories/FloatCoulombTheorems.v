(** The theorems behind C137. *)
From Coq Require Import List Arith ZArith Reals Permutation Lra Lia Psatz Bool.
From Flocq Require Import Core.
From Verif Require Import FloatModel FloatSpec FloatProofs Coulomb CoulombSpec CoulombProofs CacheExamples FloatCoulomb FloatCoulombSpec FloatCoulombProofs.
Import ListNotations.
Open Scope R_scope.

Local Notation U := unit_roundoff.
Local Notation T := underflow.

Lemma tiny : 1000000 * T <= / 2 ^ 1055.
Proof.
  pose proof T_pos. apply Rle_trans with (2 ^ 20 * T); [apply Rmult_le_compat_r; lra|]. rewrite T_bpow, <- bpow_pow, <- bpow_plus, <- bpow_neg. apply bpow_le. lia.
Qed.

Lemma coulomb_accuracy Gam e M ni mi nj mj nk mk nl ml z : is_gamma Gam -> 0 <= e <= / 1000000 -> libm_accurate Gam e M ->
  (quanta ni mi + quanta nj mj + quanta nk mk + quanta nl ml <= 48)%nat -> coulomb64 M ni mi nj mj nl ml nk mk z ->
  Rabs (z - anisimovas_matulis Gam ni mi nj mj nk mk nl ml)
  <= coulomb_error e (quanta ni mi + quanta nj mj + quanta nk mk + quanta nl ml) * coulomb_size Gam ni mi nj mj nk mk nl ml + / 2 ^ 1055.
Proof.
  intros HG (E0 & E1) OK W D. rewrite <- (formula Gam ni mi nj mj nl ml nk mk HG). set (w := (quanta ni mi + quanta nj mj + quanta nk mk + quanta nl ml)%nat) in *.
  destruct (Z.eq_dec (mi + mj) (mk + ml)) as [H|H].
  - pose proof (element_near Gam e M ni nj nk nl mi mj mk ml w HG E0 E1 OK W (Nat.le_refl _) z D H). pose proof tiny. lra.
  - rewrite coulomb_zero by exact H. unfold coulomb64 in D. rewrite (proj2 (Z.eqb_neq _ _) H) in D. cbn [negb] in D. subst z. rewrite Rminus_0_r, Rabs_R0.
    apply Rplus_le_le_0_compat; [|left; apply Rinv_0_lt_compat, pow_lt; lra]. apply Rmult_le_pos.
    + unfold coulomb_error. pose proof (delta_pos e w E0) as DP. set (d := exponent_error e w) in *.
      assert (1 <= exp (3 * d)). { destruct DP as [DP | <-]; [left; rewrite <- exp_0 at 1; apply exp_increasing; lra | rewrite Rmult_0_r, exp_0; lra]. }
      pose proof (grow_ge_1 (2 * terms w + 1)). assert (1 <= (1 + e) ^ 3) by (apply pow_R1_Rle; lra).
      assert (1 * 1 <= (1 + e) ^ 3 * exp (3 * d)) by (apply Rmult_le_compat; lra).
      assert (1 * 1 <= (1 + e) ^ 3 * exp (3 * d) * grow (2 * terms w + 1)) by (apply Rmult_le_compat; lra). lra.
    + rewrite <- size_element by exact HG. apply Rmult_le_pos; [|left; apply exp_pos].
      assert (P : forall (X : Type) (f : X -> R) l, (forall x, 0 <= f x) -> 0 <= lsum (map f l)).
      { intros X f l F. induction l as [|x l IH]; cbn [map]; rewrite ?lsum_nil, ?lsum_cons; [lra|]. specialize (F x). lra. }
      apply P. intros j. apply Rmult_le_pos; [left; apply exp_pos|]. destruct (gammas mi mj mk ml j) as (((g0, g1), g2), g3). cbn [inner_size_of].
      apply P. intros l. left. apply exp_pos.
Qed.

Lemma coulomb_accuracy_shells Gam e M ni mi nj mj nk mk nl ml z : is_gamma Gam -> 0 <= e <= / 2 ^ 51 -> libm_accurate Gam e M ->
  (quanta ni mi <= 12)%nat -> (quanta nj mj <= 12)%nat -> (quanta nk mk <= 12)%nat -> (quanta nl ml <= 12)%nat ->
  coulomb64 M ni mi nj mj nl ml nk mk z ->
  Rabs (z - anisimovas_matulis Gam ni mi nj mj nk mk nl ml) <= 2 / 10 ^ 10 * coulomb_size Gam ni mi nj mj nk mk nl ml + / 2 ^ 1055.
Proof.
  intros HG (E0 & E1) OK W0 W1 W2 W3 D.
  assert (E2 : e <= / 1000000). { eapply Rle_trans; [exact E1|]. apply Rinv_le_contravar; lra. }
  assert (W : (quanta ni mi + quanta nj mj + quanta nk mk + quanta nl ml <= 48)%nat) by lia.
  pose proof (coulomb_accuracy Gam e M ni mi nj mj nk mk nl ml z HG (conj E0 E2) OK W D) as H.
  set (w := (quanta ni mi + quanta nj mj + quanta nk mk + quanta nl ml)%nat) in *. eapply Rle_trans; [exact H|]. apply Rplus_le_compat_r.
  apply Rmult_le_compat_r.
  { rewrite <- size_element by exact HG. apply Rmult_le_pos; [|left; apply exp_pos].
    assert (P : forall (X : Type) (f : X -> R) l, (forall x, 0 <= f x) -> 0 <= lsum (map f l)).
    { intros X f l F. induction l as [|x l IH]; cbn [map]; rewrite ?lsum_nil, ?lsum_cons; [lra|]. specialize (F x). lra. }
    apply P. intros j. apply Rmult_le_pos; [left; apply exp_pos|]. destruct (gammas mi mj mk ml j) as (((g0, g1), g2), g3). cbn [inner_size_of].
    apply P. intros l. left. apply exp_pos. }
  pose proof U_pos as UP. assert (US : U = / 9007199254740992) by (unfold unit_roundoff; f_equal; lra). pose proof (pos_INR w) as WP. pose proof (w_high w W) as WH. pose proof (lam_pos w) as LP.
  assert (E4 : e <= 4 * U) by (unfold unit_roundoff; replace (/ 2 ^ 51) with (4 * / 2 ^ 53) in E1 by (field; lra); exact E1).
  assert (DS : exponent_error e w <= 304380 * U).
  { unfold exponent_error. rewrite (Rmult_assoc _ (3 * INR w + 8)). pose proof (span_high w W).
    apply Rle_trans with (445 * U * 684); [|lra]. assert (0 <= (INR w + 1) * U <= 49 * U) by (split; [apply Rmult_le_pos; lra | apply Rmult_le_compat_r; lra]).
    apply Rmult_le_compat; [lra | apply Rmult_le_pos; lra | lra | assumption]. }
  pose proof (delta_pos e w E0) as DP. unfold coulomb_error. set (d := exponent_error e w) in *.
  assert (X : exp (3 * d) <= 1 + 1.02 / 10 ^ 10).
  { pose proof (exp_ineq1_le (- (3 * d))) as I. rewrite exp_Ropp in I. pose proof (exp_pos (3 * d)) as P. set (x := exp (3 * d)) in *.
    assert (J : x * (1 + - (3 * d)) <= x * / x) by (apply Rmult_le_compat_l; lra). rewrite Rinv_r in J by lra.
    assert (3 * d <= 1.0139 / 10 ^ 10) by (rewrite US in DS; lra).
    destruct (Rle_or_lt x (1 + 1.02 / 10 ^ 10)) as [L|L]; [exact L|].
    assert ((1 + 1.02 / 10 ^ 10) * (1 - 1.0139 / 10 ^ 10) <= x * (1 + - (3 * d))) by (apply Rmult_le_compat; lra). lra. }
  assert (G : grow (2 * terms w + 1) <= 1 + 1.4 / 10 ^ 11).
  { pose proof (terms_small 0 0 0 0 0 0 0 0 w W (Nat.le_0_l _)) as TS.
    assert (K : INR (2 * terms w + 1) <= 60001) by (rewrite plus_INR, mult_INR; change (INR 2) with 2; change (INR 1) with 1; lra).
    pose proof (pos_INR (2 * terms w + 1)). assert (KU : INR (2 * terms w + 1) * U <= 60001 * U) by (apply Rmult_le_compat_r; lra).
    pose proof (grow_small (2 * terms w + 1) ltac:(rewrite US in KU |- *; lra)). rewrite US in *. lra. }
  assert (Y : (1 + e) ^ 3 <= 1 + 1 / 10 ^ 14).
  { apply Rle_trans with ((1 + 4 * / 9007199254740992) ^ 3); [apply pow_incr; rewrite US in E4; lra | lra]. }
  pose proof (exp_pos (3 * d)). pose proof (grow_ge_1 (2 * terms w + 1)). assert (0 < (1 + e) ^ 3) by (apply pow_lt; lra).
  assert ((1 + e) ^ 3 * exp (3 * d) * grow (2 * terms w + 1) <= (1 + 1 / 10 ^ 14) * (1 + 1.02 / 10 ^ 10) * (1 + 1.4 / 10 ^ 11)).
  { apply Rmult_le_compat; [apply Rmult_le_pos; lra | lra | apply Rmult_le_compat; lra | exact G]. }
  lra.
Qed.

(** Every order of evaluation has a result; here is one *)
Fixpoint seqdot (l : list (R * R)) : R := match l with [] => 0 | (x, y) :: r => fl (x * y + seqdot r) end.
Lemma seqdot_ok l : dotted l (seqdot l).
Proof. induction l as [|(x, y) l IH]; [constructor|]. cbn [seqdot]. apply dotted_fma with l; [reflexivity | exact IH]. Qed.
Fixpoint seqsum (l : list R) : R := match l with [] => 0 | x :: r => fadd x (seqsum r) end.
Lemma seqsum_ok l : summed l (seqsum l).
Proof. induction l as [|x l IH]; [constructor|]. cbn [seqsum]. apply summed_add with [x] l; [reflexivity | constructor | exact IH]. Qed.
Lemma inner64_total M g : exists t, inner64_at M g t.
Proof.
  destruct g as (((g0, g1), g2), g3). cbn [inner64_at]. eexists. exists (fun l => seqdot (map (fun t => (fst t, value M (snd t))) (inner_exponent g0 g1 g2 g3 l))).
  split; [intros l _; apply seqdot_ok | apply seqsum_ok].
Qed.
Definition inner_value (M : libm) (g : nat * nat * nat * nat) : R :=
  let '(g0, g1, g2, g3) := g in
  seqsum (map (fun l => inner_sign g1 g2 l * fexp M (seqdot (map (fun t => (fst t, value M (snd t))) (inner_exponent g0 g1 g2 g3 l)))) (filter kept (quads g0 g1 g2 g3))).
Lemma inner_value_ok M g : inner64_at M g (inner_value M g).
Proof.
  destruct g as (((g0, g1), g2), g3). cbn [inner64_at inner_value]. exists (fun l => seqdot (map (fun t => (fst t, value M (snd t))) (inner_exponent g0 g1 g2 g3 l))).
  split; [intros l _; apply seqdot_ok | apply seqsum_ok].
Qed.
Lemma coulomb64_total M ni mi nj mj nl ml nk mk : exists z, coulomb64 M ni mi nj mj nl ml nk mk z.
Proof.
  unfold coulomb64. destruct (negb (mi + mj =? mk + ml)%Z); [exists 0; reflexivity|]. cbv zeta. eexists.
  exists (fun j => seqdot (map (fun t => (fst t, value M (snd t))) (outer_exponent [ni; nj; nk; nl] [mi; mj; mk; ml] (total (gammas mi mj mk ml j)) j))).
  exists (fun j => inner_value M (gammas mi mj mk ml j)). eexists. eexists.
  split; [intros j _; apply seqdot_ok|]. split; [intros j _; apply inner_value_ok|].
  split; [apply seqdot_ok|]. split; [apply seqdot_ok | reflexivity].
Qed.

(** Correctly rounded functions are accurate *)
Definition rounded_libm : libm := Libm (fun x => fl (ln x)) (fun x => fl (exp x)) (fun x => fl (ln (half_gamma x))).
Lemma ln_2_low' : 17 / 25 <= ln 2.
Proof.
  assert (H : / 2 <= exp (- (17 / 25))).
  { replace (- (17 / 25)) with (INR 32 * (- (17 / 800))) by (cbn; lra). rewrite exp_pow.
    apply Rle_trans with ((1 - 17 / 800) ^ 32); [lra|]. apply pow_incr. pose proof (exp_ineq1 (- (17 / 800))). lra. }
  apply Ropp_le_cancel. rewrite <- (ln_exp (- (17 / 25))), <- ln_Rinv by lra. apply ln_mono; lra.
Qed.
Lemma exp_low x : -690 <= x -> / 2 ^ 1022 <= exp x.
Proof.
  intros H. rewrite <- (exp_ln (/ 2 ^ 1022)) by (apply Rinv_0_lt_compat, pow_lt; lra). rewrite ln_Rinv by (apply pow_lt; lra).
  assert (L : ln (2 ^ 1022) = 1022 * ln 2). { rewrite ln_pow by lra. f_equal. rewrite INR_IZR_INZ. reflexivity. }
  rewrite L. pose proof ln_2_low'. destruct (Rle_lt_or_eq_dec (- (1022 * ln 2)) x ltac:(lra)) as [K|K]; [left; apply exp_increasing, K | rewrite K; lra].
Qed.
Lemma fl_rel x a : Rabs x <= a -> / 2 ^ 1022 <= a -> Rabs (fl x - x) <= 2 * U * a.
Proof.
  intros X A. pose proof (fl_err x). pose proof U_pos.
  assert (T = U * / 2 ^ 1022).
  { rewrite T_bpow, U_bpow, <- bpow_neg, <- bpow_plus. reflexivity. }
  assert (U * Rabs x <= U * a) by (apply Rmult_le_compat_l; lra). assert (U * / 2 ^ 1022 <= U * a) by (apply Rmult_le_compat_l; lra). lra.
Qed.
Lemma small_1022 : / 2 ^ 1022 <= / 2.
Proof. rewrite <- bpow_neg. change (/ 2) with (bpow radix2 (- (1))). apply bpow_le. lia. Qed.
Lemma rounded_accurate Gam : is_gamma Gam -> libm_accurate Gam (/ 2 ^ 52) rounded_libm.
Proof.
  intros HG. assert (E : / 2 ^ 52 = 2 * U) by (unfold unit_roundoff; field; lra). rewrite E. pose proof small_1022. split; [|split].
  - intros a Ha. cbn [flog rounded_libm]. assert (ln 2 <= ln (INR a)) by (apply ln_mono; [lra | apply (le_INR 2); lia]). pose proof ln_2_low.
    apply fl_rel; [rewrite Rabs_pos_eq; lra | lra].
  - intros k Hk. cbn [flgamma rounded_libm].
    rewrite half_gamma_at, <- (gamma2_ok Gam k HG) by lia. pose proof (Rabs_pos (ln (gamma2 k))). apply fl_rel; lra.
  - intros x _ Hx. cbn [fexp rounded_libm]. split; [apply fl_float|]. pose proof (exp_pos x). apply fl_rel; [rewrite Rabs_pos_eq; lra | apply exp_low; lra].
Qed.

(** The interaction of two particles in the lowest orbital has one term *)
Lemma size_ground Gam : is_gamma Gam -> coulomb_size Gam 0 0 0 0 0 0 0 0 = anisimovas_matulis Gam 0 0 0 0 0 0 0 0.
Proof.
  intros HG. unfold coulomb_size, anisimovas_matulis, am_inner_size, am_inner, mplus, mminus. cbn [Z.opp Z.to_nat Z.abs_nat Nat.add Nat.sub sum_f_R0 fact pow Nat.eq_dec Z.eq_dec]. cbn. field_simplify_eq; try (repeat split); try (apply Rgt_not_eq, sqrt_lt_R0; lra); try lra. 
Qed.
Lemma momentum_exact M ni mi nj mj nk mk nl ml z : (mi + mj <> mk + ml)%Z -> coulomb64 M ni mi nj mj nl ml nk mk z -> z = 0.
Proof. intros H D. unfold coulomb64 in D. rewrite (proj2 (Z.eqb_neq _ _) H) in D. exact D. Qed.
Lemma ground_accuracy e M z : 0 <= e <= / 2 ^ 51 -> libm_accurate half_gamma e M -> coulomb64 M 0 0 0 0 0 0 0 0 z ->
  Rabs (z - sqrt (PI / 2)) <= 2 / 10 ^ 10 * sqrt (PI / 2) + / 2 ^ 1055.
Proof.
  intros E OK D. pose proof (coulomb_accuracy_shells half_gamma e M 0 0 0 0 0 0 0 0 z half_gamma_ok E OK) as H. 
  specialize (H ltac:(cbv; lia) ltac:(cbv; lia) ltac:(cbv; lia) ltac:(cbv; lia) D). rewrite size_ground in H by exact half_gamma_ok.
  rewrite <- (formula half_gamma 0 0 0 0 0 0 0 0 half_gamma_ok) in H. rewrite ground_element in H. exact H.
Qed.
