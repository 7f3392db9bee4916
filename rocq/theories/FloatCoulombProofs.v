(** Rounding errors of the Coulomb elements (C137). *)
From Coq Require Import List Arith ZArith Reals Permutation Lra Lia Psatz Bool.
From Flocq Require Import Core.
From Verif Require Import GridSpec FloatModel FloatSpec FloatProofs Coulomb CoulombSpec CoulombProofs FloatCoulomb FloatCoulombSpec.
Import ListNotations.
Open Scope R_scope.

Local Notation U := unit_roundoff.
Local Notation T := underflow.

(** ** Approximation: [v] for [s], relative to [a], plus an absolute error *)
Definition near (rho t s a v : R) : Prop := Rabs s <= a /\ Rabs (v - s) <= rho * a + t.

Lemma near_size rho t s a v : near rho t s a v -> Rabs v <= (1 + rho) * a + t.
Proof. intros (H & E). replace v with (v - s + s) by ring. eapply Rle_trans; [apply Rabs_triang|]. lra. Qed.
Lemma near_pos rho t s a v : near rho t s a v -> 0 <= a.
Proof. intros (H & _). pose proof (Rabs_pos s). lra. Qed.

Section Lists.
  Context {X : Type}.
  Lemma lsum_map_le (f g : X -> R) l : (forall x, In x l -> f x <= g x) -> lsum (map f l) <= lsum (map g l).
  Proof.
    induction l as [|x l IH]; intros H; cbn [map]; rewrite ?lsum_nil, ?lsum_cons; [lra|].
    pose proof (H x (or_introl eq_refl)). assert (lsum (map f l) <= lsum (map g l)) by (apply IH; intros; apply H; right; assumption). lra.
  Qed.
  Lemma lsum_map_scal c (f : X -> R) l : lsum (map (fun x => c * f x) l) = c * lsum (map f l).
  Proof. induction l as [|x l IH]; cbn [map]; rewrite ?lsum_nil, ?lsum_cons, ?IH; ring. Qed.
  Lemma lsum_map_plus (f g : X -> R) l : lsum (map (fun x => f x + g x) l) = lsum (map f l) + lsum (map g l).
  Proof. induction l as [|x l IH]; cbn [map]; rewrite ?lsum_nil, ?lsum_cons, ?IH; ring. Qed.
  Lemma lsum_map_ext (f g : X -> R) l : (forall x, In x l -> f x = g x) -> lsum (map f l) = lsum (map g l).
  Proof. intros H. f_equal. apply map_ext_in. exact H. Qed.
  Lemma near_labs rho (s a v : X -> R) l : (forall x, In x l -> near rho 0 (s x) (a x) (v x)) ->
    labs (map v l) <= (1 + rho) * lsum (map a l).
  Proof.
    intros H. unfold labs. rewrite map_map, <- lsum_map_scal. apply lsum_map_le. intros x Hx.
    pose proof (near_size _ _ _ _ _ (H x Hx)). lra.
  Qed.
  Lemma near_lsum rho (s a v : X -> R) l : (forall x, In x l -> near rho 0 (s x) (a x) (v x)) ->
    near rho 0 (lsum (map s l)) (lsum (map a l)) (lsum (map v l)).
  Proof.
    induction l as [|x l IH]; intros H; cbn [map]; rewrite ?lsum_nil, ?lsum_cons.
    - split; rewrite ?Rminus_0_r, Rabs_R0; lra.
    - destruct (H x (or_introl eq_refl)) as (A & B). destruct IH as (A' & B'); [intros; apply H; right; assumption|].
      split; [eapply Rle_trans; [apply Rabs_triang|]; lra|].
      replace (v x + lsum (map v l) - (s x + lsum (map s l))) with ((v x - s x) + (lsum (map v l) - lsum (map s l))) by ring.
      eapply Rle_trans; [apply Rabs_triang|]. lra.
  Qed.
  Lemma near_summed rho (s a v : X -> R) l z : 0 <= rho -> (forall x, In x l -> float (v x)) ->
    (forall x, In x l -> near rho 0 (s x) (a x) (v x)) -> summed (map v l) z ->
    near ((1 + rho) * grow (length l) - 1) 0 (lsum (map s l)) (lsum (map a l)) z.
  Proof.
    intros P F H S. assert (L := near_labs _ _ _ _ _ H). assert (N := near_lsum _ _ _ _ _ H).
    assert (A := near_pos _ _ _ _ _ N). destruct N as (N1 & N2). split; [exact N1|].
    apply summed_good in S. 2: { apply Forall_forall. intros y Hy. apply in_map_iff in Hy. destruct Hy as (x & <- & Hx). apply F, Hx. }
    destruct S as (_ & _ & S). rewrite map_length in S.
    pose proof (grow_le (length l - 1) (length l) ltac:(lia)). pose proof (grow_ge_1 (length l - 1)).
    replace (z - lsum (map s l)) with ((z - lsum (map v l)) + (lsum (map v l) - lsum (map s l))) by ring.
    eapply Rle_trans; [apply Rabs_triang|].
    assert ((grow (length l - 1) - 1) * labs (map v l) <= (grow (length l) - 1) * ((1 + rho) * lsum (map a l))).
    { apply Rmult_le_compat; [lra | apply labs_pos | lra | exact L]. }
    lra.
  Qed.
  Lemma near_dotted rho (s a p q : X -> R) l z : 0 <= rho ->
    (forall x, In x l -> near rho 0 (s x) (a x) (p x * q x)) -> dotted (map (fun x => (p x, q x)) l) z ->
    near ((1 + rho) * grow (length l) - 1) (grow (length l) * (INR (length l) * T)) (lsum (map s l)) (lsum (map a l)) z.
  Proof.
    intros P H D. apply dotted_good in D. rewrite map_length in D. unfold prods in D. rewrite map_map in D. cbn [fst snd] in D.
    assert (L := near_labs _ _ _ _ _ H). assert (N := near_lsum _ _ _ _ _ H).
    assert (A := near_pos _ _ _ _ _ N). destruct N as (N1 & N2). split; [exact N1|].
    destruct D as (_ & _ & D).
    replace (z - lsum (map s l)) with ((z - lsum (map (fun x => p x * q x) l)) + (lsum (map (fun x => p x * q x) l) - lsum (map s l))) by ring.
    eapply Rle_trans; [apply Rabs_triang|]. pose proof (grow_ge_1 (length l)).
    assert ((grow (length l) - 1) * labs (map (fun x => p x * q x) l) <= (grow (length l) - 1) * ((1 + rho) * lsum (map a l))).
    { apply Rmult_le_compat_l; [lra | exact L]. }
    lra.
  Qed.
End Lists.

Lemma near_mul rho s a v sigma s' a' v' : near rho 0 s a v -> near sigma 0 s' a' v' ->
  near ((1 + rho) * (1 + sigma) - 1) 0 (s * s') (a * a') (v * v').
Proof.
  intros N N'. pose proof (near_size _ _ _ _ _ N) as S. pose proof (near_pos _ _ _ _ _ N) as A. pose proof (near_pos _ _ _ _ _ N') as A'.
  destruct N as (N1 & N2), N' as (N1' & N2'). split; [rewrite Rabs_mult; apply Rmult_le_compat; auto using Rabs_pos|].
  replace (v * v' - s * s') with (v * (v' - s') + (v - s) * s') by ring.
  eapply Rle_trans; [apply Rabs_triang|]. rewrite !Rabs_mult.
  assert (Rabs v * Rabs (v' - s') <= ((1 + rho) * a) * (sigma * a')) by (apply Rmult_le_compat; auto using Rabs_pos; lra).
  assert (Rabs (v - s) * Rabs s' <= (rho * a) * a') by (apply Rmult_le_compat; auto using Rabs_pos; lra). lra.
Qed.
Lemma near_sign rho c s a v : Rabs c = 1 -> near rho 0 s a v -> near rho 0 (c * s) a (c * v).
Proof.
  intros C (A & B). split; [rewrite Rabs_mult, C; lra|]. replace (c * v - c * s) with (c * (v - s)) by ring.
  rewrite Rabs_mult, C. lra.
Qed.
Lemma near_exp e d x y f : 0 <= e -> Rabs (y - x) <= d -> Rabs (f - exp y) <= e * exp y ->
  near ((1 + e) * exp d - 1) 0 (exp x) (exp x) f.
Proof.
  intros E D F. pose proof (exp_pos x). split; [rewrite Rabs_pos_eq; lra|].
  assert (A : exp y <= exp d * exp x).
  { rewrite <- exp_plus. destruct (Rle_lt_or_eq_dec y (d + x)) as [K|K].
    - pose proof (Rle_abs (y - x)). lra.
    - left. apply exp_increasing, K.
    - right. f_equal. exact K. }
  assert (B : exp (- d) * exp x <= exp y).
  { rewrite <- exp_plus. destruct (Rle_lt_or_eq_dec (- d + x) y) as [K|K].
    - pose proof (Rle_abs (- (y - x))). rewrite Rabs_Ropp in *. lra.
    - left. apply exp_increasing, K.
    - right. f_equal. exact K. }
  (** 1 - exp(-d) <= exp d - 1 *)
  assert (C : 2 <= exp d + exp (- d)).
  { rewrite exp_Ropp. pose proof (exp_pos d). assert (0 <= (exp d - 1) ^ 2 * / exp d).
    { apply Rmult_le_pos; [apply pow2_ge_0 | left; apply Rinv_0_lt_compat; assumption]. }
    replace ((exp d - 1) ^ 2 * / exp d) with (exp d + / exp d - 2) in * by (field; lra). lra. }
  replace (f - exp x) with ((f - exp y) + (exp y - exp x)) by ring. eapply Rle_trans; [apply Rabs_triang|].
  assert (Rabs (exp y - exp x) <= (exp d - 1) * exp x) by (apply Rabs_le; split; nra).
  assert (e * exp y <= e * (exp d * exp x)) by (apply Rmult_le_compat_l; assumption). lra.
Qed.

(** ** Exponents *)
Definition exact_call (c : call) : R := match c with Log a => ln (INR a) | Lgamma k => ln (gamma2 k) end.
Definition exact (ts : list (R * call)) : R := lsum (map (fun t => fst t * exact_call (snd t)) ts).
Definition call_size (c : call) : R := match c with Log a => ln (INR a) | Lgamma k => 1 + Rabs (ln (gamma2 k)) end.
Definition cost (ts : list (R * call)) : R := lsum (map (fun t => Rabs (fst t) * call_size (snd t)) ts).
Definition in_range (c : call) : Prop := match c with Log a => (2 <= a <= 50)%nat | Lgamma k => (1 <= k <= 50)%nat end.

Lemma ln_nonneg a : (1 <= a)%nat -> 0 <= ln (INR a).
Proof.
  intros H. destruct (Nat.eq_dec a 1) as [->|N]; [cbn; rewrite ln_1; lra|]. left. rewrite <- ln_1. apply ln_increasing; [lra|].
  apply (lt_INR 1). lia.
Qed.
Lemma ln_mono a b : 0 < a -> a <= b -> ln a <= ln b.
Proof. intros A [H | ->]; [left; apply ln_increasing; assumption | lra]. Qed.

Lemma exponent_near Gam e M ts x : is_gamma Gam -> 0 <= e -> libm_accurate Gam e M ->
  (forall t, In t ts -> in_range (snd t)) -> exponent M ts x ->
  near ((1 + e) * grow (length ts) - 1) (grow (length ts) * (INR (length ts) * T)) (exact ts) (cost ts) x.
Proof.
  intros HG E (A1 & A2 & _) R D. unfold exponent in D.
  apply (near_dotted e (fun t => fst t * exact_call (snd t)) (fun t => Rabs (fst t) * call_size (snd t))) in D; [exact D | exact E |].
  intros (c & [a|k]) Ht; specialize (R _ Ht); cbn [fst snd in_range exact_call call_size value] in *.
  - pose proof (ln_nonneg a ltac:(lia)). split; [rewrite Rabs_mult, (Rabs_pos_eq (ln _)) by assumption; lra|].
    rewrite <- Rmult_minus_distr_l, Rabs_mult. specialize (A1 a R). pose proof (Rabs_pos c).
    assert (Rabs c * Rabs (flog M (INR a) - ln (INR a)) <= Rabs c * (e * ln (INR a))) by (apply Rmult_le_compat_l; assumption). lra.
  - specialize (A2 k R). rewrite <- (gamma2_ok Gam k HG) in A2 by lia. pose proof (Rabs_pos c). pose proof (Rabs_pos (ln (gamma2 k))).
    split; [rewrite Rabs_mult; apply Rmult_le_compat_l; lra|]. rewrite <- Rmult_minus_distr_l, Rabs_mult.
    assert (Rabs c * Rabs (flgamma M (INR k / 2) - ln (gamma2 k)) <= Rabs c * (e * (1 + Rabs (ln (gamma2 k))))) by (apply Rmult_le_compat_l; assumption). lra.
Qed.

(** Lists of terms: exact value, number, cost, range *)
Lemma exact_app ts ts' : exact (ts ++ ts') = exact ts + exact ts'.
Proof. unfold exact. rewrite map_app. apply lsum_app. Qed.
Lemma cost_app ts ts' : cost (ts ++ ts') = cost ts + cost ts'.
Proof. unfold cost. rewrite map_app. apply lsum_app. Qed.
Lemma log_factorial_lsum n : log_factorial n = lsum (map (fun a => ln (INR a)) (seq 2 (n - 1))).
Proof.
  unfold log_factorial. generalize (seq 2 (n - 1)). intros l.
  assert (H : forall acc, fold_left (fun fac a => fac + ln (INR a)) l acc = acc + lsum (map (fun a => ln (INR a)) l)).
  { induction l as [|a l IH]; intros acc; cbn [fold_left map]; rewrite ?lsum_nil, ?lsum_cons; [ring|]. rewrite IH. ring. }
  rewrite H. ring.
Qed.
Lemma exact_factorial c n : exact (log_factorial_terms c n) = c * log_factorial n.
Proof. rewrite log_factorial_lsum. unfold exact, log_factorial_terms. rewrite map_map. cbn [fst snd exact_call]. apply lsum_map_scal. Qed.
Lemma length_factorial c n : (length (log_factorial_terms c n) <= n)%nat.
Proof. unfold log_factorial_terms. rewrite map_length, seq_length. lia. Qed.
Lemma range_factorial c n t : (n <= 50)%nat -> In t (log_factorial_terms c n) -> in_range (snd t).
Proof. intros H I. apply in_map_iff in I. destruct I as (a & <- & I). apply in_seq in I. cbn. lia. Qed.

Lemma exp_pow x n : exp (INR n * x) = exp x ^ n.
Proof. induction n as [|n IH]; [cbn; rewrite Rmult_0_l; apply exp_0|]. rewrite S_INR, Rmult_plus_distr_r, Rmult_1_l, exp_plus, IH. cbn. ring. Qed.
Lemma ln_2_low : 27 / 40 <= ln 2.
Proof.
  assert (H : / 2 <= exp (- (27 / 40))).
  { replace (- (27 / 40)) with (INR 32 * (- (27 / 1280))) by (cbn; lra). rewrite exp_pow.
    apply Rle_trans with ((1 - 27 / 1280) ^ 32); [lra|]. apply pow_incr. pose proof (exp_ineq1 (- (27 / 1280))). lra. }
  apply Ropp_le_cancel. rewrite <- (ln_exp (- (27 / 40))), <- ln_Rinv by lra. apply ln_mono; lra.
Qed.
Lemma ln_2_high : ln 2 <= 3 / 4.
Proof.
  rewrite <- (ln_exp (3 / 4)). apply ln_mono; [lra|]. replace (3 / 4) with (INR 8 * (3 / 32)) by (cbn; lra). rewrite exp_pow.
  apply Rle_trans with ((1 + 3 / 32) ^ 8); [lra|]. apply pow_incr. pose proof (exp_ineq1 (3 / 32)). lra.
Qed.
Lemma ln_2_le_1 : ln 2 <= 1.
Proof.
  rewrite <- (ln_exp 1). apply ln_mono; [lra|]. pose proof (exp_ineq1 1). lra.
Qed.
Lemma sqrt_pi_range : 1 <= sqrt PI <= 2.
Proof.
  pose proof PI2_3_2. pose proof PI_4. split.
  - rewrite <- sqrt_1. apply sqrt_le_1_alt. unfold PI2 in *. lra.
  - replace 2 with (sqrt 4) by (replace 4 with (2 * 2) by ring; apply sqrt_square; lra). apply sqrt_le_1_alt. lra.
Qed.

(** [w] is the number of quanta, [lam] its logarithm *)
Section Cost.
  Variable w : nat.
  Local Notation lam := (ln (INR w + 2)).
  Lemma lam_pos : 27 / 40 <= lam.
  Proof. pose proof (pos_INR w). pose proof ln_2_low. pose proof (ln_mono 2 (INR w + 2)). lra. Qed.
  Lemma ln_lam a : (2 <= a <= w + 2)%nat -> ln (INR a) <= lam.
  Proof. intros H. apply ln_mono; [apply lt_0_INR; lia|]. replace (INR w + 2) with (INR (w + 2)) by (rewrite plus_INR; reflexivity). apply le_INR. lia. Qed.
  Lemma cost_factorial c n : Rabs c = 1 -> (n <= w)%nat -> cost (log_factorial_terms c n) <= INR n * lam.
  Proof.
    intros C H. unfold cost, log_factorial_terms. rewrite map_map. cbn [fst snd call_size]. rewrite C.
    assert (G : forall l, (forall a, In a l -> (2 <= a <= w + 2)%nat) -> lsum (map (fun a => 1 * ln (INR a)) l) <= INR (length l) * lam).
    { induction l as [|a l IH]; intros K; cbn [map length]; rewrite ?lsum_nil, ?lsum_cons, ?S_INR; [cbn; lra|].
      pose proof (ln_lam a (K a (or_introl eq_refl))). specialize (IH (fun a I => K a (or_intror I))). lra. }
    eapply Rle_trans; [apply G; intros a I; apply in_seq in I; lia|]. rewrite seq_length. pose proof lam_pos.
    apply Rmult_le_compat_r; [lra|]. apply le_INR. lia.
  Qed.
  Lemma ln_gamma2 k : (1 <= k <= w + 2)%nat -> Rabs (ln (gamma2 k)) <= 1 + INR k / 2 * lam.
  Proof.
    pose proof lam_pos as P. intros K.
    assert (Q : -1 <= ln (gamma2 k) <= 1 + INR k / 2 * lam).
    { revert K. induction k as [k IH] using (well_founded_induction lt_wf). destruct k as [|[|[|[|k]]]]; intros K; [lia| | | |].
      - change (gamma2 1) with (sqrt PI). pose proof sqrt_pi_range as (S1 & S2). cbn [INR].
        pose proof (ln_mono 1 (sqrt PI)). pose proof (ln_mono (sqrt PI) 2). pose proof ln_2_le_1. rewrite ln_1 in *. lra.
      - change (gamma2 2) with 1. rewrite ln_1. cbn [INR]. lra.
      - change (gamma2 3) with (1 / 2 * sqrt PI). pose proof sqrt_pi_range as (S1 & S2). pose proof (ln_mono (/ 2) (1 / 2 * sqrt PI)).
        pose proof (ln_mono (1 / 2 * sqrt PI) 1). pose proof ln_2_le_1. rewrite ln_1, ln_Rinv in * by lra. cbn [INR]. lra.
      - change (gamma2 (S (S (S (S k))))) with (INR (S (S k)) / 2 * gamma2 (S (S k))).
        assert (H : 1 <= INR (S (S k)) / 2) by (rewrite !S_INR; pose proof (pos_INR k); lra).
        rewrite ln_mult; [|lra | apply gamma2_pos; lia]. destruct (IH (S (S k)) ltac:(lia) ltac:(lia)) as (A & B).
        pose proof (ln_mono 1 (INR (S (S k)) / 2)). rewrite ln_1 in *.
        pose proof (ln_mono (INR (S (S k)) / 2) (INR (S (S k)))). pose proof (ln_lam (S (S k)) ltac:(lia)).
        replace (INR (S (S (S (S k))))) with (INR (S (S k)) + 2) by (rewrite !S_INR; ring). lra. }
    apply Rabs_le. pose proof (pos_INR k). assert (0 <= INR k / 2 * lam) by (apply Rmult_le_pos; lra). lra.
  Qed.

  (** The three exponents *)
  Lemma cost_gammas a b : (1 <= a)%nat -> (1 <= b)%nat -> (a + b <= w + 3)%nat ->
    cost [(1, Lgamma a); (1, Lgamma b)] <= (INR w / 2 + 8) * lam.
  Proof.
    intros A B H. unfold cost. cbn [map fst snd call_size]. rewrite !lsum_cons, lsum_nil, Rabs_R1.
    pose proof (ln_gamma2 a ltac:(lia)). pose proof (ln_gamma2 b ltac:(lia)). pose proof lam_pos.
    apply le_INR in H. rewrite !plus_INR in H. cbn [INR] in H.
    assert ((INR a + INR b) * lam <= (INR w + 3) * lam) by (apply Rmult_le_compat_r; lra). lra.
  Qed.

  Ltac lengths := repeat match goal with |- context [length (log_factorial_terms ?c ?n)] =>
    let H := fresh in pose proof (length_factorial c n) as H; revert H; generalize (length (log_factorial_terms c n)); intros ? H end.
  Ltac costs := repeat match goal with |- context [cost (log_factorial_terms ?c ?n)] =>
    let H := fresh in assert (H : cost (log_factorial_terms c n) <= INR n * lam)
      by (apply cost_factorial; [first [apply Rabs_R1 | rewrite Rabs_left; lra] | lia]);
    revert H; generalize (cost (log_factorial_terms c n)); intros ? H end.
  Ltac ranges := repeat match goal with H : In _ (_ ++ _) |- _ => apply in_app_or in H; destruct H as [H|H] end;
    try match goal with H : In _ (log_factorial_terms _ _) |- _ => apply range_factorial in H; [exact H | lia] end.
  Definition fine (ts : list (R * call)) : Prop :=
    (length ts <= 2 * w + 2)%nat /\ cost ts <= (3 * INR w + 8) * lam /\ ((w <= 48)%nat -> forall t, In t ts -> in_range (snd t)).

  Lemma inner_fine g0 g1 g2 g3 l0 l1 l2 l3 : (l0 <= g0)%nat -> (l1 <= g1)%nat -> (l2 <= g2)%nat -> (l3 <= g3)%nat ->
    (g0 + g1 + g2 + g3 <= w)%nat -> fine (inner_exponent g0 g1 g2 g3 (l0, l1, l2, l3)).
  Proof.
    intros H0 H1 H2 H3 G. unfold inner_exponent, log_product_3_terms. cbn [combine flat_map]. rewrite app_nil_r. split; [|split].
    - rewrite !app_length. lengths. cbn [length]. lia.
    - rewrite !cost_app. pose proof (cost_gammas (2 + (l0 + l1 + l2 + l3)) (g0 + g1 + g2 + g3 - (l0 + l1 + l2 + l3) + 1) ltac:(lia) ltac:(lia) ltac:(lia)) as Q.
      costs. apply le_INR in G. rewrite !plus_INR in G. rewrite !minus_INR in * by assumption. pose proof lam_pos.
      assert ((INR g0 + INR g1 + INR g2 + INR g3) * lam <= INR w * lam) by (apply Rmult_le_compat_r; lra). pose proof (pos_INR w).
      assert (0 <= INR w * lam) by (apply Rmult_le_pos; lra). lra.
    - intros W t I. ranges. cbn [In] in I. destruct I as [<-|[<-|[]]]; cbn [snd in_range]; lia.
  Qed.
  Lemma inner_exact g0 g1 g2 g3 l0 l1 l2 l3 : exact (inner_exponent g0 g1 g2 g3 (l0, l1, l2, l3))
    = log_product_3 [l0; l1; l2; l3] [g0; g1; g2; g3] + lgamma2 (2 + (l0 + l1 + l2 + l3)) + lgamma2 (g0 + g1 + g2 + g3 - (l0 + l1 + l2 + l3) + 1).
  Proof.
    unfold inner_exponent, log_product_3_terms, log_product_3, lgamma2. cbn [combine flat_map fold_left]. rewrite app_nil_r, !exact_app, !exact_factorial.
    unfold exact. cbn [map fst snd exact_call]. rewrite !lsum_cons, lsum_nil. ring.
  Qed.
  Lemma outer_fine n0 n1 n2 n3 m0 m1 m2 m3 j0 j1 j2 j3 G : (j0 <= n0)%nat -> (j1 <= n1)%nat -> (j2 <= n2)%nat -> (j3 <= n3)%nat ->
    (quanta n0 m0 + quanta n1 m1 + quanta n2 m2 + quanta n3 m3 <= w)%nat -> (G <= w)%nat ->
    fine (outer_exponent [n0; n1; n2; n3] [m0; m1; m2; m3] G (j0, j1, j2, j3)).
  Proof.
    intros H0 H1 H2 H3 W HG. unfold quanta in W. unfold outer_exponent, log_ratio_1_terms, log_product_2_terms, log_ratio_2_terms. cbn [combine flat_map]. rewrite !app_nil_r. split; [|split].
    - rewrite !app_length. lengths. cbn [length]. lia.
    - rewrite !cost_app. costs.
      assert (Q : cost [(- (1 / 2) * (INR G + 1), Log 2)] <= (INR w + 1) / 2 * lam).
      { unfold cost. cbn [map fst snd call_size]. rewrite lsum_cons, lsum_nil, Rplus_0_r. pose proof (pos_INR G). apply le_INR in HG.
        rewrite Rabs_mult, Rabs_left, (Rabs_pos_eq (INR G + 1)) by lra. pose proof (ln_lam 2 ltac:(lia)). pose proof ln_2_low. change (INR 2) with 2 in *.
        apply Rmult_le_compat; lra. }
      apply le_INR in W. rewrite !plus_INR, !mult_INR in W. change (INR 2) with 2 in W. rewrite !plus_INR, ?minus_INR in * by assumption.
      pose proof (le_INR _ _ H0). pose proof (le_INR _ _ H1). pose proof (le_INR _ _ H2). pose proof (le_INR _ _ H3). pose proof lam_pos.
      pose proof (pos_INR n0). pose proof (pos_INR n1). pose proof (pos_INR n2). pose proof (pos_INR n3). pose proof (pos_INR w).
      set (A := Z.abs_nat m0) in *. set (B := Z.abs_nat m1) in *. set (D := Z.abs_nat m2) in *. set (E := Z.abs_nat m3) in *.
      assert ((INR j0 + INR j1 + INR j2 + INR j3 + 2 * (INR n0 + INR n1 + INR n2 + INR n3 + INR A + INR B + INR D + INR E)) * lam <= (2 * INR w) * lam)
        by (apply Rmult_le_compat_r; lra).
      assert (0 <= INR w * lam) by (apply Rmult_le_pos; lra). lra.
    - intros W' t I. ranges. cbn [In] in I. destruct I as [<-|[]]; cbn [snd in_range]; lia.
  Qed.
  Lemma outer_exact n0 n1 n2 n3 m0 m1 m2 m3 j0 j1 j2 j3 G : exact (outer_exponent [n0; n1; n2; n3] [m0; m1; m2; m3] G (j0, j1, j2, j3))
    = log_ratio_1 [j0; j1; j2; j3] + log_product_2 [n0; n1; n2; n3] [m0; m1; m2; m3] [j0; j1; j2; j3] + log_ratio_2 G.
  Proof.
    unfold outer_exponent, log_ratio_1_terms, log_product_2_terms, log_ratio_2_terms, log_ratio_1, log_product_2, log_ratio_2.
    cbn [combine flat_map fold_left]. rewrite !app_nil_r, !exact_app, !exact_factorial.
    unfold exact. cbn [map fst snd exact_call]. rewrite !lsum_cons, lsum_nil. change (INR 2) with 2. ring.
  Qed.
  Lemma norm_fine n0 n1 n2 n3 m0 m1 m2 m3 : (quanta n0 m0 + quanta n1 m1 + quanta n2 m2 + quanta n3 m3 <= w)%nat ->
    fine (log_product_1_terms [n0; n1; n2; n3] [m0; m1; m2; m3]).
  Proof.
    intros W. unfold quanta in W. unfold log_product_1_terms. cbn [combine flat_map]. rewrite !app_nil_r. split; [|split].
    - rewrite !app_length. lengths. lia.
    - rewrite !cost_app. costs. apply le_INR in W. rewrite !plus_INR, !mult_INR in W. change (INR 2) with 2 in W. rewrite !plus_INR in *.
      pose proof lam_pos. pose proof (pos_INR w).
      set (A := Z.abs_nat m0) in *. set (B := Z.abs_nat m1) in *. set (D := Z.abs_nat m2) in *. set (E := Z.abs_nat m3) in *.
      assert ((2 * (INR n0 + INR n1 + INR n2 + INR n3) + INR A + INR B + INR D + INR E) * lam <= INR w * lam) by (apply Rmult_le_compat_r; lra).
      assert (0 <= INR w * lam) by (apply Rmult_le_pos; lra). lra.
    - intros W' t I. ranges.
  Qed.
  Lemma norm_exact n0 n1 n2 n3 m0 m1 m2 m3 : exp (1 / 2 * exact (log_product_1_terms [n0; n1; n2; n3] [m0; m1; m2; m3]))
    = log_product_1 [n0; n1; n2; n3] [m0; m1; m2; m3].
  Proof.
    unfold log_product_1_terms, log_product_1. cbn [combine flat_map fold_left]. rewrite !app_nil_r, !exact_app, !exact_factorial. f_equal. ring.
  Qed.
End Cost.

(** ** The error of an exponent *)
Lemma T_le_U : T <= U.
Proof. rewrite T_bpow, U_bpow. apply bpow_le. lia. Qed.
Lemma lam_high w : (w <= 48)%nat -> ln (INR w + 2) <= 9 / 2.
Proof.
  intros H. apply le_INR in H. pose proof (pos_INR w). replace (INR 48) with 48 in H by (cbn; lra).
  apply Rle_trans with (ln (2 ^ 6)); [apply ln_mono; lra|]. rewrite ln_pow by lra. pose proof ln_2_high. cbn. lra.
Qed.
Section Exponents.
  Variables (Gam : R -> R) (e : R) (M : libm) (w : nat).
  Hypothesis (HG : is_gamma Gam) (E0 : 0 <= e) (E1 : e <= / 1000000) (OK : libm_accurate Gam e M) (W : (w <= 48)%nat).
  Local Notation delta := (exponent_error e w).
  Lemma delta_pos : 0 <= delta.
  Proof.
    unfold exponent_error. pose proof U_pos. pose proof (pos_INR w). pose proof (lam_pos w).
    apply Rmult_le_pos; [apply Rmult_le_pos|]; try lra. apply Rplus_le_le_0_compat; [lra|]. apply Rmult_le_pos; lra.
  Qed.
  Lemma w_high : INR w <= 48.
  Proof. pose proof (le_INR _ _ W). replace (INR 48) with 48 in * by (cbn; lra). assumption. Qed.
  Lemma span_high : (3 * INR w + 8) * ln (INR w + 2) <= 684.
  Proof.
    pose proof w_high. pose proof (lam_high w W). pose proof (lam_pos w). pose proof (pos_INR w).
    replace 684 with (152 * (9 / 2)) by lra. apply Rmult_le_compat; lra.
  Qed.
  Lemma delta_small : delta <= / 1000.
  Proof.
    unfold exponent_error. rewrite Rmult_assoc. pose proof span_high. pose proof w_high. pose proof U_small. pose proof (lam_pos w). pose proof (pos_INR w). pose proof U_pos.
    assert (0 <= (3 * INR w + 8) * ln (INR w + 2)) by (apply Rmult_le_pos; lra).
    assert (e + 9 * (INR w + 1) * U <= / 1000000 + / 10000000000).
    { assert ((INR w + 1) * U <= 49 * / 9007199254740992) by (apply Rmult_le_compat; lra). lra. }
    apply Rle_trans with ((/ 1000000 + / 10000000000) * 684); [|lra]. apply Rmult_le_compat; try lra.
    apply Rplus_le_le_0_compat; [lra|]. apply Rmult_le_pos; lra.
  Qed.
  Lemma fine_error ts x : fine w ts -> exponent M ts x -> Rabs (x - exact ts) <= delta.
  Proof.
    intros (L & Q & R) D. apply (exponent_near Gam e M ts x HG E0 OK (R W)) in D. destruct D as (_ & D).
    eapply Rle_trans; [exact D|]. pose proof U_pos as UP. pose proof T_pos as TP. pose proof T_le_U. pose proof (pos_INR w). pose proof (lam_pos w) as LP. pose proof U_small. pose proof w_high.
    assert (K : INR (length ts) <= 2 * (INR w + 1)).
    { apply le_INR in L. rewrite plus_INR, mult_INR in L. change (INR 2) with 2 in L. lra. }
    pose proof (pos_INR (length ts)).
    assert (KU : INR (length ts) * U <= 2 * (INR w + 1) * U) by (apply Rmult_le_compat_r; lra).
    assert (K1 : INR (length ts) * U <= 1 / 2). { assert ((INR w + 1) * U <= 49 * / 9007199254740992) by (apply Rmult_le_compat; lra). lra. }
    pose proof (grow_small (length ts) ltac:(lra)) as GS. pose proof (grow_ge_1 (length ts)) as G1.
    set (g := grow (length ts)) in *. set (k := INR (length ts)) in *.
    assert (A1 : (1 + e) * g - 1 <= e + 8 * (INR w + 1) * U).
    { assert ((1 + e) * (g - 1) <= 2 * (4 * (INR w + 1) * U)) by (apply Rmult_le_compat; lra). lra. }
    assert (A0 : 0 <= (1 + e) * g - 1). { assert (1 * 1 <= (1 + e) * g) by (apply Rmult_le_compat; lra). lra. }
    set (S := (3 * INR w + 8) * ln (INR w + 2)) in *.
    assert (SP : 4 <= S). { replace 4 with (8 * (1 / 2)) by lra. apply Rmult_le_compat; lra. }
    assert (CP : 0 <= cost ts).
    { unfold cost. replace 0 with (lsum (map (fun _ => 0) ts)) by (clear; induction ts; cbn [map]; rewrite ?lsum_nil, ?lsum_cons; lra).
      apply lsum_map_le. intros (c & [a|n]) I; specialize (R W _ I); cbn [fst snd call_size in_range] in *; apply Rmult_le_pos; try apply Rabs_pos.
      - apply ln_nonneg. lia.
      - pose proof (Rabs_pos (ln (gamma2 n))). lra. }
    assert (B1 : ((1 + e) * g - 1) * cost ts <= (e + 8 * (INR w + 1) * U) * S) by (apply Rmult_le_compat; assumption).
    assert (B2 : g * (k * T) <= 4 * ((INR w + 1) * U)).
    { assert (k * T <= 2 * (INR w + 1) * U) by (apply Rmult_le_compat; lra).
      assert (0 <= k * T) by (apply Rmult_le_pos; lra).
      apply Rle_trans with (2 * (2 * (INR w + 1) * U)); [apply Rmult_le_compat; lra | lra]. }
    assert (B3 : 4 * ((INR w + 1) * U) <= S * ((INR w + 1) * U)) by (apply Rmult_le_compat_r; [apply Rmult_le_pos; lra | lra]).
    unfold exponent_error. rewrite (Rmult_assoc _ (3 * INR w + 8)). fold S. lra.
  Qed.
  Lemma exact_span ts : fine w ts -> Rabs (exact ts) <= 684.
  Proof.
    intros (L & Q & R). pose proof span_high. eapply Rle_trans; [|eapply Rle_trans; [exact Q | assumption]].
    unfold exact, cost. eapply Rle_trans; [apply lsum_abs|]. unfold labs. rewrite map_map. apply lsum_map_le.
    intros (c & [a|n]) I; specialize (R W _ I); cbn [fst snd call_size exact_call in_range] in *; rewrite Rabs_mult; apply Rmult_le_compat_l; try apply Rabs_pos.
    - rewrite Rabs_pos_eq; [lra | apply ln_nonneg; lia].
    - lra.
  Qed.
  Lemma exp_near ts y c : fine w ts -> float y -> Rabs c <= 1 -> Rabs (y - c * exact ts) <= delta ->
    float (fexp M y) /\ near ((1 + e) * exp delta - 1) 0 (exp (c * exact ts)) (exp (c * exact ts)) (fexp M y).
  Proof.
    intros F FY C D. destruct OK as (_ & _ & X).
    assert (R : -690 <= y <= 690).
    { pose proof (exact_span ts F). pose proof delta_small.
      assert (Rabs y <= 690); [|pose proof (Rle_abs y); pose proof (Rle_abs (- y)); rewrite Rabs_Ropp in *; lra].
      replace y with ((y - c * exact ts) + c * exact ts) by ring.
      eapply Rle_trans; [apply Rabs_triang|]. rewrite (Rabs_mult c).
      assert (Rabs c * Rabs (exact ts) <= 1 * 684) by (apply Rmult_le_compat; auto using Rabs_pos). lra. }
    destruct (X y FY R) as (X1 & X2). split; [exact X1|]. apply (near_exp e delta (c * exact ts) y); assumption.
  Qed.
  Lemma exp_near_1 ts x : fine w ts -> exponent M ts x ->
    float (fexp M x) /\ near ((1 + e) * exp delta - 1) 0 (exp (exact ts)) (exp (exact ts)) (fexp M x).
  Proof.
    intros F D. pose proof (exp_near ts x 1 F (dotted_float _ _ D)) as H. rewrite Rmult_1_l in H. apply H; [rewrite Rabs_R1; lra|].
    apply fine_error; assumption.
  Qed.
  Lemma exp_near_half ts x : fine w ts -> exponent M ts x ->
    float (fexp M (fmul (1 / 2) x)) /\
    near ((1 + e) * exp delta - 1) 0 (exp (1 / 2 * exact ts)) (exp (1 / 2 * exact ts)) (fexp M (fmul (1 / 2) x)).
  Proof.
    intros F D. apply exp_near; [exact F | apply fl_float | rewrite Rabs_pos_eq; lra |].
    pose proof (fine_error ts x F D) as H. pose proof (fl_err (1 / 2 * x)) as R. fold (fmul (1 / 2) x) in R.
    assert (X : Rabs x <= (3 * INR w + 8) * ln (INR w + 2) + delta).
    { replace x with ((x - exact ts) + exact ts) by ring. eapply Rle_trans; [apply Rabs_triang|]. destruct F as (_ & Q & RR).
      assert (Rabs (exact ts) <= cost ts); [|lra]. unfold exact, cost. eapply Rle_trans; [apply lsum_abs|]. unfold labs. rewrite map_map. apply lsum_map_le.
      intros (c & [a|n]) I; specialize (RR W _ I); cbn [fst snd call_size exact_call in_range] in *; rewrite Rabs_mult; apply Rmult_le_compat_l; try apply Rabs_pos.
      - rewrite Rabs_pos_eq; [lra | apply ln_nonneg; lia].
      - lra. }
    set (S := (3 * INR w + 8) * ln (INR w + 2)) in *. pose proof U_pos. pose proof T_le_U. pose proof delta_pos. pose proof delta_small. pose proof (pos_INR w). pose proof (lam_pos w).
    assert (SP : 4 <= S). { replace 4 with (8 * (1 / 2)) by lra. apply Rmult_le_compat; lra. }
    assert (DS : 9 * U * S <= delta).
    { unfold exponent_error. rewrite (Rmult_assoc _ (3 * INR w + 8)). fold S. apply Rmult_le_compat_r; [lra|].
      assert (1 * U <= (INR w + 1) * U) by (apply Rmult_le_compat_r; lra). lra. }
    assert (UX : U * Rabs x <= U * (S + delta)) by (apply Rmult_le_compat_l; lra).
    assert (U * delta <= U * S) by (apply Rmult_le_compat_l; lra).
    assert (U * 4 <= U * S) by (apply Rmult_le_compat_l; lra).
    rewrite Rabs_mult, (Rabs_pos_eq (1 / 2)) in R by lra.
    replace (fmul (1 / 2) x - 1 / 2 * exact ts) with ((fmul (1 / 2) x - 1 / 2 * x) + 1 / 2 * (x - exact ts)) by ring.
    eapply Rle_trans; [apply Rabs_triang|]. rewrite (Rabs_mult (1 / 2)), (Rabs_pos_eq (1 / 2)) by lra. lra.
  Qed.
End Exponents.

(** ** Sums over four indices *)
Lemma rsum_lsum n f : CoulombProofs.rsum n f = lsum (map f (seq 0 n)).
Proof. induction n as [|n IH]; [reflexivity|]. rewrite seq_S, map_app, lsum_app. cbn [CoulombProofs.rsum Nat.add map]. rewrite IH, lsum_cons, lsum_nil. ring. Qed.
Lemma lsum_flat_map {X Y} (f : Y -> R) (g : X -> list Y) l : lsum (map f (flat_map g l)) = lsum (map (fun x => lsum (map f (g x))) l).
Proof. induction l as [|x l IH]; [reflexivity|]. cbn [flat_map map]. rewrite map_app, lsum_app, lsum_cons, IH. reflexivity. Qed.
Lemma quads_sum a b c d (f : nat * nat * nat * nat -> R) :
  lsum (map f (quads a b c d))
  = CoulombProofs.rsum (a + 1) (fun i => CoulombProofs.rsum (b + 1) (fun j => CoulombProofs.rsum (c + 1) (fun k => CoulombProofs.rsum (d + 1) (fun l => f (i, j, k, l))))).
Proof.
  unfold quads. rewrite lsum_flat_map, rsum_lsum. apply lsum_map_ext. intros i _.
  rewrite lsum_flat_map, rsum_lsum. apply lsum_map_ext. intros j _.
  rewrite lsum_flat_map, rsum_lsum. apply lsum_map_ext. intros k _. rewrite rsum_lsum, map_map. reflexivity.
Qed.
Lemma in_quads a b c d i j k l : In (i, j, k, l) (quads a b c d) -> (i <= a /\ j <= b /\ k <= c /\ l <= d)%nat.
Proof.
  unfold quads. intros H. apply in_flat_map in H. destruct H as (i' & Hi & H). apply in_flat_map in H. destruct H as (j' & Hj & H).
  apply in_flat_map in H. destruct H as (k' & Hk & H). apply in_map_iff in H. destruct H as (l' & E & Hl). inversion E; subst.
  apply in_seq in Hi, Hj, Hk, Hl. lia.
Qed.
Lemma flat_map_length_const {X Y} (g : X -> list Y) n l : (forall x, length (g x) = n) -> length (flat_map g l) = (length l * n)%nat.
Proof. intros H. induction l as [|x l IH]; [reflexivity|]. cbn [flat_map length]. rewrite app_length, H, IH. reflexivity. Qed.
Lemma quads_length a b c d : length (quads a b c d) = ((a + 1) * ((b + 1) * ((c + 1) * (d + 1))))%nat.
Proof.
  unfold quads. rewrite (flat_map_length_const _ ((b + 1) * ((c + 1) * (d + 1)))), seq_length; [reflexivity|]. intros i.
  rewrite (flat_map_length_const _ ((c + 1) * (d + 1))), seq_length; [reflexivity|]. intros j.
  rewrite (flat_map_length_const _ (d + 1)), seq_length; [reflexivity|]. intros k. rewrite map_length, seq_length. reflexivity.
Qed.
Lemma amgm x y : (4 * (x * y) <= (x + y) * (x + y))%nat.
Proof. destruct (Nat.le_ge_cases x y) as [H|H]; apply Nat.le_exists_sub in H; destruct H as (d & -> & _); nia. Qed.
Lemma quads_terms a b c d w : (a + b + c + d <= w)%nat -> (length (quads a b c d) <= terms w)%nat.
Proof.
  intros H. rewrite quads_length. unfold terms. apply Nat.div_le_lower_bound; [lia|].
  set (x := (a + 1)%nat). set (y := (b + 1)%nat). set (z := (c + 1)%nat). set (t := (d + 1)%nat).
  assert (S : (x + y + (z + t) <= w + 4)%nat) by (unfold x, y, z, t; lia).
  apply Nat.le_trans with ((x + y + (z + t)) ^ 4)%nat; [|apply Nat.pow_le_mono_l; exact S].
  pose proof (amgm x y) as A. pose proof (amgm z t) as B. pose proof (amgm (x + y) (z + t)) as D.
  assert (E : (4 * (x * y) * (4 * (z * t)) <= (x + y) * (x + y) * ((z + t) * (z + t)))%nat) by (apply Nat.mul_le_mono; assumption).
  assert (F : (4 * ((x + y) * (z + t)) * (4 * ((x + y) * (z + t))) <= (x + y + (z + t)) * (x + y + (z + t)) * ((x + y + (z + t)) * (x + y + (z + t))))%nat)
    by (apply Nat.mul_le_mono; assumption).
  cbn [Nat.pow]. rewrite Nat.mul_1_r. lia.
Qed.
Lemma lsum_filter {X} (p : X -> bool) (f : X -> R) l : lsum (map f (filter p l)) = lsum (map (fun x => if p x then f x else 0) l).
Proof. induction l as [|x l IH]; [reflexivity|]. cbn [filter map]. destruct (p x); cbn [map]; rewrite !lsum_cons, IH; lra. Qed.
Lemma filter_length_le' {X} (p : X -> bool) l : (length (filter p l) <= length l)%nat.
Proof. induction l as [|x l IH]; [reflexivity|]. cbn [filter length]. destruct (p x); cbn [length]; lia. Qed.
Lemma sign_of_abs x : Rabs (sign_of x) = 1.
Proof. rewrite sign_of_ok. apply pow_1_abs. Qed.

(** ** The exact sums *)
Lemma near_mono rho rho' t s a v : rho <= rho' -> near rho t s a v -> near rho' t s a v.
Proof. intros H N. pose proof (near_pos _ _ _ _ _ N). destruct N as (A & B). split; [exact A|]. assert (rho * a <= rho' * a) by (apply Rmult_le_compat_r; assumption). lra. Qed.
Definition inner_list (g0 g1 g2 g3 : nat) := filter kept (quads g0 g1 g2 g3).
Definition inner_size' (g0 g1 g2 g3 : nat) : R := lsum (map (fun l => exp (exact (inner_exponent g0 g1 g2 g3 l))) (inner_list g0 g1 g2 g3)).
Lemma inner_exact_sum g0 g1 g2 g3 :
  lsum (map (fun l => inner_sign g1 g2 l * exp (exact (inner_exponent g0 g1 g2 g3 l))) (inner_list g0 g1 g2 g3)) = inner g0 g1 g2 g3 (g0 + g1 + g2 + g3).
Proof.
  rewrite inner_ok. unfold inner_sum, inner_list. rewrite lsum_filter, quads_sum. apply sum4_ext. intros l0 l1 l2 l3 _ _ _ _. cbn [kept inner_sign].
  destruct (Nat.eqb_spec (l0 + l1) (l2 + l3)) as [E|E]; destruct (Nat.eq_dec (l0 + l1) (l2 + l3)); try contradiction; [|reflexivity].
  rewrite inner_exact, sign_of_ok, exp_product_3 by lia. ring.
Qed.
Lemma inner_size_ok Gam g0 g1 g2 g3 : is_gamma Gam -> inner_size' g0 g1 g2 g3 = am_inner_size Gam g0 g1 g2 g3.
Proof.
  intros HG. unfold inner_size', inner_list, am_inner_size. rewrite lsum_filter, quads_sum.
  rewrite rsum_sigma. apply sum_eq. intros l0 H0. rewrite rsum_sigma. apply sum_eq. intros l1 H1.
  rewrite rsum_sigma. apply sum_eq. intros l2 H2. rewrite rsum_sigma. apply sum_eq. intros l3 H3. cbn [kept].
  destruct (Nat.eqb_spec (l0 + l1) (l2 + l3)) as [E|E]; destruct (Nat.eq_dec (l0 + l1) (l2 + l3)); try contradiction; [|reflexivity].
  cbv zeta. rewrite inner_exact, exp_product_3 by lia. rewrite !(gamma2_ok Gam) by (assumption || lia). f_equal; [f_equal|]; f_equal.
  - rewrite plus_INR. change (INR 2) with 2. field.
  - rewrite plus_INR, minus_INR by lia. change (INR 1) with 1. reflexivity.
Qed.
Lemma inner_near Gam e M w g0 g1 g2 g3 t : is_gamma Gam -> 0 <= e -> e <= / 1000000 -> libm_accurate Gam e M -> (w <= 48)%nat ->
  (g0 + g1 + g2 + g3 <= w)%nat -> inner64 M g0 g1 g2 g3 t ->
  near ((1 + e) * exp (exponent_error e w) * grow (terms w) - 1) 0 (inner g0 g1 g2 g3 (g0 + g1 + g2 + g3)) (inner_size' g0 g1 g2 g3) t.
Proof.
  intros HG E0 E1 OK W G (x & X & S). fold (inner_list g0 g1 g2 g3) in *. rewrite <- inner_exact_sum.
  pose proof (delta_pos e w E0) as DP. assert (EP : 1 <= exp (exponent_error e w)).
  { destruct DP as [DP | <-]; [left; rewrite <- exp_0; apply exp_increasing, DP | rewrite exp_0; lra]. }
  assert (P : 0 <= (1 + e) * exp (exponent_error e w) - 1). { assert (1 * 1 <= (1 + e) * exp (exponent_error e w)) by (apply Rmult_le_compat; lra). lra. }
  assert (F : forall l, In l (inner_list g0 g1 g2 g3) -> fine w (inner_exponent g0 g1 g2 g3 l)).
  { intros (((l0, l1), l2), l3) I. apply filter_In in I. destruct I as (I & _). apply in_quads in I. apply inner_fine; lia. }
  assert (N : forall l, In l (inner_list g0 g1 g2 g3) -> float (fexp M (x l)) /\
    near ((1 + e) * exp (exponent_error e w) - 1) 0 (exp (exact (inner_exponent g0 g1 g2 g3 l))) (exp (exact (inner_exponent g0 g1 g2 g3 l))) (fexp M (x l))).
  { intros l I. apply (exp_near_1 Gam e M w HG E0 E1 OK W); [apply F, I | apply X, I]. }
  assert (SG : forall l, inner_sign g1 g2 l = 1 \/ inner_sign g1 g2 l = -1).
  { intros (((l0, l1), l2), l3). cbn [inner_sign]. unfold sign_of. pose proof (Nat.mod_upper_bound (g1 + g2 - l1 - l2) 2).
    destruct ((g1 + g2 - l1 - l2) mod 2)%nat as [|[|?]]; [left; cbn; lra | right; cbn; lra | lia]. }
  apply (near_summed ((1 + e) * exp (exponent_error e w) - 1)
    (fun l => inner_sign g1 g2 l * exp (exact (inner_exponent g0 g1 g2 g3 l))) (fun l => exp (exact (inner_exponent g0 g1 g2 g3 l)))) in S.
  - eapply near_mono; [|exact S]. apply Rplus_le_compat_r.
    replace (1 + ((1 + e) * exp (exponent_error e w) - 1)) with ((1 + e) * exp (exponent_error e w)) by ring.
    apply Rmult_le_compat_l; [lra|]. apply grow_le. eapply Nat.le_trans; [apply filter_length_le' | apply quads_terms; exact G].
  - exact P.
  - intros l I. destruct (SG l) as [-> | ->]; rewrite ?Rmult_1_l; [apply N, I|]. replace (-1 * fexp M (x l)) with (- fexp M (x l)) by ring. apply float_opp, N, I.
  - intros l I. apply near_sign; [destruct (SG l) as [-> | ->]; [apply Rabs_R1 | rewrite Rabs_left; lra]|]. apply N, I.
Qed.

(** ** The element *)
Section Element.
  Variables (Gam : R -> R) (e : R) (M : libm) (ni nj nk nl : nat) (mi mj mk ml : Z) (w : nat).
  Hypothesis (HG : is_gamma Gam) (E0 : 0 <= e) (E1 : e <= / 1000000) (OK : libm_accurate Gam e M) (W : (w <= 48)%nat).
  Hypothesis Q : (quanta ni mi + quanta nj mj + quanta nk mk + quanta nl ml <= w)%nat.
  Local Notation delta := (exponent_error e w).
  Local Notation ex := ((1 + e) * exp delta).
  Local Notation nn := [ni; nj; nk; nl].
  Local Notation mm := [mi; mj; mk; ml].
  Local Notation js := (quads ni nj nk nl).
  Local Notation gam j := (gammas mi mj mk ml j).
  Definition weight_of (j : nat * nat * nat * nat) : R := exp (exact (outer_exponent nn mm (total (gam j)) j)).
  Definition inner_of (g : nat * nat * nat * nat) : R := let '(g0, g1, g2, g3) := g in inner g0 g1 g2 g3 (g0 + g1 + g2 + g3).
  Definition inner_size_of (g : nat * nat * nat * nat) : R := let '(g0, g1, g2, g3) := g in inner_size' g0 g1 g2 g3.
  Definition norm_of : R := exp (1 / 2 * exact (log_product_1_terms nn mm)).

  Lemma ex_ge_1 : 1 <= ex.
  Proof.
    pose proof (delta_pos e w E0) as DP. assert (EP : 1 <= exp delta).
    { destruct DP as [DP | <-]; [left; rewrite <- exp_0; apply exp_increasing, DP | rewrite exp_0; lra]. }
    replace 1 with (1 * 1) at 1 by ring. apply Rmult_le_compat; lra.
  Qed.
  Lemma ex_le_2 : ex <= 3 / 2.
  Proof.
    pose proof (delta_small e w E0 E1 W) as D. assert (exp delta <= 1001 / 1000 * (1001 / 1000)).
    { pose proof (exp_ineq1_le (- / 1000)) as I. rewrite exp_Ropp in I.
      assert (A : exp delta <= exp (/ 1000)) by (destruct D as [D | ->]; [left; apply exp_increasing, D | lra]).
      pose proof (exp_pos (/ 1000)) as P. set (x := exp (/ 1000)) in *.
      assert (x * (1 + - / 1000) <= x * / x) by (apply Rmult_le_compat_l; lra). rewrite Rinv_r in * by lra. lra. }
    pose proof (exp_pos delta). apply Rle_trans with ((1 + / 1000000) * (1001 / 1000 * (1001 / 1000))); [apply Rmult_le_compat; lra | lra].
  Qed.
  Lemma in_js j0 j1 j2 j3 : In (j0, j1, j2, j3) js -> (total (gam (j0, j1, j2, j3)) <= w)%nat.
  Proof.
    intros I. apply in_quads in I. unfold quanta in Q. cbn [gammas total]. rewrite !big_M_ok, !delta_m_ok. unfold mplus, mminus. lia.
  Qed.

  Lemma exact_element : (mi + mj = mk + ml)%Z ->
    coulomb_ho ni mi nj mj nl ml nk mk = lsum (map (fun j => outer_sign j * weight_of j * inner_of (gam j)) js) * norm_of.
  Proof.
    intros H. unfold coulomb_ho. rewrite (proj2 (Z.eqb_eq _ _) H). cbn [negb]. cbv zeta. unfold norm_of. rewrite norm_exact. f_equal.
    rewrite quads_sum, <- Rplus_0_l. apply for_range_sum. intros j0 t0 H0. apply for_range_sum. intros j1 t1 H1. apply for_range_sum. intros j2 t2 H2. apply for_range_sum. intros j3 t3 H3.
    unfold weight_of. cbn [gammas total inner_of outer_sign]. rewrite outer_exact. reflexivity.
  Qed.
  Lemma size_element : lsum (map (fun j => weight_of j * inner_size_of (gam j)) js) * norm_of = coulomb_size Gam ni mi nj mj nk mk nl ml.
  Proof.
    unfold coulomb_size, norm_of. rewrite norm_exact, exp_product_1, Rmult_comm. f_equal. rewrite quads_sum.
    rewrite rsum_sigma. apply sum_eq. intros j0 H0. rewrite rsum_sigma. apply sum_eq. intros j1 H1.
    rewrite rsum_sigma. apply sum_eq. intros j2 H2. rewrite rsum_sigma. apply sum_eq. intros j3 H3.
    unfold weight_of. cbn [gammas total inner_size_of]. rewrite outer_exact, exp_weight, (inner_size_ok Gam), !big_M_ok, !delta_m_ok by (assumption || lia). cbv zeta.
    rewrite (Nat.add_comm j2 j1), (Nat.add_comm j3 j0). unfold Rdiv. rewrite Rmult_1_l. reflexivity.
  Qed.
  Lemma norm_le_1 : norm_of <= 1.
  Proof.
    unfold norm_of. rewrite norm_exact, exp_product_1. rewrite <- sqrt_1. apply sqrt_le_1_alt.
    assert (F : forall n m, INR (fact n) <= INR (fact (n + m))) by (intros; apply le_INR, fact_le; lia).
    apply Rmult_le_reg_r with (INR (fact (ni + Z.abs_nat mi)) * INR (fact (nj + Z.abs_nat mj)) * INR (fact (nk + Z.abs_nat mk)) * INR (fact (nl + Z.abs_nat ml)));
      [repeat apply Rmult_lt_0_compat; apply fact_pos|]. unfold Rdiv. rewrite Rmult_assoc, Rinv_l, Rmult_1_l, Rmult_1_r.
    - repeat apply Rmult_le_compat; auto; repeat apply Rmult_le_pos; left; apply fact_pos.
    - apply Rgt_not_eq. repeat apply Rmult_lt_0_compat; apply fact_pos.
  Qed.
  Lemma terms_small : INR (terms w) <= 30000.
  Proof.
    assert (H : (terms w <= 52 * 52 / 16 * (52 * 52 / 16))%nat).
    { unfold terms. apply Nat.div_le_upper_bound; [lia|]. change (52 * 52 / 16)%nat with 169%nat. cbn [Nat.pow]. nia. }
    apply le_INR in H. rewrite mult_INR in H. change (52 * 52 / 16)%nat with 169%nat in H. replace (INR 169) with 169 in H by (cbn; lra). lra.
  Qed.
  Lemma grow_terms_small : grow (terms w) <= 3 / 2.
  Proof.
    pose proof terms_small. pose proof U_small. pose proof U_pos. pose proof (pos_INR (terms w)).
    assert (INR (terms w) * U <= 30000 * / 9007199254740992) by (apply Rmult_le_compat; lra).
    pose proof (grow_small (terms w) ltac:(lra)). lra.
  Qed.

  Lemma element_near z : coulomb64 M ni mi nj mj nl ml nk mk z -> (mi + mj = mk + ml)%Z ->
    Rabs (z - coulomb_ho ni mi nj mj nl ml nk mk) <= coulomb_error e w * coulomb_size Gam ni mi nj mj nk mk nl ml + 1000000 * T.
  Proof.
    intros D H. rewrite (exact_element H), <- size_element. unfold coulomb64 in D. rewrite (proj2 (Z.eqb_eq _ _) H) in D. cbn [negb] in D. cbv zeta in D.
    destruct D as (y & t & element & x & Y & I & D & X & ->).
    assert (N : forall j, In j js -> near (ex * (ex * grow (terms w)) - 1) 0
      (outer_sign j * weight_of j * inner_of (gam j)) (weight_of j * inner_size_of (gam j)) (outer_sign j * fexp M (y j) * t j)).
    { intros (((j0, j1), j2), j3) J. pose proof (in_js _ _ _ _ J) as GW. pose proof (in_quads _ _ _ _ _ _ _ _ J) as B.
      specialize (Y _ J). specialize (I _ J). set (j := (j0, j1, j2, j3)) in *.
      assert (F : fine w (outer_exponent nn mm (total (gam j)) j)) by (apply outer_fine; try lia; exact GW).
      pose proof (exp_near_1 Gam e M w HG E0 E1 OK W _ _ F Y) as (_ & NE).
      assert (NI : near (ex * grow (terms w) - 1) 0 (inner_of (gam j)) (inner_size_of (gam j)) (t j)).
      { unfold j in *. cbn [gammas inner_of inner_size_of inner64_at total] in *. apply (inner_near Gam e M w); assumption. }
      replace (ex * (ex * grow (terms w)) - 1) with ((1 + (ex - 1)) * (1 + (ex * grow (terms w) - 1)) - 1) by ring.
      apply near_mul; [|exact NI]. apply near_sign; [apply sign_of_abs | exact NE]. }
    pose proof ex_ge_1 as X1. pose proof ex_le_2 as X2. pose proof grow_terms_small as GT. pose proof (grow_ge_1 (terms w)) as G1. pose proof terms_small as TS.
    assert (R0 : 0 <= ex * (ex * grow (terms w)) - 1).
    { assert (1 * 1 <= ex * grow (terms w)) by (apply Rmult_le_compat; lra). assert (1 * 1 <= ex * (ex * grow (terms w))) by (apply Rmult_le_compat; lra). lra. }
    apply (near_dotted _ _ _ _ _ _ _ R0 N) in D.
    set (S := lsum (map (fun j => outer_sign j * weight_of j * inner_of (gam j)) js)) in *.
    set (A := lsum (map (fun j => weight_of j * inner_size_of (gam j)) js)) in *.
    assert (K : (length js <= terms w)%nat) by (apply quads_terms; unfold quanta in Q; lia).
    pose proof (grow_le _ _ K) as GK. pose proof (grow_ge_1 (length js)) as GK1. pose proof T_pos as TP. pose proof U_pos as UP. pose proof U_small as US.
    assert (D' : near (ex * (ex * (grow (terms w) * grow (terms w))) - 1) (45000 * T) S A element).
    { pose proof (near_pos _ _ _ _ _ D) as AP. destruct D as (D1 & D2). split; [exact D1|]. eapply Rle_trans; [exact D2|]. apply Rplus_le_compat.
      - apply Rmult_le_compat_r; [exact AP|]. apply Rplus_le_compat_r.
        replace (ex * (ex * (grow (terms w) * grow (terms w)))) with ((1 + (ex * (ex * grow (terms w)) - 1)) * grow (terms w)) by ring.
        apply Rmult_le_compat_l; lra.
      - assert (L : INR (length js) <= 30000) by (apply le_INR in K; lra). pose proof (pos_INR (length js)).
        apply Rle_trans with (3 / 2 * (30000 * T)); [|lra].
        apply Rmult_le_compat; [lra | apply Rmult_le_pos; lra | lra | apply Rmult_le_compat_r; lra]. }
    clear D. pose proof (near_pos _ _ _ _ _ D') as AP. destruct D' as (D1 & D2).
    pose proof (exp_near_half Gam e M w HG E0 E1 OK W _ _ (norm_fine w _ _ _ _ _ _ _ _ Q) X) as (_ & NF). fold norm_of in NF.
    set (f := fexp M (fmul (1 / 2) x)) in *. pose proof norm_le_1 as F1. assert (F0 : 0 < norm_of) by apply exp_pos.
    set (F := norm_of) in *. pose proof (near_size _ _ _ _ _ NF) as NS. destruct NF as (_ & NF).
    set (B := ex * (ex * (grow (terms w) * grow (terms w)))) in *.
    assert (B1 : 1 <= B).
    { assert (1 * 1 <= grow (terms w) * grow (terms w)) by (apply Rmult_le_compat; lra). assert (1 * 1 <= ex * (grow (terms w) * grow (terms w))) by (apply Rmult_le_compat; lra).
      assert (1 * 1 <= B) by (apply Rmult_le_compat; lra). lra. }
    (** product before rounding *)
    assert (P : Rabs (element * f - S * F) <= (B * ex - 1) * (A * F) + 67500 * T).
    { replace (element * f - S * F) with ((element - S) * f + S * (f - F)) by ring.
      eapply Rle_trans; [apply Rabs_triang|]. rewrite !Rabs_mult.
      assert (FS : Rabs f <= ex * F) by lra.
      assert (P1 : Rabs (element - S) * Rabs f <= ((B - 1) * A + 45000 * T) * (ex * F)) by (apply Rmult_le_compat; auto using Rabs_pos).
      assert (P2 : Rabs S * Rabs (f - F) <= A * ((ex - 1) * F)) by (apply Rmult_le_compat; auto using Rabs_pos; lra).
      assert (P3 : T * (ex * F) <= T * (3 / 2)). { apply Rmult_le_compat_l; [lra|]. apply Rle_trans with (3 / 2 * 1); [apply Rmult_le_compat; lra | lra]. }
      lra. }
    pose proof (fl_err (element * f)) as R. fold (fmul element f) in R.
    assert (AF : 0 <= A * F) by (apply Rmult_le_pos; lra).
    assert (V : Rabs (element * f) <= B * ex * (A * F) + 67500 * T).
    { replace (element * f) with ((element * f - S * F) + S * F) by ring. eapply Rle_trans; [apply Rabs_triang|].
      assert (Rabs (S * F) <= A * F) by (rewrite Rabs_mult, (Rabs_pos_eq F) by lra; apply Rmult_le_compat_r; lra). lra. }
    assert (UV : U * Rabs (element * f) <= U * (B * ex * (A * F) + 67500 * T)) by (apply Rmult_le_compat_l; lra).
    assert (UT : U * (67500 * T) <= 1 * (67500 * T)) by (apply Rmult_le_compat_r; lra).
    replace (fmul element f - S * F) with ((fmul element f - element * f) + (element * f - S * F)) by ring.
    eapply Rle_trans; [apply Rabs_triang|].
    assert (CE : coulomb_error e w = (1 + U) * (B * ex) - 1).
    { unfold coulomb_error, B. replace (2 * terms w + 1)%nat with (Datatypes.S (terms w + terms w)) by lia. rewrite grow_S, grow_add.
      replace (3 * delta) with (delta + (delta + delta)) by ring. rewrite !exp_plus. ring. }
    rewrite CE. lra.
  Qed.
End Element.
