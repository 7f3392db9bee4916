(** Rounding errors of sums, dot products and the code built on them. *)
From Coq Require Import List Arith ZArith Reals Permutation Lra Lia Psatz.
From Flocq Require Import Core Relative Plus_error.
From Coquelicot Require Import Coquelicot.
From Verif Require Import Scalar ScalarC GridSpec FloatModel FloatSpec.
Import ListNotations.
Open Scope R_scope.

Local Notation U := unit_roundoff.
Local Notation T := underflow.

Lemma bpow_pow n : bpow radix2 (Z.of_nat n) = 2 ^ n.
Proof. induction n; [reflexivity|]. rewrite Nat2Z.inj_succ. unfold Z.succ. rewrite bpow_plus_1, IHn. cbn. lra. Qed.
Lemma bpow_neg n : bpow radix2 (- Z.of_nat n) = / 2 ^ n.
Proof. rewrite bpow_opp, bpow_pow. reflexivity. Qed.
Lemma U_bpow : U = bpow radix2 (-53).
Proof. unfold unit_roundoff. rewrite <- bpow_neg. reflexivity. Qed.
Lemma T_bpow : T = bpow radix2 (-1075).
Proof. unfold underflow. rewrite <- bpow_neg. f_equal. Qed.
Lemma U_pos : 0 < U.
Proof. rewrite U_bpow. apply bpow_gt_0. Qed.
Lemma T_pos : 0 < T.
Proof. rewrite T_bpow. apply bpow_gt_0. Qed.
Lemma U_small : U <= / 9007199254740992.
Proof. unfold unit_roundoff. apply Req_le. f_equal. lra. Qed.

(** Rounding *)
Local Instance prec_pos : Prec_gt_0 53 := eq_refl.
Lemma fl_float x : float (fl x).
Proof. apply generic_format_round; typeclasses eauto. Qed.
Lemma fl_id x : float x -> fl x = x.
Proof. intros. apply round_generic; [typeclasses eauto | assumption]. Qed.
Lemma fl_le x y : x <= y -> fl x <= fl y.
Proof. apply round_le; typeclasses eauto. Qed.
Lemma fl_opp x : fl (- x) = - fl x.
Proof. apply round_NE_opp. Qed.
Lemma float_0 : float 0.
Proof. apply generic_format_0. Qed.
Lemma fl_0 : fl 0 = 0.
Proof. apply fl_id, float_0. Qed.
Lemma float_opp x : float x -> float (- x).
Proof. apply generic_format_opp. Qed.
Lemma fl_nonneg x : 0 <= x -> 0 <= fl x.
Proof. intros. rewrite <- fl_0. apply fl_le. assumption. Qed.
Lemma fl_abs x : Rabs (fl x) = fl (Rabs x).
Proof. unfold fl. apply eq_sym, round_NE_abs. typeclasses eauto. Qed.

Lemma fl_err x : Rabs (fl x - x) <= U * Rabs x + T.
Proof.
  destruct (error_N_FLT radix2 (-1074) 53 eq_refl (fun t => negb (Z.even t)) x) as (e & t & He & Ht & _ & E).
  change (fl x = x * (1 + e) + t) in E. rewrite E.
  assert (EU : / 2 * bpow radix2 (- (53) + 1) = U).
  { rewrite U_bpow. change (/ 2) with (bpow radix2 (-1)). rewrite <- bpow_plus. f_equal. }
  rewrite EU in He.
  assert (ET : / 2 * bpow radix2 (-1074) = T).
  { rewrite T_bpow. change (/ 2) with (bpow radix2 (-1)). rewrite <- bpow_plus. f_equal. }
  rewrite ET in Ht.
  replace (x * (1 + e) + t - x) with (x * e + t) by ring.
  eapply Rle_trans; [apply Rabs_triang|]. rewrite Rabs_mult.
  apply Rplus_le_compat; [|exact Ht]. rewrite Rmult_comm. apply Rmult_le_compat_r; [apply Rabs_pos | exact He].
Qed.
Lemma fl_add_err x y : float x -> float y -> Rabs (fl (x + y) - (x + y)) <= U * Rabs (x + y).
Proof.
  intros Hx Hy.
  destruct (FLT_plus_error_N_ex radix2 (-1074) 53 (fun t => negb (Z.even t)) x y Hx Hy) as (e & He & E).
  change (fl (x + y) = (x + y) * (1 + e)) in E. rewrite E.
  replace ((x + y) * (1 + e) - (x + y)) with ((x + y) * e) by ring. rewrite Rabs_mult.
  rewrite Rmult_comm. apply Rmult_le_compat_r; [apply Rabs_pos|].
  eapply Rle_trans; [exact He|]. eapply Rle_trans; [apply u_rod1pu_ro_le_u_ro|].
  unfold u_ro. rewrite U_bpow. change (/ 2) with (bpow radix2 (-1)). rewrite <- bpow_plus. apply Req_le. f_equal.
Qed.

(** Growth *)
Lemma grow_0 : grow 0 = 1.
Proof. reflexivity. Qed.
Lemma grow_S k : grow (S k) = (1 + U) * grow k.
Proof. reflexivity. Qed.
Lemma grow_add j k : grow (j + k) = grow j * grow k.
Proof. unfold grow. apply pow_add. Qed.
Lemma grow_ge_1 k : 1 <= grow k.
Proof. unfold grow. apply pow_R1_Rle. pose proof U_pos. lra. Qed.
Lemma grow_le j k : (j <= k)%nat -> grow j <= grow k.
Proof.
  intros H. replace k with (j + (k - j))%nat by lia. rewrite grow_add.
  pose proof (grow_ge_1 j). pose proof (grow_ge_1 (k - j)). nra.
Qed.
(** Readable: below 2^53 operations the growth is at most 2 k u. *)
Lemma grow_small k : INR k * U <= 1 -> grow k - 1 <= 2 * INR k * U.
Proof.
  assert (H : forall j, INR j * U <= 1 -> grow j <= 1 + INR j * U + (INR j * U) * (INR j * U)).
  { induction j; intros Hj. { rewrite grow_0. cbn [INR]. lra. }
    rewrite grow_S. rewrite S_INR in *. pose proof U_pos.
    pose proof (pos_INR j). set (t := INR j * U) in *.
    assert (t + U <= 1) by (unfold t; lra).
    assert (0 <= t) by (unfold t; apply Rmult_le_pos; lra).
    assert (IH : grow j <= 1 + t + t * t) by (apply IHj; lra).
    replace ((INR j + 1) * U) with (t + U) by (unfold t; ring).
    apply Rle_trans with ((1 + U) * (1 + t + t * t)).
    { apply Rmult_le_compat_l; lra. }
    assert (t * t <= t) by nra. assert (U * (t * t) <= U * t) by (apply Rmult_le_compat_l; lra).
    nra. }
  intros Hk. specialize (H k Hk). pose proof U_pos. pose proof (pos_INR k).
  set (t := INR k * U) in *. assert (0 <= t) by (unfold t; apply Rmult_le_pos; lra).
  replace (2 * INR k * U) with (2 * t) by (unfold t; ring). nra.
Qed.

(** Sums of lists *)
Definition lsum (l : list R) : R := fold_right Rplus 0 l.
Definition labs (l : list R) : R := lsum (map Rabs l).
Lemma lsum_nil : lsum [] = 0. Proof. reflexivity. Qed.
Lemma lsum_cons x l : lsum (x :: l) = x + lsum l. Proof. reflexivity. Qed.
Lemma labs_nil : labs [] = 0. Proof. reflexivity. Qed.
Lemma labs_cons x l : labs (x :: l) = Rabs x + labs l. Proof. reflexivity. Qed.
Lemma lsum_app l l' : lsum (l ++ l') = lsum l + lsum l'.
Proof. induction l; cbn [app]; rewrite ?lsum_nil, ?lsum_cons, ?IHl; lra. Qed.
Lemma lsum_perm l l' : Permutation l l' -> lsum l = lsum l'.
Proof. induction 1; rewrite ?lsum_cons, ?IHPermutation1; lra. Qed.
Lemma labs_app l l' : labs (l ++ l') = labs l + labs l'.
Proof. unfold labs. rewrite map_app. apply lsum_app. Qed.
Lemma labs_perm l l' : Permutation l l' -> labs l = labs l'.
Proof. intros H. unfold labs. apply lsum_perm, Permutation_map, H. Qed.
Lemma labs_pos l : 0 <= labs l.
Proof. induction l; rewrite ?labs_nil, ?labs_cons; [lra|]. pose proof (Rabs_pos a). lra. Qed.
Lemma lsum_abs l : Rabs (lsum l) <= labs l.
Proof.
  induction l; rewrite ?labs_nil, ?labs_cons, ?lsum_nil, ?lsum_cons; [rewrite Rabs_R0; lra|].
  eapply Rle_trans; [apply Rabs_triang|]. lra.
Qed.

(** A computed sum [v] of [n] terms with exact value [s] and absolute value [a] *)
Definition good (n : nat) (t s a v : R) : Prop := Rabs s <= a /\ 0 <= t /\ Rabs (v - s) <= (grow n - 1) * a + grow n * t.

Lemma good_size n t s a v : good n t s a v -> Rabs v <= grow n * (a + t).
Proof.
  intros (H & H' & E). replace v with (v - s + s) by ring. eapply Rle_trans; [apply Rabs_triang|]. lra.
Qed.
Lemma good_mono n m t s a v : (n <= m)%nat -> good n t s a v -> good m t s a v.
Proof.
  intros H (H1 & H2 & E). split; [assumption|]. split; [assumption|]. pose proof (grow_le n m H).
  eapply Rle_trans; [exact E|]. pose proof (Rabs_pos s).
  apply Rplus_le_compat; apply Rmult_le_compat_r; lra.
Qed.
Lemma good_add n t s a v m t' s' a' v' : float v -> float v' -> good n t s a v -> good m t' s' a' v' ->
  good (S (Nat.max n m)) (t + t') (s + s') (a + a') (fadd v v').
Proof.
  intros F F' G G'. set (k := Nat.max n m).
  apply (good_mono n k) in G; [|lia]. apply (good_mono m k) in G'; [|lia].
  pose proof (good_size _ _ _ _ _ G) as Z. pose proof (good_size _ _ _ _ _ G') as Z'.
  destruct G as (H1 & H2 & E), G' as (H1' & H2' & E').
  split; [eapply Rle_trans; [apply Rabs_triang|]; lra|]. split; [lra|].
  unfold fadd. pose proof (fl_add_err v v' F F') as A.
  replace (fl (v + v') - (s + s')) with (fl (v + v') - (v + v') + ((v - s) + (v' - s'))) by ring.
  eapply Rle_trans; [apply Rabs_triang|]. pose proof (Rabs_triang (v - s) (v' - s')).
  pose proof (Rabs_triang v v'). rewrite grow_S. pose proof U_pos.
  assert (U * Rabs (v + v') <= U * (grow k * (a + t) + grow k * (a' + t'))) by (apply Rmult_le_compat_l; lra).
  lra.
Qed.
Lemma good_mul x y : good 1 T (x * y) (Rabs (x * y)) (fmul x y).
Proof.
  split; [lra|]. pose proof T_pos. split; [lra|]. unfold fmul. pose proof (fl_err (x * y)).
  rewrite grow_S, grow_0. pose proof U_pos. assert (0 <= U * T) by (apply Rmult_le_pos; lra). lra.
Qed.
Lemma good_fma n t s a v x y : good n t s a v -> good (S n) (t + T) (x * y + s) (Rabs (x * y) + a) (fl (x * y + v)).
Proof.
  intros G. pose proof (good_size _ _ _ _ _ G) as Z. destruct G as (H1 & H2 & E).
  split; [eapply Rle_trans; [apply Rabs_triang|]; lra|]. pose proof T_pos. split; [lra|].
  pose proof (fl_err (x * y + v)) as A.
  replace (fl (x * y + v) - (x * y + s)) with (fl (x * y + v) - (x * y + v) + (v - s)) by ring.
  eapply Rle_trans; [apply Rabs_triang|]. pose proof (Rabs_triang (x * y) v). rewrite grow_S. pose proof U_pos.
  assert (U * Rabs (x * y + v) <= U * (Rabs (x * y) + grow n * (a + t))) by (apply Rmult_le_compat_l; lra).
  pose proof (grow_ge_1 n). pose proof (Rabs_pos (x * y)).
  assert (1 + U <= (1 + U) * grow n) by nra.
  assert (U * Rabs (x * y) <= ((1 + U) * grow n - 1) * Rabs (x * y)) by (apply Rmult_le_compat_r; lra).
  assert (1 * T <= (1 + U) * grow n * T) by (apply Rmult_le_compat_r; lra).
  lra.
Qed.

(** [summed] *)
Lemma summed_float l v : List.Forall float l -> summed l v -> float v.
Proof. intros F H. induction H; [apply float_0 | inversion F; assumption | apply fl_float]. Qed.
Lemma summed_empty l v : summed l v -> l = [] -> v = 0.
Proof.
  induction 1 as [| |l l1 l2 a b P H1 IH1 H2 IH2]; intros E; [reflexivity | discriminate |]. subst l.
  apply Permutation_nil in P. apply app_eq_nil in P. destruct P.
  rewrite IH1, IH2 by assumption. unfold fadd. rewrite Rplus_0_l. apply fl_0.
Qed.
Lemma fadd_0_l x : float x -> fadd 0 x = x.
Proof. intros. unfold fadd. rewrite Rplus_0_l. apply fl_id. assumption. Qed.
Lemma fadd_0_r x : float x -> fadd x 0 = x.
Proof. intros. unfold fadd. rewrite Rplus_0_r. apply fl_id. assumption. Qed.

Lemma summed_good l v : List.Forall float l -> summed l v -> good (length l - 1) 0 (lsum l) (labs l) v.
Proof.
  intros F H. revert F. induction H as [|x|l l1 l2 a b P H1 IH1 H2 IH2]; intros F.
  - split; [cbn; rewrite Rabs_R0; unfold labs; cbn; lra|]. split; [lra|]. cbn. rewrite Rminus_0_r, Rabs_R0. unfold labs. cbn. lra.
  - split; [apply lsum_abs|]. split; [lra|]. cbn. replace (x - (x + 0)) with 0 by ring. rewrite Rabs_R0. lra.
  - assert (F' : List.Forall float (l1 ++ l2)) by (eapply Permutation_Forall; [exact P | exact F]).
    apply Forall_app in F'. destruct F' as [F1 F2].
    rewrite (lsum_perm _ _ P), (labs_perm _ _ P), (Permutation_length P), lsum_app, labs_app, app_length.
    pose proof (summed_float _ _ F1 H1) as A. pose proof (summed_float _ _ F2 H2) as B.
    specialize (IH1 F1). specialize (IH2 F2).
    destruct l1 as [|x1 l1].
    { rewrite (summed_empty _ _ H1 eq_refl), fadd_0_l by assumption. cbn [length lsum fold_right Nat.add].
      unfold labs at 1. cbn. rewrite !Rplus_0_l. exact IH2. }
    destruct l2 as [|x2 l2].
    { rewrite (summed_empty _ _ H2 eq_refl), fadd_0_r by assumption. rewrite app_nil_r in *. rewrite Nat.add_0_r.
      unfold labs at 2. cbn [map lsum fold_right]. rewrite !Rplus_0_r. exact IH1. }
    eapply good_mono; [|replace 0 with (0 + 0) by ring; eapply good_add; eassumption]. cbn [length]. lia.
Qed.

(** [dotted] *)
Definition prods (l : list (R * R)) : list R := map (fun t => fst t * snd t) l.
Lemma prods_app l l' : prods (l ++ l') = prods l ++ prods l'.
Proof. apply map_app. Qed.
Lemma prods_perm l l' : Permutation l l' -> Permutation (prods l) (prods l').
Proof. apply Permutation_map. Qed.
Lemma dotted_float l v : dotted l v -> float v.
Proof. intros H. induction H; [apply float_0 | apply fl_float | apply fl_float | apply fl_float]. Qed.
Lemma dotted_empty l v : dotted l v -> l = [] -> v = 0.
Proof.
  induction 1 as [| |l l' x y a P|l l1 l2 a b P H1 IH1 H2 IH2]; intros E; [reflexivity | discriminate | |]; subst l.
  - apply Permutation_nil in P. discriminate.
  - apply Permutation_nil in P. apply app_eq_nil in P. destruct P.
    rewrite IH1, IH2 by assumption. unfold fadd. rewrite Rplus_0_l. apply fl_0.
Qed.
Lemma dotted_good l v : dotted l v -> good (length l) (INR (length l) * T) (lsum (prods l)) (labs (prods l)) v.
Proof.
  induction 1 as [|x y|l l' x y a P H IH|l l1 l2 a b P H1 IH1 H2 IH2].
  - split; [cbn; rewrite Rabs_R0; unfold labs; cbn; lra|]. split; [cbn; lra|]. cbn. rewrite Rminus_0_r, Rabs_R0. unfold labs. cbn. lra.
  - cbn [length INR]. rewrite Rmult_1_l. cbn. rewrite Rplus_0_r. unfold labs. cbn. rewrite Rplus_0_r. apply good_mul.
  - rewrite (lsum_perm _ _ (prods_perm _ _ P)), (labs_perm _ _ (prods_perm _ _ P)), (Permutation_length P).
    cbn [length]. rewrite S_INR. replace ((INR (length l') + 1) * T) with (INR (length l') * T + T) by ring.
    cbn. unfold labs. cbn. apply good_fma. exact IH.
  - rewrite (lsum_perm _ _ (prods_perm _ _ P)), (labs_perm _ _ (prods_perm _ _ P)), (Permutation_length P), prods_app, lsum_app, labs_app, app_length.
    pose proof (dotted_float _ _ H1) as A. pose proof (dotted_float _ _ H2) as B.
    destruct l1 as [|x1 l1].
    { rewrite (dotted_empty _ _ H1 eq_refl), fadd_0_l by assumption. cbn [length lsum fold_right Nat.add prods map].
      unfold labs at 1. cbn. rewrite !Rplus_0_l. exact IH2. }
    destruct l2 as [|x2 l2].
    { rewrite (dotted_empty _ _ H2 eq_refl), fadd_0_r by assumption. rewrite app_nil_r in *. rewrite Nat.add_0_r.
      unfold labs at 2. cbn [map lsum fold_right prods]. rewrite !Rplus_0_r. exact IH1. }
    rewrite plus_INR, Rmult_plus_distr_r.
    eapply good_mono; [|eapply good_add; eassumption]. cbn [length]. lia.
Qed.

(** Complex numbers *)
Lemma size_pos z : 0 <= size z.
Proof. unfold size. pose proof (Rabs_pos (fst z)). pose proof (Rabs_pos (snd z)). lra. Qed.
Lemma size_0 : size (RtoC 0) = 0.
Proof. unfold size. cbn. rewrite Rabs_R0. lra. Qed.
Lemma size_add z w : size (Cplus z w) <= size z + size w.
Proof. unfold size. cbn. pose proof (Rabs_triang (fst z) (fst w)). pose proof (Rabs_triang (snd z) (snd w)). lra. Qed.
Lemma size_mul z w : size (Cmult z w) <= size z * size w.
Proof.
  unfold size. cbn. unfold Rminus.
  pose proof (Rabs_triang (fst z * fst w) (- (snd z * snd w))) as A.
  pose proof (Rabs_triang (fst z * snd w) (snd z * fst w)) as B.
  rewrite Rabs_Ropp in A. rewrite !Rabs_mult in *. nra.
Qed.
Lemma size_opp z : size (Copp z) = size z.
Proof. unfold size. cbn. rewrite !Rabs_Ropp. reflexivity. Qed.
Lemma size_conj z : size (Cconj z) = size z.
Proof. unfold size. cbn. rewrite Rabs_Ropp. reflexivity. Qed.
Lemma size_R x : size (RtoC x) = Rabs x.
Proof. unfold size. cbn. rewrite Rabs_R0. lra. Qed.

Definition cgood (n : nat) (t : R) (s : C) (a : R) (v : C) : Prop :=
  size s <= a /\ 0 <= t /\ size (Cminus v s) <= (grow n - 1) * a + grow n * t.
Lemma cgood_intro n t1 t2 s a1 a2 v : good n t1 (fst s) a1 (fst v) -> good n t2 (snd s) a2 (snd v) ->
  cgood n (t1 + t2) s (a1 + a2) v.
Proof.
  intros (A & B & E) (A' & B' & E'). split; [unfold size; lra|]. split; [lra|].
  unfold size, Cminus, Cplus, Copp. cbn. unfold Rminus in *. lra.
Qed.
Lemma cgood_self v : cgood 0 0 v (size v) v.
Proof.
  split; [lra|]. split; [lra|]. replace (Cminus v v) with (RtoC 0) by ring. rewrite size_0, grow_0. lra.
Qed.
Lemma cgood_size n t s a v : cgood n t s a v -> size v <= grow n * (a + t).
Proof.
  intros (H & H' & E). replace v with (Cplus (Cminus v s) s) by ring. eapply Rle_trans; [apply size_add|]. lra.
Qed.
Lemma cgood_a n t s a v : cgood n t s a v -> 0 <= a.
Proof. intros (H & _). pose proof (size_pos s). lra. Qed.
Lemma cgood_mono n m t t' s a a' v : (n <= m)%nat -> t <= t' -> a <= a' -> cgood n t s a v -> cgood m t' s a' v.
Proof.
  intros H Ht Ha (H1 & H2 & E). split; [lra|]. split; [lra|]. pose proof (grow_le n m H). pose proof (grow_ge_1 n).
  eapply Rle_trans; [exact E|]. pose proof (size_pos s).
  apply Rplus_le_compat; apply Rmult_le_compat; lra.
Qed.

(** A pair of factors with the exact value [p] of their product *)
Definition pgood (n : nat) (t : R) (p : C) (a : R) (z : C * C) : Prop :=
  size p <= a /\ 0 <= t /\ size (fst z) * size (snd z) <= grow n * (a + t) /\
  size (Cminus (Cmult (fst z) (snd z)) p) <= (grow n - 1) * a + grow n * t.
Lemma pgood_intro n t s a v m t' s' a' v' : cgood n t s a v -> cgood m t' s' a' v' ->
  pgood (n + m) (a * t' + t * a' + t * t') (Cmult s s') (a * a') (v, v').
Proof.
  intros G G'. pose proof (cgood_size _ _ _ _ _ G) as Z. pose proof (cgood_size _ _ _ _ _ G') as Z'.
  pose proof (cgood_a _ _ _ _ _ G) as A. pose proof (cgood_a _ _ _ _ _ G') as A'.
  destruct G as (H1 & H2 & E), G' as (H1' & H2' & E').
  pose proof (size_pos s). pose proof (size_pos s'). pose proof (size_pos v). pose proof (size_pos v').
  pose proof (grow_ge_1 n) as gn. pose proof (grow_ge_1 m) as gm.
  assert (P : size v * size v' <= (grow n * (a + t)) * (grow m * (a' + t'))) by (apply Rmult_le_compat; lra).
  assert (0 <= a * t') by (apply Rmult_le_pos; lra). assert (0 <= t * a') by (apply Rmult_le_pos; lra).
  assert (0 <= t * t') by (apply Rmult_le_pos; lra).
  split; [eapply Rle_trans; [apply size_mul|]; apply Rmult_le_compat; lra|].
  split; [lra|]. cbn [fst snd]. rewrite grow_add. split; [lra|].
  replace (Cminus (Cmult v v') (Cmult s s'))
    with (Cplus (Cmult (Cminus v s) v') (Cmult s (Cminus v' s'))) by ring.
  eapply Rle_trans; [apply size_add|].
  pose proof (size_mul (Cminus v s) v'). pose proof (size_mul s (Cminus v' s')).
  assert (size (Cminus v s) * size v' <= ((grow n - 1) * a + grow n * t) * (grow m * (a' + t'))).
  { apply Rmult_le_compat; [apply size_pos | lra | exact E | exact Z']. }
  assert (size s * size (Cminus v' s') <= a * ((grow m - 1) * a' + grow m * t')).
  { apply Rmult_le_compat; [lra | apply size_pos | lra | exact E']. }
  lra.
Qed.

Definition csum (l : list C) : C := fold_right Cplus (RtoC 0) l.
Lemma csum_cons z l : csum (z :: l) = Cplus z (csum l). Proof. reflexivity. Qed.
Lemma fst_csum l : fst (csum l) = lsum (map fst l).
Proof. induction l; [reflexivity|]. rewrite csum_cons. cbn [map]. rewrite lsum_cons, <- IHl. reflexivity. Qed.
Lemma snd_csum l : snd (csum l) = lsum (map snd l).
Proof. induction l; [reflexivity|]. rewrite csum_cons. cbn [map]. rewrite lsum_cons, <- IHl. reflexivity. Qed.
Lemma sizes l : labs (map fst l) + labs (map snd l) = lsum (map size l).
Proof. induction l; cbn [map]; rewrite ?labs_cons, ?lsum_cons, ?labs_nil, ?lsum_nil; [lra|]. unfold size at 1. lra. Qed.

Lemma csummed_good l v : List.Forall cfloat l -> csummed l v -> cgood (length l - 1) 0 (csum l) (lsum (map size l)) v.
Proof.
  intros F (A & B). rewrite <- sizes. replace 0 with (0 + 0) by ring.
  apply cgood_intro; rewrite ?fst_csum, ?snd_csum.
  - change (@length C l) with (@length (R * R) l). rewrite <- (map_length fst l). apply summed_good; [|exact A].
    rewrite Forall_map. eapply Forall_impl; [|exact F]. intros z H. apply H.
  - change (@length C l) with (@length (R * R) l). rewrite <- (map_length snd l). apply summed_good; [|exact B].
    rewrite Forall_map. eapply Forall_impl; [|exact F]. intros z H. apply H.
Qed.

Definition ps (l : list (C * C)) : list C := map (fun t => Cmult (fst t) (snd t)) l.
Lemma cdotted_good l v : cdotted l v ->
  cgood (2 * length l) (4 * INR (length l) * T) (csum (ps l)) (lsum (map (fun t => size (fst t) * size (snd t)) l)) v.
Proof.
  intros (A & B). apply dotted_good in A, B.
  assert (L1 : length (flat_map re_terms l) = (2 * length l)%nat).
  { clear. induction l; [reflexivity|]. cbn [flat_map re_terms app length]. rewrite IHl. lia. }
  assert (L2 : length (flat_map im_terms l) = (2 * length l)%nat).
  { clear. induction l; [reflexivity|]. cbn [flat_map im_terms app length]. rewrite IHl. lia. }
  assert (E1 : lsum (prods (flat_map re_terms l)) = fst (csum (ps l))).
  { clear. induction l; [reflexivity|]. cbn [flat_map re_terms app prods map ps]. rewrite csum_cons, !lsum_cons.
    fold (prods (flat_map re_terms l)). rewrite IHl. cbn. unfold ps. lra. }
  assert (E2 : lsum (prods (flat_map im_terms l)) = snd (csum (ps l))).
  { clear. induction l; [reflexivity|]. cbn [flat_map im_terms app prods map ps]. rewrite csum_cons, !lsum_cons.
    fold (prods (flat_map im_terms l)). rewrite IHl. cbn. unfold ps. lra. }
  assert (E3 : labs (prods (flat_map re_terms l)) + labs (prods (flat_map im_terms l)) = lsum (map (fun t => size (fst t) * size (snd t)) l)).
  { clear. induction l; [unfold labs; cbn; lra|]. cbn [flat_map re_terms im_terms app prods map].
    rewrite !labs_cons, lsum_cons. fold (prods (flat_map re_terms l)). fold (prods (flat_map im_terms l)).
    rewrite <- IHl. cbn [fst snd]. rewrite !Rabs_mult, Rabs_Ropp. unfold size. ring. }
  rewrite L1, E1 in A. rewrite L2, E2 in B. rewrite mult_INR in A, B. change (INR 2) with 2 in *.
  rewrite <- E3. replace (4 * INR (length l) * T) with (2 * INR (length l) * T + 2 * INR (length l) * T) by ring.
  apply cgood_intro; assumption.
Qed.

(** Sums over an index *)
Lemma rsum_ext n f g : (forall k, (k < n)%nat -> f k = g k) -> rsum n f = rsum n g.
Proof. induction n; intros H; cbn; [reflexivity|]. rewrite IHn, H by (intros; try apply H; lia). reflexivity. Qed.
Lemma rsum_le n f g : (forall k, (k < n)%nat -> f k <= g k) -> rsum n f <= rsum n g.
Proof.
  induction n; intros H; cbn; [lra|]. assert (f n <= g n) by (apply H; lia).
  assert (rsum n f <= rsum n g) by (apply IHn; intros; apply H; lia). lra.
Qed.
Lemma rsum_pos n f : (forall k, (k < n)%nat -> 0 <= f k) -> 0 <= rsum n f.
Proof.
  induction n; intros H; cbn; [lra|]. assert (0 <= f n) by (apply H; lia).
  assert (0 <= rsum n f) by (apply IHn; intros; apply H; lia). lra.
Qed.
Lemma rsum_plus n f g : rsum n (fun k => f k + g k) = rsum n f + rsum n g.
Proof. induction n; cbn; [lra|]. rewrite IHn. lra. Qed.
Lemma rsum_scal n c f : rsum n (fun k => c * f k) = c * rsum n f.
Proof. induction n; cbn; [lra|]. rewrite IHn. lra. Qed.
Lemma rsum_const n c : rsum n (fun _ => c) = INR n * c.
Proof. induction n; [cbn; lra|]. rewrite S_INR. cbn. rewrite IHn. lra. Qed.
Lemma lsum_seq n f : lsum (map f (seq 0 n)) = rsum n f.
Proof. induction n; [reflexivity|]. rewrite seq_S, map_app, lsum_app, IHn. cbn [map Nat.add rsum]. rewrite lsum_cons, lsum_nil. lra. Qed.
Lemma csum_app l l' : csum (l ++ l') = Cplus (csum l) (csum l').
Proof. induction l; cbn [app]; [|rewrite !csum_cons, IHl]; [change (csum []) with (RtoC 0)|]; ring. Qed.
Lemma csum_seq n (f : nat -> C) : csum (map f (seq 0 n)) = sumn (K := CC) n f.
Proof.
  induction n; [reflexivity|]. rewrite seq_S, map_app, csum_app, IHn. cbn [map Nat.add sumn]. rewrite csum_cons.
  change (csum []) with (RtoC 0). change (@sadd CC) with Cplus. ring.
Qed.
Lemma size_sumn n (f : nat -> C) : size (sumn (K := CC) n f) <= rsum n (fun k => size (f k)).
Proof.
  induction n; [change (sumn (K := CC) 0 f) with (RtoC 0); rewrite size_0; cbn; lra|].
  cbn [sumn rsum]. change (@sadd CC) with Cplus. eapply Rle_trans; [apply size_add|]. lra.
Qed.
Lemma sumn_minus n (f g : nat -> C) : Cminus (sumn (K := CC) n f) (sumn (K := CC) n g) = sumn (K := CC) n (fun k => Cminus (f k) (g k)).
Proof.
  induction n; [cbn; change (@s0 CC) with (RtoC 0); ring|].
  cbn [sumn]. change (@sadd CC) with Cplus. rewrite <- IHn. ring.
Qed.

(** Dot products and sums whose entries carry errors *)
Lemma dot_good n m (v w p : nat -> C) (t a : nat -> R) z :
  cdotted (map (fun k => (v k, w k)) (seq 0 n)) z ->
  (forall k, (k < n)%nat -> pgood m (t k) (p k) (a k) (v k, w k)) ->
  cgood (2 * n + m) (rsum n t + 4 * INR n * T) (sumn (K := CC) n p) (rsum n a) z.
Proof.
  intros D H. apply cdotted_good in D. rewrite map_length, seq_length in D.
  unfold ps in D. rewrite !map_map in D. cbn [fst snd] in D. rewrite lsum_seq, csum_seq in D.
  set (vw := fun k => Cmult (v k) (w k)) in *. destruct D as (_ & _ & D).
  assert (Ha : forall k, (k < n)%nat -> 0 <= a k).
  { intros k Hk. destruct (H k Hk) as (A & _). pose proof (size_pos (p k)). lra. }
  assert (Ht : forall k, (k < n)%nat -> 0 <= t k) by (intros k Hk; apply (H k Hk)).
  pose proof (rsum_pos n a Ha) as Pa. pose proof (rsum_pos n t Ht) as Pt.
  pose proof T_pos. pose proof (pos_INR n).
  assert (N : 0 <= 4 * INR n * T) by (apply Rmult_le_pos; lra).
  split; [eapply Rle_trans; [apply size_sumn|]; apply rsum_le; intros k Hk; apply (H k Hk)|].
  split; [lra|].
  replace (Cminus z (sumn (K := CC) n p)) with
    (Cplus (Cminus z (sumn (K := CC) n vw)) (Cminus (sumn (K := CC) n vw) (sumn (K := CC) n p))) by ring.
  eapply Rle_trans; [apply size_add|]. rewrite sumn_minus.
  assert (B : rsum n (fun k => size (v k) * size (w k)) <= grow m * (rsum n a + rsum n t)).
  { rewrite <- rsum_plus, <- rsum_scal. apply rsum_le. intros k Hk. apply (H k Hk). }
  assert (E : size (sumn (K := CC) n (fun k => Cminus (vw k) (p k))) <= (grow m - 1) * rsum n a + grow m * rsum n t).
  { eapply Rle_trans; [apply size_sumn|]. rewrite <- !rsum_scal, <- rsum_plus. apply rsum_le. intros k Hk.
    apply (H k Hk). }
  pose proof (grow_ge_1 (2 * n)). pose proof (grow_ge_1 m).
  assert ((grow (2 * n) - 1) * rsum n (fun k => size (v k) * size (w k)) <= (grow (2 * n) - 1) * (grow m * (rsum n a + rsum n t)))
    by (apply Rmult_le_compat_l; lra).
  rewrite grow_add.
  assert (0 <= (grow m - 1) * grow (2 * n) * (4 * INR n * T)) by (repeat apply Rmult_le_pos; lra).
  lra.
Qed.
Lemma sum_good n m (v s : nat -> C) (t a : nat -> R) z :
  (forall k, (k < n)%nat -> cfloat (v k)) ->
  csummed (map v (seq 0 n)) z ->
  (forall k, (k < n)%nat -> cgood m (t k) (s k) (a k) (v k)) ->
  cgood (n - 1 + m) (rsum n t) (sumn (K := CC) n s) (rsum n a) z.
Proof.
  intros F D H. apply csummed_good in D.
  2: { rewrite Forall_map, Forall_forall. intros k Hk. apply F. apply in_seq in Hk. lia. }
  rewrite map_length, seq_length in D. rewrite map_map, lsum_seq, csum_seq in D. destruct D as (_ & _ & D).
  assert (Ha : forall k, (k < n)%nat -> 0 <= a k) by (intros k Hk; eapply cgood_a, (H k Hk)).
  assert (Ht : forall k, (k < n)%nat -> 0 <= t k) by (intros k Hk; apply (H k Hk)).
  pose proof (rsum_pos n a Ha) as Pa. pose proof (rsum_pos n t Ht) as Pt.
  split; [eapply Rle_trans; [apply size_sumn|]; apply rsum_le; intros k Hk; apply (H k Hk)|].
  split; [lra|].
  replace (Cminus z (sumn (K := CC) n s)) with
    (Cplus (Cminus z (sumn (K := CC) n v)) (Cminus (sumn (K := CC) n v) (sumn (K := CC) n s))) by ring.
  eapply Rle_trans; [apply size_add|]. rewrite sumn_minus.
  assert (B : rsum n (fun k => size (v k)) <= grow m * (rsum n a + rsum n t)).
  { rewrite <- rsum_plus, <- rsum_scal. apply rsum_le. intros k Hk. apply cgood_size with (s k). apply (H k Hk). }
  assert (E : size (sumn (K := CC) n (fun k => Cminus (v k) (s k))) <= (grow m - 1) * rsum n a + grow m * rsum n t).
  { eapply Rle_trans; [apply size_sumn|]. rewrite <- !rsum_scal, <- rsum_plus. apply rsum_le. intros k Hk.
    apply (H k Hk). }
  pose proof (grow_ge_1 (n - 1)). pose proof (grow_ge_1 m).
  assert ((grow (n - 1) - 1) * rsum n (fun k => size (v k)) <= (grow (n - 1) - 1) * (grow m * (rsum n a + rsum n t)))
    by (apply Rmult_le_compat_l; lra).
  rewrite grow_add. lra.
Qed.
Lemma mul_good n t p a z w v : cmul z w v -> pgood n t p a (z, w) -> cgood (2 + n) (t + 4 * T) p a v.
Proof.
  intros D P.
  assert (G := dot_good 1 n (fun _ => z) (fun _ => w) (fun _ => p) (fun _ => t) (fun _ => a) v D (fun k _ => P)).
  cbn [rsum sumn INR] in G. rewrite !Rplus_0_l in G. rewrite Rmult_1_r in G.
  replace (@sadd CC (@s0 CC) p) with p in G by (change (p = Cplus (RtoC 0) p); ring). exact G.
Qed.

(** Addition, subtraction and scaling *)
Lemma cadd_err z w : cfloat z -> cfloat w -> size (Cminus (cadd z w) (Cplus z w)) <= U * size (Cplus z w).
Proof.
  intros (F1 & F2) (F1' & F2'). unfold size, cadd, fadd. cbn.
  pose proof (fl_add_err _ _ F1 F1') as A. pose proof (fl_add_err _ _ F2 F2') as B. unfold Rminus in *. lra.
Qed.
Lemma cadd_float z w : cfloat (cadd z w).
Proof. split; apply fl_float. Qed.
Lemma csub_float z w : cfloat (csub z w).
Proof. split; apply fl_float. Qed.
Lemma rscale_float x z : cfloat (rscale x z).
Proof. split; apply fl_float. Qed.
Lemma cfloat_0 : cfloat (RtoC 0).
Proof. split; apply float_0. Qed.
Lemma cfloat_opp z : cfloat z -> cfloat (Copp z).
Proof. intros (A & B). split; apply float_opp; assumption. Qed.
Lemma cadd_good n t s a v m t' s' a' v' : cfloat v -> cfloat v' -> cgood n t s a v -> cgood m t' s' a' v' ->
  cgood (S (Nat.max n m)) (t + t') (Cplus s s') (a + a') (cadd v v').
Proof.
  intros F F' G G'. set (k := Nat.max n m).
  apply (cgood_mono n k t t s a a) in G; [|lia|lra|lra]. apply (cgood_mono m k t' t' s' a' a') in G'; [|lia|lra|lra].
  pose proof (cgood_size _ _ _ _ _ G) as Z. pose proof (cgood_size _ _ _ _ _ G') as Z'.
  destruct G as (H1 & H2 & E), G' as (H1' & H2' & E').
  split; [eapply Rle_trans; [apply size_add|]; lra|]. split; [lra|].
  pose proof (cadd_err v v' F F') as A.
  replace (Cminus (cadd v v') (Cplus s s')) with
    (Cplus (Cminus (cadd v v') (Cplus v v')) (Cplus (Cminus v s) (Cminus v' s'))) by ring.
  eapply Rle_trans; [apply size_add|]. pose proof (size_add (Cminus v s) (Cminus v' s')).
  pose proof (size_add v v'). rewrite grow_S. pose proof U_pos.
  assert (U * size (Cplus v v') <= U * (grow k * (a + t) + grow k * (a' + t'))) by (apply Rmult_le_compat_l; lra).
  lra.
Qed.
Lemma csub_cadd z w : csub z w = cadd z (Copp w).
Proof. unfold csub, cadd, fsub, fadd, Rminus. reflexivity. Qed.
Lemma cgood_opp n t s a v : cgood n t s a v -> cgood n t (Copp s) a (Copp v).
Proof.
  intros (H1 & H2 & E). split; [rewrite size_opp; exact H1|]. split; [exact H2|].
  replace (Cminus (Copp v) (Copp s)) with (Copp (Cminus v s)) by ring. rewrite size_opp. exact E.
Qed.
Lemma csub_good n t s a v m t' s' a' v' : cfloat v -> cfloat v' -> cgood n t s a v -> cgood m t' s' a' v' ->
  cgood (S (Nat.max n m)) (t + t') (Cminus s s') (a + a') (csub v v').
Proof.
  intros F F' G G'. rewrite csub_cadd. unfold Cminus.
  apply cadd_good; [assumption | apply cfloat_opp; assumption | assumption | apply cgood_opp; assumption].
Qed.
Lemma rscale_good n t p a x v : pgood n t p a (RtoC x, v) -> cgood (S n) (t + 2 * T) p a (rscale x v).
Proof.
  intros (H1 & H2 & Z & E). cbn [fst snd] in *. pose proof T_pos. split; [assumption|]. split; [lra|].
  replace (Cminus (rscale x v) p) with (Cplus (Cminus (rscale x v) (Cmult (RtoC x) v)) (Cminus (Cmult (RtoC x) v) p)) by ring.
  eapply Rle_trans; [apply size_add|].
  assert (A : size (Cminus (rscale x v) (Cmult (RtoC x) v)) <= U * (size (RtoC x) * size v) + 2 * T).
  { rewrite size_R. unfold size, rscale, fmul. cbn.
    pose proof (fl_err (x * fst v)) as A. pose proof (fl_err (x * snd v)) as B.
    replace (fl (x * fst v) + - (x * fst v - 0 * snd v)) with (fl (x * fst v) - x * fst v) by ring.
    replace (fl (x * snd v) + - (x * snd v + 0 * fst v)) with (fl (x * snd v) - x * snd v) by ring.
    rewrite !Rabs_mult in *. lra. }
  pose proof U_pos. pose proof (grow_ge_1 n). rewrite grow_S.
  assert (U * (size (RtoC x) * size v) <= U * (grow n * (a + t))) by (apply Rmult_le_compat_l; lra).
  assert (1 <= (1 + U) * grow n) by nra.
  assert (1 * (2 * T) <= (1 + U) * grow n * (2 * T)) by (apply Rmult_le_compat_r; lra).
  lra.
Qed.
