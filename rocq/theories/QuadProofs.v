(** How far the trapezoidal sums and the difference Hamiltonian are from integrals and derivatives. *)
From Coq Require Import List Arith ZArith Reals Lra Lia Bool.
From Coquelicot Require Import Coquelicot.
From Verif Require Import Scalar ScalarC Py Numpy BasisSet Spec OneDim OneDimSpec OneDimProofs DotProofs GridSpec GridProofs.
Import ListNotations.
Open Scope R_scope.

(** ** One panel *)
Lemma panel (f f' f'' : R -> R) (s t M : R) : s <= t ->
  (forall x, s <= x <= t -> is_derive f x (f' x)) -> (forall x, s <= x <= t -> is_derive f' x (f'' x)) ->
  (forall x, s <= x <= t -> continuous f'' x) -> (forall x, s <= x <= t -> Rabs (f'' x) <= M) ->
  ex_RInt f s t /\ Rabs ((t - s) / 2 * (f s + f t) - RInt f s t) <= M * (t - s) ^ 3 / 12.
Proof.
  intros Hst D1 D2 Cf B.
  assert (If : is_RInt f s t (RInt f s t)).
  { apply (RInt_correct f). apply (ex_RInt_continuous f). intros z Hz. rewrite Rmin_left, Rmax_right in Hz by exact Hst. apply (ex_derive_continuous f). exists (f' z). exact (D1 z Hz). }
  split; [eexists; exact If|].
  set (k := fun x => (x - s) * (t - x) * f'' x). set (G := fun x => (x - s) * (t - x) * f' x - (s + t - 2 * x) * f x).
  assert (IG : is_RInt (fun x => k x + 2 * f x) s t (minus (G t) (G s))).
  { apply (is_RInt_derive G).
    - intros x Hx. rewrite Rmin_left, Rmax_right in Hx by exact Hst. unfold G, k. pose proof (D1 x Hx) as A. pose proof (D2 x Hx) as A'.
      auto_derive; [repeat split; [exists (f'' x); exact A' | exists (f' x); exact A]|].
      replace (Derive (fun x0 => f x0) x) with (f' x) by (symmetry; apply is_derive_unique; exact A).
      replace (Derive (fun x0 => f' x0) x) with (f'' x) by (symmetry; apply is_derive_unique; exact A'). ring.
    - intros x Hx. rewrite Rmin_left, Rmax_right in Hx by exact Hst. unfold k.
      apply (continuous_plus (fun x => (x - s) * (t - x) * f'' x) (fun x => 2 * f x)).
      + apply (continuous_mult (K := R_AbsRing) (fun x => (x - s) * (t - x)) f''); [|exact (Cf x Hx)]. apply (ex_derive_continuous (fun x => (x - s) * (t - x))). auto_derive. exact I.
      + apply (ex_derive_continuous (fun x => 2 * f x)). auto_derive. exists (f' x). exact (D1 x Hx). }
  assert (Ik : is_RInt k s t ((t - s) * (f s + f t) - 2 * RInt f s t)).
  { apply (is_RInt_ext (fun x => minus (k x + 2 * f x) (scal 2 (f x)))).
    - intros x _. unfold minus, plus, opp, scal. cbn. unfold mult. cbn. ring.
    - replace ((t - s) * (f s + f t) - 2 * RInt f s t) with (minus (minus (G t) (G s)) (scal 2 (RInt f s t))).
      + apply (is_RInt_minus (V := R_NormedModule)); [exact IG|]. apply (is_RInt_scal (V := R_NormedModule)). exact If.
      + unfold minus, plus, opp, scal, G. cbn. unfold mult. cbn. ring. }
  assert (Iq : is_RInt (fun x => M * ((x - s) * (t - x))) s t (M * (t - s) ^ 3 / 6)).
  { set (Q := fun x : R => M * ((x - s) ^ 2 * (t - s) / 2 - (x - s) ^ 3 / 3)).
    replace (M * (t - s) ^ 3 / 6) with (minus (Q t) (Q s)) by (unfold minus, plus, opp, Q; cbn; field).
    apply (is_RInt_derive Q).
    - intros x _. unfold Q. auto_derive; [exact I|]. field.
    - intros x _. apply (ex_derive_continuous (fun x => M * ((x - s) * (t - x)))). auto_derive. exact I. }
  assert (A : Rabs ((t - s) * (f s + f t) - 2 * RInt f s t) <= M * (t - s) ^ 3 / 6).
  { change (norm ((t - s) * (f s + f t) - 2 * RInt f s t) <= M * (t - s) ^ 3 / 6). apply (norm_RInt_le k (fun x => M * ((x - s) * (t - x))) s t); [exact Hst| |exact Ik|exact Iq].
    intros x Hx. change (Rabs (k x) <= M * ((x - s) * (t - x))). unfold k. assert (P : 0 <= (x - s) * (t - x)) by (apply Rmult_le_pos; lra).
    rewrite Rabs_mult, (Rabs_right ((x - s) * (t - x))) by lra. rewrite (Rmult_comm M). apply Rmult_le_compat_l; [exact P | apply B, Hx]. }
  replace ((t - s) / 2 * (f s + f t) - RInt f s t) with (/ 2 * ((t - s) * (f s + f t) - 2 * RInt f s t)) by field.
  rewrite Rabs_mult, (Rabs_right (/ 2)) by lra. lra.
Qed.

(** ** The whole rule, on any increasing points *)
Lemma trapezoid_real N (f : nat -> R) x : trapezoid N (fun i => RtoC (f i)) x = RtoC (rsum (N - 1) (fun i => (x (S i) - x i) / 2 * (f i + f (S i)))).
Proof. rewrite trapezoid_sum, <- csum_rsum. apply csum_ext. intros i _. rewrite <- RtoC_plus, <- RtoC_mult. reflexivity. Qed.
Lemma rule_error n (x : nat -> R) (f f' f'' : R -> R) (M d : R) :
  (forall i, (i < n)%nat -> x (S i) - x i = d) -> 0 <= d ->
  (forall y, x 0%nat <= y <= x n -> is_derive f y (f' y)) -> (forall y, x 0%nat <= y <= x n -> is_derive f' y (f'' y)) ->
  (forall y, x 0%nat <= y <= x n -> continuous f'' y) -> (forall y, x 0%nat <= y <= x n -> Rabs (f'' y) <= M) ->
  ex_RInt f (x 0%nat) (x n) /\ Rabs (rsum n (fun i => (x (S i) - x i) / 2 * (f (x i) + f (x (S i)))) - RInt f (x 0%nat) (x n)) <= M * (x n - x 0%nat) * d ^ 2 / 12.
Proof.
  intros Hd Hp.
  assert (Mono : forall k, (k <= n)%nat -> x 0%nat <= x k) by (induction k as [|k IH]; intros Hk; [lra|]; specialize (Hd k ltac:(lia)); specialize (IH ltac:(lia)); lra).
  induction n as [|n IH]; intros D1 D2 Cf B.
  - split; [apply ex_RInt_point|]. cbn [rsum]. rewrite RInt_point. change (@zero _) with 0. replace (0 - 0) with 0 by ring. rewrite Rabs_R0. right. field.
  - pose proof (Hd n ltac:(lia)) as Dn. pose proof (Mono n ltac:(lia)) as Mn.
    destruct IH as [I E]; [intros i Hi; apply Hd; lia | intros k Hk; apply Mono; lia | intros y Hy; apply D1; lra | intros y Hy; apply D2; lra | intros y Hy; apply Cf; lra | intros y Hy; apply B; lra|].
    destruct (panel f f' f'' (x n) (x (S n)) M) as [I' E']; [lra | intros y Hy; apply D1; lra | intros y Hy; apply D2; lra | intros y Hy; apply Cf; lra | intros y Hy; apply B; lra|].
    split; [apply (ex_RInt_Chasles f _ (x n) _ I I')|]. rewrite <- (RInt_Chasles f (x 0%nat) (x n) (x (S n)) I I'). cbn [rsum]. set (T := rsum n _) in *.
    match goal with |- context [plus ?y ?z] => change (plus y z) with (y + z) end. replace (T + (x (S n) - x n) / 2 * (f (x n) + f (x (S n))) - (RInt f (x 0%nat) (x n) + RInt f (x n) (x (S n)))) with ((T - RInt f (x 0%nat) (x n)) + ((x (S n) - x n) / 2 * (f (x n) + f (x (S n))) - RInt f (x n) (x (S n)))) by ring.
    eapply Rle_trans; [apply Rabs_triang|]. eapply Rle_trans; [apply Rplus_le_compat; [exact E | exact E']|]. rewrite Dn. right. replace (x (S n)) with (x n + d) by lra. field.
Qed.
Lemma point_first L N : point L N 0 = - L.
Proof. unfold point. cbn. unfold Rdiv. ring. Qed.
Lemma point_last L N : (2 <= N)%nat -> point L N (N - 1) = L.
Proof. intros H. unfold point. assert (0 < INR (N - 1)) by (apply lt_0_INR; lia). field. lra. Qed.
Lemma point_step L N i : point L N (S i) - point L N i = spacing L N.
Proof. unfold point, spacing. rewrite S_INR. unfold Rdiv. ring. Qed.
Lemma spacing_pos L N : 0 < L -> (2 <= N)%nat -> 0 < spacing L N.
Proof. intros H H2. apply Rdiv_lt_0_compat; [lra|]. apply lt_0_INR. lia. Qed.
Lemma trapz_error (L : R) (N : nat) (f f' f'' : R -> R) (M : R) : 0 < L -> (2 <= N)%nat ->
  (forall y, - L <= y <= L -> is_derive f y (f' y)) -> (forall y, - L <= y <= L -> is_derive f' y (f'' y)) ->
  (forall y, - L <= y <= L -> continuous f'' y) -> (forall y, - L <= y <= L -> Rabs (f'' y) <= M) ->
  exists v I, trapz N (fun i => RtoC (f (linspace L N i))) (linspace L N) = RtoC v /\ is_RInt f (- L) L I /\
    Rabs (v - I) <= M * (2 * L) * spacing L N ^ 2 / 12.
Proof.
  intros HL H2 D1 D2 Cf B. exists (rsum (N - 1) (fun i => (point L N (S i) - point L N i) / 2 * (f (point L N i) + f (point L N (S i))))), (RInt f (- L) L).
  destruct (rule_error (N - 1) (point L N) f f' f'' M (spacing L N)) as [I E]; [intros; apply point_step | pose proof (spacing_pos L N HL H2); lra | | | | |];
    try (rewrite point_first, (point_last L N H2); assumption). rewrite point_first, (point_last L N H2) in I, E.
  split; [|split; [apply (RInt_correct f), I|]].
  - rewrite trapz_uniform by apply linspace_uniform. rewrite trapezoid_real. f_equal. apply rsum_ext. intros i _. rewrite !linspace_point. reflexivity.
  - replace (2 * L) with (L - - L) by ring. exact E.
Qed.
(** Refining the grid *)
Lemma trapz_limit (L : R) (f f' f'' : R -> R) : 0 < L ->
  (forall y, - L <= y <= L -> is_derive f y (f' y)) -> (forall y, - L <= y <= L -> is_derive f' y (f'' y)) ->
  (forall y, - L <= y <= L -> continuous f'' y) ->
  exists I, is_RInt f (- L) L I /\ is_lim_seq (fun N => Re (trapz N (fun i => RtoC (f (linspace L N i))) (linspace L N))) I.
Proof.
  intros HL D1 D2 Cf.
  assert (Bd : exists M, forall y, - L <= y <= L -> Rabs (f'' y) <= M).
  { destruct (continuity_ab_maj (fun y => Rabs (f'' y)) (- L) L ltac:(lra)) as (y & Hy & _).
    - intros c Hc. apply continuity_pt_filterlim. apply (continuous_comp f'' Rabs); [apply Cf, Hc | apply continuous_Rabs].
    - exists (Rabs (f'' y)). exact Hy. }
  destruct Bd as [M B]. exists (RInt f (- L) L).
  assert (I : is_RInt f (- L) L (RInt f (- L) L)).
  { apply (RInt_correct f). apply (ex_RInt_continuous f). intros z Hz. rewrite Rmin_left, Rmax_right in Hz by lra. apply (ex_derive_continuous f). exists (f' z). exact (D1 z Hz). }
  split; [exact I|].
  apply is_lim_seq_spec. intros eps. assert (M0 : 0 <= M) by (eapply Rle_trans; [apply Rabs_pos | apply (B 0); lra]).
  assert (S : is_lim_seq (fun n => M * (2 * L) / 12 * (2 * L * / INR n) ^ 2) 0).
  { replace (Finite 0) with (Rbar_mult (M * (2 * L) / 12) (Rbar_mult (2 * L * 0) (2 * L * 0))) by (cbn; f_equal; ring).
    apply is_lim_seq_scal_l. apply (is_lim_seq_ext (fun n => (2 * L * / INR n) * (2 * L * / INR n))); [intros; ring|].
    assert (A : is_lim_seq (fun n => 2 * L * / INR n) (2 * L * 0)).
    { apply (is_lim_seq_scal_l (fun n => / INR n) (2 * L) 0). apply (is_lim_seq_inv INR p_infty); [apply is_lim_seq_INR | discriminate]. }
    apply (is_lim_seq_mult _ _ (2 * L * 0) (2 * L * 0) _ A A). reflexivity. }
  apply is_lim_seq_spec in S. destruct (S eps) as [n0 Hn]. exists (n0 + 2)%nat. intros N HN.
  destruct (trapz_error L N f f' f'' M HL ltac:(lia) D1 D2 Cf B) as (v & I' & E & Ii & Er). rewrite E. change (Re (RtoC v)) with v.
  rewrite <- (is_RInt_unique _ _ _ _ Ii) in Er. eapply Rle_lt_trans; [exact Er|]. specialize (Hn (N - 1)%nat ltac:(lia)).
  rewrite Rminus_0_r in Hn. eapply Rle_lt_trans; [|exact Hn]. eapply Rle_trans; [|apply Rle_abs]. right. unfold spacing, Rdiv. ring.
Qed.

(** ** Central differences *)
Lemma grow (F F' : R -> R) (c h : R) (n : nat) : F 0 = 0 ->
  (forall t, 0 <= t <= h -> is_derive F t (F' t)) -> (forall t, 0 <= t <= h -> Rabs (F' t) <= c * t ^ n) ->
  forall t, 0 <= t <= h -> Rabs (F t) <= c / INR (S n) * t ^ (S n).
Proof.
  intros F0 D B t Ht. pose proof (lt_0_INR (S n) ltac:(lia)) as Hn.
  assert (Up : forall G G', G 0 = 0 -> (forall s, 0 <= s <= h -> is_derive G s (G' s)) -> (forall s, 0 <= s <= h -> G' s <= c * s ^ n) -> G t <= c / INR (S n) * t ^ (S n)).
  { intros G G' G0 DG BG. set (H := fun s => c / INR (S n) * s ^ (S n) - G s). enough (0 <= H t) by (unfold H in *; lra).
    destruct (MVT_gen H 0 t (fun s => c * s ^ n - G' s)) as (s & Hs & E).
    - intros s Hs. rewrite Rmin_left, Rmax_right in Hs by lra. unfold H. auto_derive; [exists (G' s); apply DG; lra|].
      replace (Derive (fun x => G x) s) with (G' s) by (symmetry; apply is_derive_unique, DG; lra). change (match n with O => 1 | S _ => INR n + 1 end) with (INR (S n)). field. apply not_0_INR. lia.
    - intros s Hs. rewrite Rmin_left, Rmax_right in Hs by lra. apply continuity_pt_filterlim. apply (ex_derive_continuous H). unfold H. auto_derive. exists (G' s). apply DG; lra.
    - rewrite Rmin_left, Rmax_right in Hs by lra. assert (H0 : H 0 = 0) by (unfold H; rewrite G0, pow_ne_zero by lia; ring). rewrite H0 in E.
      assert (0 <= (c * s ^ n - G' s) * (t - 0)) by (apply Rmult_le_pos; [pose proof (BG s ltac:(lra)); lra | lra]). lra. }
  apply Rabs_le. split.
  - enough (- F t <= c / INR (S n) * t ^ (S n)) by lra. apply (Up (fun s => - F s) (fun s => - F' s)); [lra| |].
    + intros s Hs. apply (is_derive_opp F). apply D, Hs.
    + intros s Hs. pose proof (B s Hs) as A. pose proof (Rle_abs (- F' s)) as A'. rewrite Rabs_Ropp in A'. lra.
  - apply (Up F F' F0 D). intros s Hs. eapply Rle_trans; [apply Rle_abs | apply B, Hs].
Qed.
Section Difference.
  Variables (f f1 f2 f3 f4 : R -> R) (x h M : R).
  Hypothesis D0 : forall y, x - h <= y <= x + h -> is_derive f y (f1 y).
  Hypothesis D1 : forall y, x - h <= y <= x + h -> is_derive f1 y (f2 y).
  Hypothesis D2 : forall y, x - h <= y <= x + h -> is_derive f2 y (f3 y).
  Hypothesis D3 : forall y, x - h <= y <= x + h -> is_derive f3 y (f4 y).
  Hypothesis B : forall y, x - h <= y <= x + h -> Rabs (f4 y) <= M.
  Lemma shift_up (g g' : R -> R) t : is_derive g (x + t) (g' (x + t)) -> is_derive (fun t => g (x + t)) t (g' (x + t)).
  Proof. intros A. auto_derive; [exists (g' (x + t)); exact A|]. replace (Derive (fun x0 => g x0) (x + t)) with (g' (x + t)) by (symmetry; apply is_derive_unique; exact A). ring. Qed.
  Lemma shift_down (g g' : R -> R) t : is_derive g (x - t) (g' (x - t)) -> is_derive (fun t => g (x - t)) t (- g' (x - t)).
  Proof. intros A. auto_derive; [exists (g' (x - t)); exact A|]. change (x + - t) with (x - t). replace (Derive (fun x0 => g x0) (x - t)) with (g' (x - t)) by (symmetry; apply is_derive_unique; exact A). ring. Qed.
  Lemma second_difference : 0 <= h -> Rabs (f (x + h) - 2 * f x + f (x - h) - h ^ 2 * f2 x) <= M * h ^ 4 / 12.
  Proof.
    intros Hh.
    assert (E3 : forall t, 0 <= t <= h -> Rabs (f3 (x + t) - f3 (x - t)) <= 2 * M / INR 1 * t ^ 1).
    { apply (grow (fun t => f3 (x + t) - f3 (x - t)) (fun t => f4 (x + t) + f4 (x - t))); [rewrite Rplus_0_r, Rminus_0_r; ring| |].
      - intros t Ht. replace (f4 (x + t) + f4 (x - t)) with (minus (f4 (x + t)) (- f4 (x - t))) by (unfold minus, plus, opp; cbn; ring).
        apply (is_derive_minus (fun t => f3 (x + t)) (fun t => f3 (x - t))); [apply shift_up, D3; lra | apply shift_down, D3; lra].
      - intros t Ht. eapply Rle_trans; [apply Rabs_triang|]. pose proof (B (x + t) ltac:(lra)). pose proof (B (x - t) ltac:(lra)). cbn. lra. }
    assert (E2 : forall t, 0 <= t <= h -> Rabs (f2 (x + t) + f2 (x - t) - 2 * f2 x) <= 2 * M / INR 1 / INR 2 * t ^ 2).
    { apply (grow (fun t => f2 (x + t) + f2 (x - t) - 2 * f2 x) (fun t => f3 (x + t) - f3 (x - t))); [rewrite Rplus_0_r, Rminus_0_r; ring| |exact E3].
      intros t Ht. replace (f3 (x + t) - f3 (x - t)) with (minus (plus (f3 (x + t)) (- f3 (x - t))) 0) by (unfold minus, plus, opp; cbn; ring).
      apply (is_derive_minus (fun t => f2 (x + t) + f2 (x - t)) (fun _ => 2 * f2 x)); [|apply @is_derive_const].
      apply (is_derive_plus (fun t => f2 (x + t)) (fun t => f2 (x - t))); [apply shift_up, D2; lra | apply shift_down, D2; lra]. }
    assert (E1 : forall t, 0 <= t <= h -> Rabs (f1 (x + t) - f1 (x - t) - 2 * t * f2 x) <= 2 * M / INR 1 / INR 2 / INR 3 * t ^ 3).
    { apply (grow (fun t => f1 (x + t) - f1 (x - t) - 2 * t * f2 x) (fun t => f2 (x + t) + f2 (x - t) - 2 * f2 x)); [rewrite Rplus_0_r, Rminus_0_r; ring| |exact E2].
      intros t Ht. replace (f2 (x + t) + f2 (x - t) - 2 * f2 x) with (minus (minus (f2 (x + t)) (- f2 (x - t))) (2 * f2 x)) by (unfold minus, plus, opp; cbn; ring).
      apply (is_derive_minus (fun t => f1 (x + t) - f1 (x - t)) (fun t => 2 * t * f2 x)); [|auto_derive; [exact I | ring]].
      apply (is_derive_minus (fun t => f1 (x + t)) (fun t => f1 (x - t))); [apply shift_up, D1; lra | apply shift_down, D1; lra]. }
    assert (E0 : forall t, 0 <= t <= h -> Rabs (f (x + t) + f (x - t) - 2 * f x - t ^ 2 * f2 x) <= 2 * M / INR 1 / INR 2 / INR 3 / INR 4 * t ^ 4).
    { apply (grow (fun t => f (x + t) + f (x - t) - 2 * f x - t ^ 2 * f2 x) (fun t => f1 (x + t) - f1 (x - t) - 2 * t * f2 x)); [rewrite Rplus_0_r, Rminus_0_r; ring| |exact E1].
      intros t Ht. replace (f1 (x + t) - f1 (x - t) - 2 * t * f2 x) with (minus (minus (plus (f1 (x + t)) (- f1 (x - t))) 0) (2 * t * f2 x)) by (unfold minus, plus, opp; cbn; ring).
      apply (is_derive_minus (fun t => f (x + t) + f (x - t) - 2 * f x) (fun t => t ^ 2 * f2 x)); [|auto_derive; [exact I | ring]].
      apply (is_derive_minus (fun t => f (x + t) + f (x - t)) (fun _ => 2 * f x)); [|apply @is_derive_const].
      apply (is_derive_plus (fun t => f (x + t)) (fun t => f (x - t))); [apply shift_up, D0; lra | apply shift_down, D0; lra]. }
    replace (f (x + h) - 2 * f x + f (x - h) - h ^ 2 * f2 x) with (f (x + h) + f (x - h) - 2 * f x - h ^ 2 * f2 x) by ring.
    eapply Rle_trans; [apply E0; lra|]. right. cbn [INR]. field.
  Qed.
End Difference.
