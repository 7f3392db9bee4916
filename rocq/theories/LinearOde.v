(** Linear differential equations with continuous coefficients have solutions. *)
From Coq Require Import List Arith Reals Ranalysis5 Lra Lia.
From Coquelicot Require Import Coquelicot.
From Verif Require Import Scalar ScalarC OneDimSpec DotProofs GridSpec FockSpec InnerSpec EvolutionSpec EvolutionCalculus.
Open Scope R_scope.
Local Notation S_ := (sumn (K := CC)).

(** ** Continuous complex functions *)
Lemma ccont_der f (f' : R -> C) : (forall t, derivative f t (f' t)) -> ccont f.
Proof. intros D t. destruct (D t) as [A B]. split; [apply (ex_derive_continuous (fun x => Re (f x))) | apply (ex_derive_continuous (fun x => Im (f x)))]; eexists; eassumption. Qed.
Lemma ccont_const z : ccont (fun _ => z).
Proof. intros t. split; apply continuous_const. Qed.
Lemma ccont_add f g : ccont f -> ccont g -> ccont (fun x => (f x + g x)%C).
Proof. intros F G t. destruct (F t) as [F1 F2], (G t) as [G1 G2]. split; cbn; apply (continuous_plus (V := R_NormedModule)); assumption. Qed.
Lemma ccont_mul f g : ccont f -> ccont g -> ccont (fun x => (f x * g x)%C).
Proof.
  intros F G t. destruct (F t) as [F1 F2], (G t) as [G1 G2]. split; cbn.
  - apply (continuous_minus (V := R_NormedModule)); apply (continuous_mult (K := R_AbsRing)); assumption.
  - apply (continuous_plus (V := R_NormedModule)); apply (continuous_mult (K := R_AbsRing)); assumption.
Qed.
Lemma ccont_sum m (f : nat -> R -> C) : (forall k, (k < m)%nat -> ccont (f k)) -> ccont (fun x => S_ m (fun k => f k x)).
Proof.
  intros H. induction m as [|m IH]; [exact (ccont_const (RtoC 0))|].
  refine (ccont_add (fun x => S_ m (fun k => f k x)) (f m) _ _); [apply IH; intros k Hk; apply H; lia | apply H; lia].
Qed.
Definition cint (f : R -> C) (t : R) : C := (RInt (fun x => Re (f x)) 0 t, RInt (fun x => Im (f x)) 0 t).
Lemma cint_der f t : ccont f -> derivative (cint f) t (f t).
Proof.
  intros H.
  assert (G : forall g : R -> R, (forall x, continuous g x) -> is_derive (fun x => RInt g 0 x) t (g t)).
  { intros g Cg. apply (is_derive_RInt (V := R_NormedModule) g (fun x => RInt g 0 x) 0 t); [|apply Cg].
    apply filter_forall. intros x. apply (RInt_correct (V := R_CompleteNormedModule)), (ex_RInt_continuous (V := R_CompleteNormedModule)). intros z _. apply Cg. }
  split; [apply (G (fun x => Re (f x))) | apply (G (fun x => Im (f x)))]; intros x; apply H.
Qed.

(** ** Sizes *)
Definition box (z : C) (b : R) : Prop := Rabs (Re z) <= b /\ Rabs (Im z) <= b.
Lemma box_le z a b : box z a -> a <= b -> box z b.
Proof. intros [A B] L. split; lra. Qed.
Lemma box_0 : box (RtoC 0) 0.
Proof. split; cbn; rewrite Rabs_R0; lra. Qed.
Lemma box_add y z a b : box y a -> box z b -> box (y + z)%C (a + b).
Proof. intros [A1 A2] [B1 B2]. split; cbn; (eapply Rle_trans; [apply Rabs_triang|]); apply Rplus_le_compat; assumption. Qed.
Lemma box_mul y z a b : box y a -> box z b -> box (y * z)%C (2 * a * b).
Proof.
  intros [A1 A2] [B1 B2]. assert (M : forall x1 x2, Rabs x1 <= a -> Rabs x2 <= b -> Rabs (x1 * x2) <= a * b).
  { intros x1 x2 X1 X2. rewrite Rabs_mult. apply Rmult_le_compat; try apply Rabs_pos; assumption. }
  split; cbn.
  - unfold Rminus. eapply Rle_trans; [apply Rabs_triang|]. rewrite Rabs_Ropp. pose proof (M _ _ A1 B1). pose proof (M _ _ A2 B2). unfold Re, Im in *. lra.
  - eapply Rle_trans; [apply Rabs_triang|]. pose proof (M _ _ A1 B2). pose proof (M _ _ A2 B1). unfold Re, Im in *. lra.
Qed.
Lemma box_sum m (f : nat -> C) b : (forall k, (k < m)%nat -> box (f k) b) -> box (S_ m f) (INR m * b).
Proof.
  intros H. induction m as [|m IH]; [rewrite Rmult_0_l; exact box_0|]. rewrite S_INR, Rmult_plus_distr_r, Rmult_1_l.
  apply (box_add (S_ m f) (f m)); [apply IH; intros k Hk; apply H; lia | apply H; lia].
Qed.
Lemma box_bound (f : R -> C) T : 0 <= T -> ccont f -> exists b, 0 <= b /\ forall t, Rabs t <= T -> box (f t) b.
Proof.
  intros HT H.
  assert (G : forall g : R -> R, (forall x, continuous g x) -> exists b, 0 <= b /\ forall t, Rabs t <= T -> Rabs (g t) <= b).
  { intros g Cg. destruct (continuity_ab_maj (fun x => Rabs (g x)) (- T) T ltac:(lra)) as (M & HM & _).
    - intros c _. apply continuity_pt_filterlim. apply (continuous_comp g Rabs); [apply Cg | apply continuous_Rabs].
    - exists (Rabs (g M)). split; [apply Rabs_pos|]. intros t Ht. apply HM. apply Rabs_le_between in Ht. exact Ht. }
  destruct (G (fun x => Re (f x)) (fun x => proj1 (H x))) as (a & Ha & Ba). destruct (G (fun x => Im (f x)) (fun x => proj2 (H x))) as (b & Hb & Bb).
  exists (a + b). split; [lra|]. intros t Ht. specialize (Ba t Ht). specialize (Bb t Ht). cbv beta in Ba, Bb. split; lra.
Qed.
Lemma common_bound m (P : nat -> R -> Prop) : (forall k a b, (k < m)%nat -> P k a -> a <= b -> P k b) -> (forall k, (k < m)%nat -> exists b, 0 <= b /\ P k b) ->
  exists b, 0 <= b /\ forall k, (k < m)%nat -> P k b.
Proof.
  intros Mo H. induction m as [|m IH]; [exists 0; split; [lra | lia]|].
  destruct IH as (a & Ha & Ba). { intros k x y Hk. apply Mo; lia. } { intros k Hk. apply H; lia. }
  destruct (H m ltac:(lia)) as (b & Hb & Bb). exists (a + b). split; [lra|]. intros k Hk. destruct (Nat.eq_dec k m) as [->|N]; [apply (Mo m b); [lia | exact Bb | lra] | apply (Mo k a); [lia | apply Ba; lia | lra]].
Qed.
(** A function that starts at zero is bounded by a bound on the antiderivative. *)
Lemma compare_pos (f f' : R -> R) T b k : 0 <= b -> (forall x, is_derive f x (f' x)) -> f 0 = 0 -> (forall x, 0 <= x <= T -> Rabs (f' x) <= b * x ^ k / INR (fact k)) ->
  forall t, 0 <= t <= T -> Rabs (f t) <= b * t ^ (S k) / INR (fact (S k)).
Proof.
  intros Hb D F0 B t Ht. pose proof (INR_fact_neq_0 k) as N1. pose proof (INR_fact_neq_0 (S k)) as N2.
  assert (Dg : forall x, is_derive (fun x => b * x ^ (S k) / INR (fact (S k))) x (b * x ^ k / INR (fact k))).
  { intros x. apply (is_derive_ext (fun x => b / INR (fact (S k)) * x ^ (S k))); [intros y; change (b / INR (fact (S k)) * y ^ (S k) = b * y ^ (S k) / INR (fact (S k))); unfold Rdiv; ring|].
    replace (b * x ^ k / INR (fact k)) with (b / INR (fact (S k)) * (INR (S k) * x ^ (pred (S k)))).
    - apply (is_derive_scal (fun x => x ^ (S k)) x (b / INR (fact (S k)))). apply is_derive_Reals. exact (derivable_pt_lim_pow x (S k)).
    - cbn [pred]. rewrite fact_simpl, mult_INR. field. split; [exact N1 | apply not_0_INR; lia]. }
  assert (M : forall e, e = 1 \/ e = -1 -> 0 <= b * t ^ (S k) / INR (fact (S k)) + e * f t).
  { intros e He. set (g := fun x => b * x ^ (S k) / INR (fact (S k)) + e * f x).
    destruct (MVT_gen g 0 t (fun x => b * x ^ k / INR (fact k) + e * f' x)) as (c & Hc & E).
    - intros x _. apply (is_derive_plus (K := R_AbsRing) (V := R_NormedModule)); [apply Dg|]. apply is_derive_scal, D.
    - intros x _. apply continuity_pt_filterlim. apply (ex_derive_continuous g). eexists. apply (is_derive_plus (K := R_AbsRing) (V := R_NormedModule)); [apply Dg|]. apply is_derive_scal, D.
    - rewrite Rmin_left, Rmax_right in Hc by lra. specialize (B c ltac:(lra)). apply Rabs_le_between in B.
      unfold g in E. rewrite F0 in E. rewrite pow_i in E by lia. change (g t) with (b * t ^ (S k) / INR (fact (S k)) + e * f t) in E.
      assert (0 <= b * c ^ k / INR (fact k) + e * f' c) by (destruct He as [-> | ->]; lra).
      assert (Q : 0 <= (b * c ^ k / INR (fact k) + e * f' c) * (t - 0)) by (apply Rmult_le_pos; lra).
      replace (b * t ^ (S k) / INR (fact (S k)) + e * f t) with ((b * t ^ S k / INR (fact (S k)) + e * f t - (b * 0 / INR (fact (S k)) + e * 0))) by (unfold Rdiv; ring).
      rewrite E. exact Q. }
  pose proof (M 1 (or_introl eq_refl)). pose proof (M (-1) (or_intror eq_refl)). apply Rabs_le. lra.
Qed.
Lemma compare (f f' : R -> R) T b k : 0 <= b -> (forall x, is_derive f x (f' x)) -> f 0 = 0 -> (forall x, Rabs x <= T -> Rabs (f' x) <= b * Rabs x ^ k / INR (fact k)) ->
  forall t, Rabs t <= T -> Rabs (f t) <= b * Rabs t ^ (S k) / INR (fact (S k)).
Proof.
  intros Hb D F0 B t Ht. destruct (Rle_lt_dec 0 t) as [L|L].
  - rewrite (Rabs_pos_eq t L). apply (compare_pos f f' T b k Hb D F0); [|rewrite Rabs_pos_eq in Ht by lra; lra].
    intros x Hx. specialize (B x). rewrite (Rabs_pos_eq x) in B by lra. apply B; lra.
  - rewrite (Rabs_left t L). pose proof (compare_pos (fun x => f (- x)) (fun x => - f' (- x)) T b k Hb) as Q.
    assert (Dn : forall x, is_derive (fun x => f (- x)) x (- f' (- x))).
    { intros x. pose proof (is_derive_comp (K := R_AbsRing) (V := R_NormedModule) f Ropp x (f' (- x)) (-1) (D (- x))) as W. cbv beta in W.
      replace (- f' (- x)) with (scal (-1) (f' (- x)) : R) by (cbn; unfold mult; cbn; ring). apply W. auto_derive; [exact I | ring]. }
    specialize (Q Dn). cbv beta in Q. rewrite Ropp_0 in Q. specialize (Q F0). rewrite Rabs_left in Ht by lra.
    replace (Rabs (f t)) with (Rabs (f (- - t))) by (rewrite Ropp_involutive; reflexivity). apply Q; [|lra].
    intros x Hx. specialize (B (- x)). rewrite Rabs_Ropp, (Rabs_pos_eq x) in B by lra. rewrite Rabs_Ropp. apply B; lra.
Qed.

(** ** Series bounded by that of the exponential function *)
Definition weight (x : R) (k : nat) : R := x ^ k / INR (fact k).
Lemma pow_n_pow x k : pow_n (K := R_Ring) x k = x ^ k.
Proof. induction k as [|k IH]; [reflexivity|]. cbn. rewrite IH. reflexivity. Qed.
Lemma weight_series x : ex_series (weight x).
Proof.
  exists (exp x). apply (is_series_ext (fun k => scal (pow_n (K := R_AbsRing) x k) (/ INR (fact k)))); [|exact (is_exp_Reals x)].
  intros k. unfold weight, Rdiv. rewrite <- (pow_n_pow x k). reflexivity.
Qed.
Definition tail (x : R) (n : nat) : R := Series (fun k => weight x (n + k)).
Lemma weight_tail x n : ex_series (fun k => weight x (n + k)).
Proof. apply (ex_series_incr_n (weight x) n), weight_series. Qed.
Lemma series_split (a : nat -> R) n : ex_series a -> Series a = rsum n a + Series (fun k => a (n + k)%nat).
Proof.
  intros H. induction n as [|n IH]; [cbn [rsum]; rewrite Rplus_0_l; apply Series_ext; reflexivity|]. rewrite IH. cbn [rsum].
  rewrite (Series_incr_1 (fun k => a (n + k)%nat)) by (apply (ex_series_incr_n a n), H). rewrite Nat.add_0_r.
  rewrite (Series_ext (fun k => a (n + S k)%nat) (fun k => a (S n + k)%nat)) by (intros k; f_equal; lia). ring.
Qed.
Lemma sum_n_rsum (a : nat -> R) n : sum_n a n = rsum (S n) a.
Proof. induction n as [|n IH]; [rewrite sum_O; cbn; ring|]. rewrite sum_Sn, IH. reflexivity. Qed.
Lemma tail_small x : forall eps, 0 < eps -> exists N, forall n, (N <= n)%nat -> Rabs (tail x n) < eps.
Proof.
  intros eps He. pose proof (Series_correct _ (weight_series x)) as L. assert (U : Un_cv (sum_n (weight x)) (Series (weight x))) by (apply is_lim_seq_Reals; exact L).
  destruct (U eps He) as (N & HN). exists (S N). intros [|n] Hn; [lia|]. specialize (HN n ltac:(lia)). unfold R_dist in HN. rewrite sum_n_rsum in HN.
  rewrite (series_split (weight x) (S n) (weight_series x)) in HN. unfold tail. rewrite <- Rabs_Ropp. match goal with |- Rabs ?a < _ => match type of HN with Rabs ?b < _ => replace a with b by ring end end. exact HN.
Qed.
Lemma series_tail (a : nat -> R) V x n : 0 <= V -> (forall k, Rabs (a k) <= V * weight x k) -> ex_series a /\ Rabs (Series a - rsum n a) <= V * tail x n.
Proof.
  intros HV H.
  assert (E : forall m, ex_series (fun k => Rabs (a (m + k)%nat))).
  { intros m. apply (ex_series_le (V := R_CompleteNormedModule) _ (fun k => V * weight x (m + k))).
    - intros k. cbn. rewrite Rabs_Rabsolu. apply H.
    - apply (ex_series_scal (K := R_AbsRing) V (fun k => weight x (m + k))), weight_tail. }
  assert (E0 : ex_series a) by (apply ex_series_Rabs; exact (E 0%nat)). split; [exact E0|].
  rewrite (series_split a n E0). replace (rsum n a + Series (fun k => a (n + k)%nat) - rsum n a) with (Series (fun k => a (n + k)%nat)) by ring.
  eapply Rle_trans; [apply (Series_Rabs (fun k => a (n + k)%nat)), E|]. unfold tail. rewrite <- Series_scal_l. apply Series_le.
  - intros k. split; [apply Rabs_pos | apply H].
  - apply (ex_series_scal (K := R_AbsRing) V (fun k => weight x (n + k))), weight_tail.
Qed.

(** ** The equation y' = A y *)
Section Ode.
  Variables (m : nat) (A : R -> nat -> nat -> C) (v : nat -> C).
  Hypothesis HA : forall i j, (i < m)%nat -> (j < m)%nat -> ccont (fun t => A t i j).
  (** Dyson's series, term by term *)
  Fixpoint term (k i : nat) : R -> C :=
    match k with O => fun _ => v i | S k' => cint (fun s => S_ m (fun j => (A s i j * term k' j s)%C)) end.
  Lemma term_cont k : forall i, (i < m)%nat -> ccont (term k i).
  Proof.
    induction k as [|k IH]; intros i Hi; cbn [term]; [apply ccont_const|]. eapply ccont_der. intros t. apply cint_der.
    apply ccont_sum. intros j Hj. apply ccont_mul; [apply HA; assumption | apply IH, Hj].
  Qed.
  Lemma term_der k i t : (i < m)%nat -> derivative (term (S k) i) t (S_ m (fun j => (A t i j * term k j t)%C)).
  Proof.
    intros Hi. cbn [term]. apply (cint_der (fun s => S_ m (fun j => (A s i j * term k j s)%C)) t). apply ccont_sum. intros j Hj. apply ccont_mul; [apply HA; assumption | apply term_cont, Hj].
  Qed.
  Lemma term_start k i : term (S k) i 0 = RtoC 0.
  Proof. cbn [term]. unfold cint. rewrite !RInt_point. reflexivity. Qed.
  Lemma bounds T : 0 <= T -> exists B V, 0 <= B /\ 0 <= V /\ (forall i j t, (i < m)%nat -> (j < m)%nat -> Rabs t <= T -> box (A t i j) B) /\ (forall i, (i < m)%nat -> box (v i) V).
  Proof.
    intros HT.
    destruct (common_bound m (fun i B => forall j t, (j < m)%nat -> Rabs t <= T -> box (A t i j) B)) as (B & HB & BB).
    { intros i a b _ H L j t Hj Ht. apply (box_le _ a); [apply H; assumption | exact L]. }
    { intros i Hi. destruct (common_bound m (fun j B => forall t, Rabs t <= T -> box (A t i j) B)) as (B & HB & BB).
      - intros j a b _ H L t Ht. apply (box_le _ a); [apply H; assumption | exact L].
      - intros j Hj. apply box_bound; [exact HT | apply HA; assumption].
      - exists B. split; [exact HB|]. intros j t Hj Ht. apply BB; assumption. }
    destruct (common_bound m (fun i V => box (v i) V)) as (V & HV & BV).
    { intros i a b _ H L. apply (box_le _ a); assumption. }
    { intros i Hi. exists (Rabs (Re (v i)) + Rabs (Im (v i))). pose proof (Rabs_pos (Re (v i))). pose proof (Rabs_pos (Im (v i))). split; [lra|]. split; lra. }
    exists B, V. split; [exact HB|]. split; [exact HV|]. split; [intros i j t Hi Hj Ht; apply (BB i Hi j t Hj Ht) | exact BV].
  Qed.
  Lemma term_bound T B V : 0 <= B -> 0 <= V -> (forall i j t, (i < m)%nat -> (j < m)%nat -> Rabs t <= T -> box (A t i j) B) -> (forall i, (i < m)%nat -> box (v i) V) ->
    forall k i t, (i < m)%nat -> Rabs t <= T -> box (term k i t) (V * (INR m * (2 * B)) ^ k * Rabs t ^ k / INR (fact k)).
  Proof.
    intros HB HV BA Bv. set (c := INR m * (2 * B)). assert (Hc : 0 <= c) by (apply Rmult_le_pos; [apply pos_INR | lra]).
    induction k as [|k IH]; intros i t Hi Ht; [cbn [term pow fact]; apply (box_le _ V); [apply Bv, Hi | cbn; lra]|].
    assert (P0 : 0 <= V * c ^ k * c) by (apply Rmult_le_pos; [apply Rmult_le_pos; [exact HV | apply pow_le, Hc] | exact Hc]).
    assert (D : forall x, Rabs x <= T -> box (S_ m (fun j => (A x i j * term k j x)%C)) (V * c ^ k * c * Rabs x ^ k / INR (fact k))).
    { intros x Hx. eapply box_le; [apply box_sum; intros j Hj; apply box_mul; [apply (BA i j x Hi Hj Hx) | apply (IH j x Hj Hx)]|]. apply Req_le. unfold c, Rdiv. ring. }
    assert (Z : term (S k) i 0 = RtoC 0) by apply term_start.
    replace (V * c ^ S k * Rabs t ^ S k / INR (fact (S k))) with (V * c ^ k * c * Rabs t ^ S k / INR (fact (S k))) by (cbn [pow]; unfold Rdiv; ring).
    split.
    - apply (compare (fun x => Re (term (S k) i x)) (fun x => Re (S_ m (fun j => (A x i j * term k j x)%C))) T _ k P0); [intros x; apply (term_der k i x Hi) | rewrite Z; reflexivity | intros x Hx; apply (D x Hx) | exact Ht].
    - apply (compare (fun x => Im (term (S k) i x)) (fun x => Im (S_ m (fun j => (A x i j * term k j x)%C))) T _ k P0); [intros x; apply (term_der k i x Hi) | rewrite Z; reflexivity | intros x Hx; apply (D x Hx) | exact Ht].
  Qed.
  Definition partial (n i : nat) (t : R) : C := S_ n (fun k => term k i t).
  Definition sol (i : nat) (t : R) : C := (Series (fun k => Re (term k i t)), Series (fun k => Im (term k i t))).
  Lemma re_sum n (f : nat -> C) : Re (S_ n f) = rsum n (fun k => Re (f k)).
  Proof. induction n as [|n IH]; [reflexivity|]. cbn [sumn rsum]. rewrite <- IH. reflexivity. Qed.
  Lemma im_sum n (f : nat -> C) : Im (S_ n f) = rsum n (fun k => Im (f k)).
  Proof. induction n as [|n IH]; [reflexivity|]. cbn [sumn rsum]. rewrite <- IH. reflexivity. Qed.
  (** On |t| <= T the partial sums converge to the sum, uniformly. *)
  Lemma sol_near T : 0 <= T -> exists B V x, 0 <= B /\ 0 <= V /\ (forall i j t, (i < m)%nat -> (j < m)%nat -> Rabs t <= T -> box (A t i j) B) /\
    forall i t n, (i < m)%nat -> Rabs t <= T -> box (sol i t - partial n i t)%C (V * tail x n).
  Proof.
    intros HT. destruct (bounds T HT) as (B & V & HB & HV & BA & Bv). set (c := INR m * (2 * B)). assert (Hc : 0 <= c) by (apply Rmult_le_pos; [apply pos_INR | lra]).
    exists B, V, (c * T). do 3 (split; [assumption|]). intros i t n Hi Ht.
    assert (Bd : forall k, V * c ^ k * Rabs t ^ k / INR (fact k) <= V * weight (c * T) k).
    { intros k. unfold weight. replace (V * c ^ k * Rabs t ^ k / INR (fact k)) with (V * ((c * Rabs t) ^ k / INR (fact k))) by (rewrite Rpow_mult_distr; unfold Rdiv; ring).
      apply Rmult_le_compat_l; [exact HV|]. apply Rmult_le_compat_r; [apply Rlt_le, Rinv_0_lt_compat, INR_fact_lt_0|].
      apply pow_incr. split; [apply Rmult_le_pos; [exact Hc | apply Rabs_pos] | apply Rmult_le_compat_l; assumption]. }
    pose proof (fun k => term_bound T B V HB HV BA Bv k i t Hi Ht) as TB. fold c in TB.
    split.
    - replace (Re (sol i t - partial n i t)%C) with (Series (fun k => Re (term k i t)) - rsum n (fun k => Re (term k i t))) by (rewrite <- re_sum; reflexivity).
      apply series_tail; [exact HV|]. intros k. eapply Rle_trans; [apply (TB k) | apply Bd].
    - replace (Im (sol i t - partial n i t)%C) with (Series (fun k => Im (term k i t)) - rsum n (fun k => Im (term k i t))) by (rewrite <- im_sum; reflexivity).
      apply series_tail; [exact HV|]. intros k. eapply Rle_trans; [apply (TB k) | apply Bd].
  Qed.
  Lemma sol_start i : sol i 0 = v i.
  Proof.
    assert (G : forall a : nat -> R, (forall k, a (S k) = 0) -> Series a = a 0%nat).
    { intros a H. assert (HS : is_series (fun k => a (S k)) 0).
      { apply (is_series_ext (fun _ => 0)); [intros k; symmetry; apply H|]. apply (filterlim_ext (fun _ => 0)); [|apply filterlim_const]. intros n. rewrite sum_n_const. symmetry. apply Rmult_0_r. }
      assert (E : ex_series a) by (apply (ex_series_incr_1 a); exists 0; exact HS).
      rewrite (Series_incr_1 a E), (is_series_unique _ _ HS). apply Rplus_0_r. }
    unfold sol. rewrite (surjective_pairing (v i)). f_equal; apply G; intros k; rewrite term_start; reflexivity.
  Qed.
  Lemma partial_der n i t : (i < m)%nat -> derivative (partial (S n) i) t (S_ m (fun j => (A t i j * partial n j t)%C)).
  Proof.
    intros Hi. induction n as [|n IH].
    - apply (d_ext (fun _ => v i)); [intros x; unfold partial; cbn [sumn term]; symmetry; apply Cplus_0_l|].
      rewrite csum_zero; [apply d_const|]. intros j Hj. unfold partial. cbn [sumn]. apply Cmult_0_r.
    - apply (d_ext (fun x => (partial (S n) i x + term (S n) i x)%C)); [reflexivity|].
      replace (S_ m (fun j => (A t i j * partial (S n) j t)%C)) with (S_ m (fun j => (A t i j * partial n j t)%C) + S_ m (fun j => (A t i j * term n j t)%C))%C.
      + apply d_add; [exact IH | apply term_der, Hi].
      + rewrite <- csum_add. apply csum_ext. intros j Hj. rewrite <- Cmult_plus_distr_l. reflexivity.
  Qed.
  Lemma partial_cont n i : (i < m)%nat -> ccont (partial n i).
  Proof. intros Hi. unfold partial. apply (ccont_sum n (fun k => term k i)). intros k _. apply term_cont, Hi. Qed.
  Lemma neg_sum n (f : nat -> C) : (- S_ n f)%C = S_ n (fun k => (- f k)%C).
  Proof. induction n as [|n IH]; [cbn; unfold Copp, RtoC; cbn; f_equal; ring|]. cbn [sumn]. rewrite <- IH. change (@sadd CC) with Cplus. apply Copp_plus_distr. Qed.
  Lemma sol_der i t : (i < m)%nat -> derivative (sol i) t (S_ m (fun j => (A t i j * sol j t)%C)).
  Proof.
    intros Hi. set (T := Rabs t + 1). assert (HT : 0 < T) by (unfold T; pose proof (Rabs_pos t); lra).
    destruct (sol_near T (Rlt_le _ _ HT)) as (B & V & x & HB & HV & BA & Near).
    assert (Inb : forall y, Boule 0 (mkposreal T HT) y -> Rabs y <= T) by (intros y H; unfold Boule in H; cbn in H; rewrite Rminus_0_r in H; lra).
    assert (Bt : Boule 0 (mkposreal T HT) t) by (unfold Boule; cbn; rewrite Rminus_0_r; unfold T; lra).
    set (c := INR m * (2 * B * V)).
    assert (Hc : 0 <= c) by (apply Rmult_le_pos; [apply pos_INR | apply Rmult_le_pos; lra]).
    assert (Err : forall n y, Rabs y <= T -> box (S_ m (fun j => (A y i j * sol j y)%C) - S_ m (fun j => (A y i j * partial n j y)%C))%C (c * tail x n)).
    { intros n y Hy. replace (S_ m (fun j => (A y i j * sol j y)%C) - S_ m (fun j => (A y i j * partial n j y)%C))%C with (S_ m (fun j => (A y i j * (sol j y - partial n j y))%C)).
      - eapply box_le; [apply box_sum; intros j Hj; apply box_mul; [apply (BA i j y Hi Hj Hy) | apply (Near j y n Hj Hy)]|]. apply Req_le. unfold c. ring.
      - unfold Cminus at 2. rewrite neg_sum, <- csum_add. apply csum_ext. intros j Hj. ring. }
    assert (Small : forall eps, 0 < eps -> exists N, forall n, (N <= n)%nat -> c * tail x n < eps /\ V * tail x n < eps).
    { intros eps He. destruct (tail_small x (eps / (c + V + 1)) ltac:(apply Rdiv_lt_0_compat; lra)) as (N & HN). exists N. intros n Hn. specialize (HN n Hn).
      assert (Q : tail x n < eps / (c + V + 1)) by (eapply Rle_lt_trans; [apply Rle_abs | exact HN]).
      assert (Q2 : (c + V + 1) * tail x n < eps) by (apply (Rmult_lt_compat_l (c + V + 1)) in Q; [|lra]; replace ((c + V + 1) * (eps / (c + V + 1))) with eps in Q by (field; lra); exact Q).
      destruct (Rle_lt_dec 0 (tail x n)) as [P|P].
      - assert (0 <= c * tail x n) by (apply Rmult_le_pos; assumption). assert (0 <= V * tail x n) by (apply Rmult_le_pos; assumption). split; lra.
      - assert (c * tail x n <= 0) by (rewrite <- (Rmult_0_r c); apply Rmult_le_compat_l; lra). assert (V * tail x n <= 0) by (rewrite <- (Rmult_0_r V); apply Rmult_le_compat_l; lra). split; lra. }
    assert (Gen : forall pr : C -> R, (pr = Re \/ pr = Im) -> is_derive (fun y => pr (sol i y)) t (pr (S_ m (fun j => (A t i j * sol j t)%C)))).
    { intros pr Hpr.
      assert (Prb : forall z b, box z b -> Rabs (pr z) <= b) by (intros z b [Z1 Z2]; destruct Hpr as [-> | ->]; assumption).
      assert (Prm : forall y z : C, pr (y - z)%C = pr y - pr z) by (intros y z; destruct Hpr as [-> | ->]; reflexivity).
      assert (CV : CVU (fun n y => pr (S_ m (fun j => (A y i j * partial n j y)%C))) (fun y => pr (S_ m (fun j => (A y i j * sol j y)%C))) 0 (mkposreal T HT)).
      { intros eps He. destruct (Small eps He) as (N & HN). exists N. intros n y Hn Hy. rewrite <- Prm. eapply Rle_lt_trans; [apply (Prb _ _ (Err n y (Inb y Hy))) | apply (HN n Hn)]. }
      apply is_derive_Reals.
      apply (derivable_pt_lim_CVU (fun n y => pr (partial (S n) i y)) (fun n y => pr (S_ m (fun j => (A y i j * partial n j y)%C))) (fun y => pr (sol i y)) (fun y => pr (S_ m (fun j => (A y i j * sol j y)%C))) t 0 (mkposreal T HT)); [exact Bt| | |exact CV|].
      - intros y n _. apply is_derive_Reals. destruct Hpr as [-> | ->]; apply (partial_der n i y Hi).
      - intros y Hy eps He. destruct (Small eps He) as (N & HN). exists N. intros n Hn. unfold R_dist. rewrite Rabs_minus_sym, <- Prm. eapply Rle_lt_trans; [apply (Prb _ _ (Near i y (S n) Hi (Inb y Hy))) | apply (HN (S n) ltac:(lia))].
      - intros y Hy. refine (CVU_continuity _ _ _ _ CV _ y Hy). intros n z _. apply continuity_pt_filterlim.
        assert (Cc : ccont (fun y => S_ m (fun j => (A y i j * partial n j y)%C))) by (apply ccont_sum; intros j Hj; apply ccont_mul; [apply HA; assumption | apply partial_cont, Hj]).
        destruct Hpr as [-> | ->]; apply (Cc z). }
    split; [apply (Gen Re); left; reflexivity | apply (Gen Im); right; reflexivity].
  Qed.
End Ode.
Lemma ode_exists m (A : R -> nat -> nat -> C) (v : nat -> C) : (forall i j, (i < m)%nat -> (j < m)%nat -> ccont (fun t => A t i j)) ->
  exists y : nat -> R -> C, (forall i, y i 0 = v i) /\ forall i t, (i < m)%nat -> derivative (y i) t (S_ m (fun j => (A t i j * y j t)%C)).
Proof. intros H. exists (sol m A v). split; [apply sol_start | intros i t; apply sol_der, H]. Qed.
