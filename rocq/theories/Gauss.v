(** Moments of the Gaussian on the half line. *)
From Coq Require Import Reals Lra Lia Arith.
From Coquelicot Require Import Coquelicot.
From Verif Require Import AngularProofs.
Open Scope R_scope.

(** ** The Gaussian integral *)
Definition gF (x : R) : R := RInt (fun t => exp (- t ^ 2)) 0 x.
Definition gf (x t : R) : R := exp (- (x ^ 2 * (1 + t ^ 2))) / (1 + t ^ 2).
Definition gG (x : R) : R := RInt (gf x) 0 1.

Lemma gauss_cont (x : R) : continuous (fun t => exp (- t ^ 2)) x.
Proof. apply (ex_derive_continuous (fun t => exp (- t ^ 2))). auto_derive; trivial. Qed.
Lemma gauss_int a b : ex_RInt (fun t => exp (- t ^ 2)) a b.
Proof. apply (ex_RInt_continuous (V := R_CompleteNormedModule)). intros; apply gauss_cont. Qed.
Lemma gF_derive (x : R) : is_derive gF x (exp (- x ^ 2)).
Proof.
  apply (is_derive_RInt (V := R_CompleteNormedModule) (fun t => exp (- t ^ 2)) gF 0 x).
  - exists (mkposreal 1 Rlt_0_1). intros y _. apply (RInt_correct (V := R_CompleteNormedModule)), gauss_int.
  - apply gauss_cont.
Qed.
Lemma one_sq t : 1 + t ^ 2 <> 0.
Proof. pose proof (pow2_ge_0 t). lra. Qed.
Lemma gf_derive (t x : R) : is_derive (fun u => gf u t) x (-2 * x * exp (- (x ^ 2 * (1 + t ^ 2)))).
Proof. unfold gf. pose proof (one_sq t). auto_derive; [trivial|]. change (x * (x * 1)) with (x ^ 2). change (t * (t * 1)) with (t ^ 2). field. exact H. Qed.
Lemma gf_int x a b : ex_RInt (gf x) a b.
Proof.
  apply (ex_RInt_continuous (V := R_CompleteNormedModule)). intros t _. apply (ex_derive_continuous (gf x)). unfold gf. auto_derive. exact (one_sq t).
Qed.
Lemma gf_2d x t : continuity_2d_pt (fun u v => Derive (fun z => gf z v) u) x t.
Proof.
  apply (continuity_2d_pt_ext (fun u v => -2 * u * exp (- (u ^ 2 * (1 + v ^ 2))))).
  - intros u v. symmetry. apply is_derive_unique, gf_derive.
  - apply continuity_2d_pt_mult.
    + apply continuity_2d_pt_mult; [apply continuity_2d_pt_const | apply continuity_2d_pt_id1].
    + apply (continuity_1d_2d_pt_comp exp); [apply derivable_continuous_pt, derivable_pt_exp|].
      apply continuity_2d_pt_opp, continuity_2d_pt_mult.
      * apply (continuity_2d_pt_ext (fun u v => u * u)); [intros; ring|]. apply continuity_2d_pt_mult; apply continuity_2d_pt_id1.
      * apply continuity_2d_pt_plus; [apply continuity_2d_pt_const|].
        apply (continuity_2d_pt_ext (fun u v => v * v)); [intros; ring|]. apply continuity_2d_pt_mult; apply continuity_2d_pt_id2.
Qed.
Lemma gG_derive (x : R) : is_derive gG x (-2 * exp (- x ^ 2) * gF x).
Proof.
  assert (H : is_derive gG x (RInt (fun t => Derive (fun u => gf u t) x) 0 1)).
  { apply (is_derive_RInt_param gf 0 1 x).
    - exists (mkposreal 1 Rlt_0_1). intros y _ t _. eexists. apply gf_derive.
    - intros t _. apply gf_2d.
    - exists (mkposreal 1 Rlt_0_1). intros y _. apply gf_int. }
  replace (-2 * exp (- x ^ 2) * gF x) with (RInt (fun t => Derive (fun u => gf u t) x) 0 1); [exact H|].
  rewrite (RInt_ext _ (fun t => scal (-2 * exp (- x ^ 2)) (scal x (exp (- (x * t + 0) ^ 2))))).
  - rewrite (RInt_scal (V := R_CompleteNormedModule)).
    + rewrite (RInt_comp_lin (V := R_CompleteNormedModule) (fun t => exp (- t ^ 2))).
      * replace (x * 0 + 0) with 0 by ring. replace (x * 1 + 0) with x by ring. reflexivity.
      * apply gauss_int.
    + apply (ex_RInt_comp_lin (V := R_CompleteNormedModule) (fun t => exp (- t ^ 2))), gauss_int.
  - intros t _. transitivity (-2 * x * exp (- (x ^ 2 * (1 + t ^ 2)))); [apply is_derive_unique, gf_derive|].
    replace (- (x ^ 2 * (1 + t ^ 2))) with (- x ^ 2 + - (x * t + 0) ^ 2) by ring. rewrite exp_plus. change (-2 * x * (exp (- x ^ 2) * exp (- (x * t + 0) ^ 2)) = (-2 * exp (- x ^ 2)) * (x * exp (- (x * t + 0) ^ 2))). ring.
Qed.
Lemma gG_0 : gG 0 = PI / 4.
Proof.
  unfold gG. replace (PI / 4) with (atan 1 - atan 0) by (rewrite atan_1, atan_0; ring).
  apply (is_RInt_unique (V := R_CompleteNormedModule)).
  apply (is_RInt_ext (fun t => / (1 + t ^ 2))).
  - intros t _. change (/ (1 + t ^ 2) = exp (- (0 ^ 2 * (1 + t ^ 2))) / (1 + t ^ 2)). replace (- (0 ^ 2 * (1 + t ^ 2))) with 0 by ring. rewrite exp_0. field. apply one_sq.
  - apply (is_RInt_derive atan).
    + intros t _. apply is_derive_Reals. exact (derivable_pt_lim_atan t).
    + intros t _. apply (ex_derive_continuous (fun t => / (1 + t ^ 2))). auto_derive. exact (one_sq t).
Qed.
Lemma gF_0 : gF 0 = 0.
Proof. unfold gF. apply (RInt_point (V := R_CompleteNormedModule)). Qed.

Lemma gauss_identity x : gF x ^ 2 + gG x = PI / 4.
Proof.
  set (h := fun y => gF y ^ 2 + gG y).
  assert (D : forall y, is_derive h y 0).
  { intros y. unfold h. pose proof (is_derive_plus (fun y => gF y ^ 2) gG y _ _ (is_derive_pow gF 2 y _ (gF_derive y)) (gG_derive y)) as E.
    replace 0 with (plus (INR 2 * exp (- y ^ 2) * gF y ^ Nat.pred 2) (-2 * exp (- y ^ 2) * gF y)); [exact E|]. unfold plus; cbn; ring. }
  replace (PI / 4) with (h 0) by (unfold h; rewrite gF_0, gG_0; ring). change (gF x ^ 2 + gG x) with (h x).
  destruct (MVT_gen h 0 x (fun _ => 0)) as (c & _ & E).
  - intros y _. apply D.
  - intros y _. apply derivable_continuous_pt. exists 0. apply is_derive_Reals, D.
  - lra.
Qed.
Lemma const_val (c a b : R) : RInt (fun _ => c) a b = (b - a) * c.
Proof. apply (RInt_const (V := R_CompleteNormedModule)). Qed.
Lemma gG_pos x : 0 <= gG x.
Proof.
  unfold gG. apply Rle_trans with (RInt (fun _ => 0) 0 1); [rewrite const_val; lra|].
  apply RInt_le; [lra | apply ex_RInt_const | apply gf_int|]. intros t _. unfold gf. apply Rlt_le, Rdiv_lt_0_compat; [apply exp_pos|]. pose proof (pow2_ge_0 t). lra.
Qed.
Lemma gG_small x : gG x <= exp (- x ^ 2).
Proof.
  unfold gG. apply Rle_trans with (RInt (fun _ => exp (- x ^ 2)) 0 1); [|rewrite const_val; lra].
  apply RInt_le; [lra | apply gf_int | apply ex_RInt_const|]. intros t _. unfold gf. pose proof (pow2_ge_0 t). pose proof (pow2_ge_0 x). pose proof (exp_pos (- (x ^ 2 * (1 + t ^ 2)))).
  apply Rle_trans with (exp (- (x ^ 2 * (1 + t ^ 2)))).
  - apply Rle_div_l; [lra|]. rewrite <- (Rmult_1_r (exp _)) at 1. apply Rmult_le_compat_l; lra.
  - destruct (Req_dec (- (x ^ 2 * (1 + t ^ 2))) (- x ^ 2)) as [E|E]; [rewrite E; lra|]. left. apply exp_increasing. nra.
Qed.
Lemma gF_pos x : 0 <= x -> 0 <= gF x.
Proof.
  intros H. unfold gF. apply Rle_trans with (RInt (fun _ => 0) 0 x); [rewrite const_val; lra|].
  apply RInt_le; [lra | apply ex_RInt_const | apply gauss_int|]. intros t _. left. apply exp_pos.
Qed.

(** ** Decay *)
Lemma exp_pow x n : exp x ^ n = exp (INR n * x).
Proof. induction n as [|n IH]; [cbn; rewrite Rmult_0_l, exp_0; reflexivity|]. rewrite S_INR. replace ((INR n + 1) * x) with (x + INR n * x) by ring. rewrite exp_plus, <- IH. reflexivity. Qed.
Lemma exp_power_below y n : 0 <= y -> (y / INR (S n)) ^ S n <= exp y.
Proof.
  intros H. assert (P : 0 < INR (S n)) by (apply lt_0_INR; lia).
  replace (exp y) with (exp (y / INR (S n)) ^ S n).
  - apply pow_incr. split; [apply Rdiv_le_0_compat; lra|]. set (z := y / INR (S n)). pose proof (exp_ineq1_le z). lra.
  - rewrite exp_pow. f_equal. field. lra.
Qed.
Lemma decay a k : 0 < a -> exists B, 0 <= B /\ forall x, 1 <= x -> 0 <= x ^ k * exp (- (a ^ 2 * x ^ 2)) <= B / x.
Proof.
  intros Ha. set (c := INR (S k) / a ^ 2). assert (Hc : 0 < c) by (apply Rdiv_lt_0_compat; [apply lt_0_INR; lia | apply pow_lt; exact Ha]).
  exists (c ^ S k). split; [apply pow_le; lra|]. intros x Hx. assert (Hp : 0 < x ^ k) by (apply pow_lt; lra). split; [apply Rmult_le_pos; [lra | left; apply exp_pos]|].
  assert (Y : 0 < a ^ 2 * x ^ 2) by (apply Rmult_lt_0_compat; apply pow_lt; lra).
  pose proof (exp_power_below (a ^ 2 * x ^ 2) k ltac:(lra)) as E. rewrite exp_Ropp.
  assert (E2 : (x ^ 2 / c) ^ S k <= exp (a ^ 2 * x ^ 2)). { eapply Rle_trans; [|exact E]. right. f_equal. unfold c. field. split; [apply not_0_INR; lia | lra]. }
  assert (Q : 0 < (x ^ 2 / c) ^ S k) by (apply pow_lt, Rdiv_lt_0_compat; [apply pow_lt; lra | exact Hc]).
  apply Rle_trans with (x ^ k * / (x ^ 2 / c) ^ S k); [apply Rmult_le_compat_l; [lra|]; apply Rinv_le_contravar; assumption|].
  replace (x ^ k * / (x ^ 2 / c) ^ S k) with (c ^ S k / x ^ (S (S k))).
  - unfold Rdiv. apply Rmult_le_compat_l; [apply pow_le; lra|]. apply Rinv_le_contravar; [lra|]. rewrite <- (Rmult_1_r x) at 1. cbn [pow]. apply Rmult_le_compat_l; [lra|].
    rewrite <- (Rmult_1_l 1). apply Rmult_le_compat; try lra. apply pow_R1_Rle. exact Hx.
  - unfold Rdiv. rewrite Rpow_mult_distr, pow_inv. replace ((x ^ 2) ^ S k) with (x ^ k * x ^ S (S k)). 
    + field. repeat split; try (apply pow_nonzero; lra).
    + rewrite <- pow_mult, <- pow_add. f_equal. lia.
Qed.
Lemma decay_lim a k : 0 < a -> is_lim (fun x => x ^ k * exp (- (a ^ 2 * x ^ 2))) p_infty 0.
Proof.
  intros Ha. destruct (decay a k Ha) as (B & HB & D). apply is_lim_spec. intros eps. exists (Rmax 1 (B / eps)). intros x Hx.
  pose proof (Rmax_l 1 (B / eps)). pose proof (Rmax_r 1 (B / eps)). specialize (D x ltac:(lra)). rewrite Rminus_0_r, Rabs_right by lra.
  eapply Rle_lt_trans; [apply D|]. apply Rlt_div_l; [lra|]. assert (B / eps < x) by lra. apply Rlt_div_l in H1; [lra | apply cond_pos].
Qed.
Lemma gF_lim : is_lim gF p_infty (sqrt PI / 2).
Proof.
  pose proof PI_RGT_0 as P. assert (S : 0 < sqrt PI) by (apply sqrt_lt_R0; lra). pose proof (decay_lim 1 0 Rlt_0_1) as D. apply is_lim_spec in D. apply is_lim_spec. intros eps.
  assert (He : 0 < eps * (sqrt PI / 2)) by (apply Rmult_lt_0_compat; [apply cond_pos | lra]).
  destruct (D (mkposreal _ He)) as (M & HM). exists (Rmax 0 M). intros x Hx. pose proof (Rmax_l 0 M). pose proof (Rmax_r 0 M). specialize (HM x ltac:(lra)). cbn [pos] in HM.
  replace (x ^ 0 * exp (- (1 ^ 2 * x ^ 2)) - 0) with (exp (- x ^ 2)) in HM by (replace (1 ^ 2 * x ^ 2) with (x ^ 2) by ring; cbn [pow]; ring).
  rewrite Rabs_right in HM by (left; apply exp_pos).
  pose proof (gauss_identity x) as I. pose proof (gG_small x). pose proof (gG_pos x). pose proof (gF_pos x ltac:(lra)) as F.
  assert (C : (sqrt PI / 2) ^ 2 = PI / 4) by (replace ((sqrt PI / 2) ^ 2) with (sqrt PI * sqrt PI / 4) by field; rewrite sqrt_sqrt; lra).
  assert (X : Rabs (gF x - sqrt PI / 2) * (gF x + sqrt PI / 2) = gG x).
  { rewrite <- (Rabs_right (gF x + sqrt PI / 2)) by lra. rewrite <- Rabs_mult. replace ((gF x - sqrt PI / 2) * (gF x + sqrt PI / 2)) with (- gG x) by nra. rewrite Rabs_Ropp, Rabs_right; lra. }
  pose proof (Rabs_pos (gF x - sqrt PI / 2)). apply Rmult_lt_reg_r with (sqrt PI / 2); [lra|]. nra.
Qed.

(** ** Half-line integrals *)
Definition half_line (f : R -> R) (v : R) : Prop := is_RInt_gen f (at_point 0) (Rbar_locally p_infty) v.
Lemma half_line_of f F l : (forall x, 0 <= x -> is_RInt f 0 x (F x)) -> is_lim F p_infty (Finite l) -> half_line f l.
Proof.
  intros HF HL P HP. destruct (HL P HP) as (M & HM).
  apply (Filter_prod _ _ _ (fun a => a = 0) (fun b => Rmax 0 M < b)).
  - reflexivity.
  - exists (Rmax 0 M). intros x Hx. exact Hx.
  - intros a b -> Hb. cbn [fst snd]. pose proof (Rmax_l 0 M). pose proof (Rmax_r 0 M). exists (F b). split; [apply HF; lra | apply HM; lra].
Qed.
Lemma half_line_ext f g v : (forall x, 0 < x -> f x = g x) -> half_line f v -> half_line g v.
Proof.
  intros E H. unfold half_line. apply (is_RInt_gen_ext f); [|exact H].
  apply (Filter_prod _ _ _ (fun a => a = 0) (fun b => 0 < b)); [reflexivity | exists 0; auto|].
  intros a b -> Hb x Hx. cbn [fst snd] in Hx. rewrite Rmin_left in Hx by lra. apply E. lra.
Qed.
Lemma half_line_val f u v : half_line f u -> u = v -> half_line f v.
Proof. intros H <-. exact H. Qed.
Lemma half_line_plus f g u v : half_line f u -> half_line g v -> half_line (fun x => f x + g x) (u + v).
Proof. intros F G. exact (is_RInt_gen_plus (V := R_NormedModule) (Fa := at_point 0) (Fb := Rbar_locally p_infty) f g u v F G). Qed.
Lemma half_line_scal c f u : half_line f u -> half_line (fun x => c * f x) (c * u).
Proof. intros F. exact (is_RInt_gen_scal (V := R_NormedModule) (Fa := at_point 0) (Fb := Rbar_locally p_infty) f c u F). Qed.
Lemma half_line_zero : half_line (fun _ => 0) 0.
Proof. apply (half_line_of _ (fun _ => 0)); [intros; apply int_zero | apply is_lim_const]. Qed.
Lemma half_line_sum (f : nat -> R -> R) u n : (forall i, (i <= n)%nat -> half_line (f i) (u i)) ->
  half_line (fun x => sum_f_R0 (fun i => f i x) n) (sum_f_R0 u n).
Proof. induction n as [|n IH]; intros H; cbn [sum_f_R0]; [apply H; lia|]. apply half_line_plus; [apply IH; intros; apply H; lia | apply H; lia]. Qed.
Lemma half_line_unique f u v : half_line f u -> half_line f v -> u = v.
Proof.
  intros U V. unfold half_line in *. transitivity (RInt_gen f (at_point 0) (Rbar_locally p_infty)); [symmetry|]; apply (is_RInt_gen_unique (V := R_CompleteNormedModule)); assumption.
Qed.
