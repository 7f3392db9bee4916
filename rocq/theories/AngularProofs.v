(** The angular integrals are right. *)
From Coq Require Import ZArith Reals Lra Lia Bool.
From Coquelicot Require Import Coquelicot.
From Verif Require Import Angular AngularSpec.
Open Scope R_scope.

Lemma cos_IZR_2PI x j : cos (x + IZR j * (2 * PI)) = cos x.
Proof.
  destruct j as [|p|p].
  - f_equal. ring.
  - rewrite <- (cos_period x (Pos.to_nat p)). f_equal. rewrite INR_IZR_INZ, positive_nat_Z. ring.
  - rewrite <- (cos_period (x + IZR (Z.neg p) * (2 * PI)) (Pos.to_nat p)). f_equal. rewrite INR_IZR_INZ, positive_nat_Z.
    change (IZR (Z.neg p)) with (IZR (- Z.pos p)). rewrite opp_IZR. ring.
Qed.
Lemma sin_IZR_2PI x j : sin (x + IZR j * (2 * PI)) = sin x.
Proof.
  rewrite <- !cos_shift. rewrite <- (cos_IZR_2PI (PI / 2 - x) (- j)). f_equal. rewrite opp_IZR. ring.
Qed.
Definition par (j : Z) : R := if Z.even j then 1 else -1.
Lemma Z_even_cases (j : Z) : exists q : Z, ((j = 2 * q)%Z /\ Z.even j = true) \/ ((j = 2 * q + 1)%Z /\ Z.even j = false).
Proof.
  exists (Z.div j 2). destruct (Z.even j) eqn:E; [left | right]; (split; [|reflexivity]).
  - apply Z.even_spec in E. destruct E as [c E]. rewrite E. replace (2 * c / 2)%Z with c; [ring|]. rewrite Z.mul_comm, Z.div_mul; lia.
  - assert (O : Z.odd j = true) by (rewrite <- Z.negb_even, E; reflexivity). apply Z.odd_spec in O. destruct O as [c ->].
    replace ((2 * c + 1) / 2)%Z with c; [ring|]. apply Z.div_unique with 1%Z; lia.
Qed.
Lemma cos_IZR_PI j x : cos (x + IZR j * PI) = par j * cos x.
Proof.
  unfold par. destruct (Z_even_cases j) as (q & [[E ->]|[E ->]]).
  - rewrite E, mult_IZR. replace (x + 2 * IZR q * PI) with (x + IZR q * (2 * PI)) by ring. rewrite cos_IZR_2PI. ring.
  - rewrite E, plus_IZR, mult_IZR. replace (x + (2 * IZR q + 1) * PI) with (x + PI + IZR q * (2 * PI)) by ring. rewrite cos_IZR_2PI, neg_cos. ring.
Qed.
Lemma sin_IZR_PI j x : sin (x + IZR j * PI) = par j * sin x.
Proof.
  rewrite <- !cos_shift. replace (PI / 2 - (x + IZR j * PI)) with (PI / 2 - x + IZR (- j) * PI) by (rewrite opp_IZR; ring). rewrite cos_IZR_PI.
  unfold par. rewrite Z.even_opp. reflexivity.
Qed.

(** ** Elementary integrals *)
Lemma int_cos j a b : j <> 0 -> is_RInt (fun t => cos (j * t)) a b (sin (j * b) / j - sin (j * a) / j).
Proof.
  intros H. apply (is_RInt_derive (fun t => sin (j * t) / j)).
  - intros x _. auto_derive; [trivial|]. field; exact H.
  - intros x _. apply (ex_derive_continuous (fun t => cos (j * t))). auto_derive; trivial.
Qed.
Lemma int_sin j a b : j <> 0 -> is_RInt (fun t => sin (j * t)) a b (cos (j * a) / j - cos (j * b) / j).
Proof.
  intros H. replace (cos (j * a) / j - cos (j * b) / j) with (- cos (j * b) / j - - cos (j * a) / j) by (field; exact H).
  apply (is_RInt_derive (fun t => - cos (j * t) / j)).
  - intros x _. auto_derive; [trivial|]. field; exact H.
  - intros x _. apply (ex_derive_continuous (fun t => sin (j * t))). auto_derive; trivial.
Qed.
Lemma is_RInt_val (f : R -> R) a b (u v : R) : is_RInt f a b u -> u = v -> is_RInt f a b v.
Proof. intros H <-. exact H. Qed.
Lemma int_zero a b : is_RInt (fun _ : R => 0) a b 0.
Proof. eapply is_RInt_val; [apply (is_RInt_const (V := R_NormedModule))|]. unfold scal; cbn; unfold mult; cbn; ring. Qed.
Lemma int_one a b : is_RInt (fun _ : R => 1) a b (b - a).
Proof. eapply is_RInt_val; [apply (is_RInt_const (V := R_NormedModule))|]. unfold scal; cbn; unfold mult; cbn; ring. Qed.

(** Values over a full turn *)
Definition turn (j : Z) : R := if (j =? 0)%Z then 2 * PI else 0.
Lemma turn_cos j : is_RInt (fun t => cos (IZR j * t)) 0 (2 * PI) (turn j).
Proof.
  unfold turn. destruct (Z.eqb_spec j 0) as [->|H].
  - apply (is_RInt_ext (fun _ => 1)); [intros x _; rewrite Rmult_0_l, cos_0; reflexivity|].
    eapply is_RInt_val; [apply int_one | ring].
  - assert (IZR j <> 0) by (apply not_0_IZR; exact H).
    pose proof (int_cos (IZR j) 0 (2 * PI) H0) as I. apply (is_RInt_val _ _ _ _ _ I).
    rewrite Rmult_0_r, sin_0. rewrite <- (Rplus_0_l (IZR j * (2 * PI))), sin_IZR_2PI, sin_0. field. exact H0.
Qed.
Lemma turn_sin j : is_RInt (fun t => sin (IZR j * t)) 0 (2 * PI) 0.
Proof.
  destruct (Z.eqb_spec j 0) as [->|H].
  - apply (is_RInt_ext (fun _ => 0)); [intros x _; rewrite Rmult_0_l, sin_0; reflexivity|]. apply int_zero.
  - assert (IZR j <> 0) by (apply not_0_IZR; exact H).
    pose proof (int_sin (IZR j) 0 (2 * PI) H0) as I. apply (is_RInt_val _ _ _ _ _ I).
    rewrite Rmult_0_r, cos_0. rewrite <- (Rplus_0_l (IZR j * (2 * PI))), cos_IZR_2PI, cos_0. field. exact H0.
Qed.

(** Half-sums *)
Lemma half_sum f g a b u v : is_RInt f a b u -> is_RInt g a b v -> is_RInt (fun t => (f t + g t) / 2) a b ((u + v) / 2).
Proof.
  intros F G. apply (is_RInt_ext (fun t => scal (/2) (plus (f t) (g t)))); [intros x _; unfold scal, plus; cbn; unfold mult; cbn; field|].
  replace ((u + v) / 2) with (scal (/2) (plus u v)) by (unfold scal, plus; cbn; unfold mult; cbn; field).
  apply (is_RInt_scal (V := R_NormedModule)), (is_RInt_plus (V := R_NormedModule)); assumption.
Qed.
Lemma half_diff f g a b u v : is_RInt f a b u -> is_RInt g a b v -> is_RInt (fun t => (f t - g t) / 2) a b ((u - v) / 2).
Proof.
  intros F G. apply (is_RInt_ext (fun t => scal (/2) (minus (f t) (g t)))); [intros x _; unfold scal, minus, plus, opp; cbn; unfold mult; cbn; field|].
  replace ((u - v) / 2) with (scal (/2) (minus u v)) by (unfold scal, minus, plus, opp; cbn; unfold mult; cbn; field).
  apply (is_RInt_scal (V := R_NormedModule)), (is_RInt_minus (V := R_NormedModule)); assumption.
Qed.
Section Products.
  Variables (a b : R) (k : Z).
  Lemma prod_cc x : cos x * cos (IZR k * x) = (cos (IZR (k + 1) * x) + cos (IZR (k - 1) * x)) / 2.
  Proof. rewrite plus_IZR, minus_IZR, Rmult_plus_distr_r, Rmult_minus_distr_r, Rmult_1_l, cos_plus, cos_minus. field. Qed.
  Lemma prod_cs x : cos x * sin (IZR k * x) = (sin (IZR (k + 1) * x) + sin (IZR (k - 1) * x)) / 2.
  Proof. rewrite plus_IZR, minus_IZR, Rmult_plus_distr_r, Rmult_minus_distr_r, Rmult_1_l, sin_plus, sin_minus. field. Qed.
  Lemma prod_sc x : sin x * cos (IZR k * x) = (sin (IZR (k + 1) * x) - sin (IZR (k - 1) * x)) / 2.
  Proof. rewrite plus_IZR, minus_IZR, Rmult_plus_distr_r, Rmult_minus_distr_r, Rmult_1_l, sin_plus, sin_minus. field. Qed.
  Lemma prod_ss x : sin x * sin (IZR k * x) = (cos (IZR (k - 1) * x) - cos (IZR (k + 1) * x)) / 2.
  Proof. rewrite plus_IZR, minus_IZR, Rmult_plus_distr_r, Rmult_minus_distr_r, Rmult_1_l, cos_plus, cos_minus. field. Qed.
End Products.
Lemma turn_cc k : is_RInt (fun t => cos t * cos (IZR k * t)) 0 (2 * PI) ((turn (k + 1) + turn (k - 1)) / 2).
Proof. eapply is_RInt_ext; [intros x _; symmetry; apply prod_cc|]. apply half_sum; apply turn_cos. Qed.
Lemma turn_cs k : is_RInt (fun t => cos t * sin (IZR k * t)) 0 (2 * PI) 0.
Proof. eapply is_RInt_ext; [intros x _; symmetry; apply prod_cs|]. eapply is_RInt_val; [apply half_sum; apply turn_sin | field]. Qed.
Lemma turn_sc k : is_RInt (fun t => sin t * cos (IZR k * t)) 0 (2 * PI) 0.
Proof. eapply is_RInt_ext; [intros x _; symmetry; apply prod_sc|]. eapply is_RInt_val; [apply half_diff; apply turn_sin | field]. Qed.
Lemma turn_ss k : is_RInt (fun t => sin t * sin (IZR k * t)) 0 (2 * PI) ((turn (k - 1) - turn (k + 1)) / 2).
Proof. eapply is_RInt_ext; [intros x _; symmetry; apply prod_ss|]. apply half_diff; apply turn_cos. Qed.

(** From real to complex integrals *)
Lemma angular_of f m_p m_q u v :
  is_RInt (fun t => f t * cos (IZR (m_q - m_p) * t)) 0 (2 * PI) u ->
  is_RInt (fun t => f t * sin (IZR (m_q - m_p) * t)) 0 (2 * PI) v -> angular_integral f m_p m_q (u, v).
Proof.
  intros U V. unfold angular_integral.
  apply (is_RInt_ext (V := C_R_NormedModule) (fun t => (f t * cos (IZR (m_q - m_p) * t), f t * sin (IZR (m_q - m_p) * t)))).
  - intros x _. rewrite minus_IZR, Rmult_minus_distr_r, cos_minus, sin_minus. unfold cis, Cconj, Cmult, RtoC. cbn. f_equal; ring.
  - apply (is_RInt_fct_extend_pair (fun t => (f t * cos (IZR (m_q - m_p) * t), f t * sin (IZR (m_q - m_p) * t)))); assumption.
Qed.

Lemma abs1 m : (Z.abs m = 1 -> m = 1 \/ m = -1)%Z.
Proof. lia. Qed.
Lemma theta_1_right m_p m_q : angular_integral cos m_p m_q (theta_1_integral m_p m_q).
Proof.
  pose proof (angular_of cos m_p m_q _ _ (turn_cc _) (turn_cs _)) as A.
  replace (theta_1_integral m_p m_q) with ((turn (m_q - m_p + 1) + turn (m_q - m_p - 1)) / 2, 0); [exact A|].
  unfold theta_1_integral, turn. destruct (Z.eqb_spec (Z.abs (m_p - m_q)) 1) as [E|E].
  - destruct (abs1 _ E) as [E'|E'].
    + replace (m_q - m_p + 1)%Z with 0%Z by lia. replace (m_q - m_p - 1)%Z with (-2)%Z by lia. cbn. unfold RtoC. f_equal. field.
    + replace (m_q - m_p + 1)%Z with 2%Z by lia. replace (m_q - m_p - 1)%Z with 0%Z by lia. cbn. unfold RtoC. f_equal. field.
  - rewrite !(proj2 (Z.eqb_neq _ _)) by lia. unfold RtoC. f_equal. field.
Qed.
Lemma theta_2_right m_p m_q : angular_integral sin m_p m_q (theta_2_integral m_p m_q).
Proof.
  pose proof (angular_of sin m_p m_q _ _ (turn_sc _) (turn_ss _)) as A.
  replace (theta_2_integral m_p m_q) with (0, (turn (m_q - m_p - 1) - turn (m_q - m_p + 1)) / 2); [exact A|].
  unfold theta_2_integral, turn. destruct (Z.eqb_spec (Z.abs (m_p - m_q)) 1) as [E|E].
  - destruct (abs1 _ E) as [E'|E'].
    + replace (m_q - m_p + 1)%Z with 0%Z by lia. replace (m_q - m_p - 1)%Z with (-2)%Z by lia. rewrite E'. cbn. unfold RtoC, Ci, Cmult. cbn. f_equal; field.
    + replace (m_q - m_p + 1)%Z with 2%Z by lia. replace (m_q - m_p - 1)%Z with 0%Z by lia. rewrite E'. cbn. unfold RtoC, Ci, Cmult. cbn. f_equal; field.
  - rewrite !(proj2 (Z.eqb_neq _ _)) by lia. unfold RtoC. f_equal. field.
Qed.

(** ** Functions that repeat, up to a factor c, after half a turn *)
Lemma half_turns (f : R -> R) (c v : R) : (forall t, f (t + PI) = c * f t) -> is_RInt f 0 PI v -> is_RInt f 0 (2 * PI) (v + c * v).
Proof.
  intros H I. apply (is_RInt_Chasles (V := R_NormedModule)) with PI; [exact I|].
  apply (is_RInt_ext (V := R_NormedModule) (fun t => scal 1 (c * f (1 * t + - PI)))).
  - intros x _. rewrite <- H. unfold scal; cbn; unfold mult; cbn. rewrite Rmult_1_l. f_equal. ring.
  - apply (is_RInt_comp_lin (V := R_NormedModule) (fun t => c * f t) 1 (- PI)).
    replace (1 * PI + - PI) with 0 by ring. replace (1 * (2 * PI) + - PI) with PI by ring.
    apply (is_RInt_scal (V := R_NormedModule) f); exact I.
Qed.

Lemma odd_abs z : Z.odd (Z.abs z) = Z.odd z.
Proof. destruct z; reflexivity. Qed.
Lemma odd_test z : (Z.abs z mod 2 =? 1)%Z = negb (Z.even z).
Proof. rewrite Zmod_odd, odd_abs, <- Z.negb_even. destruct (Z.even z); reflexivity. Qed.
Lemma par_odd z : Z.even z = false -> par z = -1.
Proof. unfold par. intros ->. reflexivity. Qed.
Lemma par_even z : Z.even z = true -> par z = 1.
Proof. unfold par. intros ->. reflexivity. Qed.

Lemma wave_cos k t : cos (IZR k * (t + PI)) = par k * cos (IZR k * t).
Proof. rewrite Rmult_plus_distr_l. apply cos_IZR_PI. Qed.
Lemma wave_sin k t : sin (IZR k * (t + PI)) = par k * sin (IZR k * t).
Proof. rewrite Rmult_plus_distr_l. apply sin_IZR_PI. Qed.

Lemma cont_wave (f g : R -> R) a b : (forall x, continuous f x) -> (forall x, continuous g x) -> exists v, is_RInt (fun t => f t * g t) a b v.
Proof.
  intros F G. apply (ex_RInt_continuous (V := R_CompleteNormedModule)). intros x _. apply (continuous_mult (K := R_AbsRing) f g); auto.
Qed.
Lemma cont_cos k x : continuous (fun t => cos (IZR k * t)) x.
Proof. apply (ex_derive_continuous (fun t => cos (IZR k * t))). auto_derive; trivial. Qed.
Lemma cont_sin k x : continuous (fun t => sin (IZR k * t)) x.
Proof. apply (ex_derive_continuous (fun t => sin (IZR k * t))). auto_derive; trivial. Qed.
Lemma cont_abs_cos x : continuous (fun t => Rabs (cos t)) x.
Proof. apply continuous_comp; [apply continuous_cos | apply continuous_Rabs]. Qed.
Lemma cont_abs_sin x : continuous (fun t => Rabs (sin t)) x.
Proof. apply continuous_comp; [apply continuous_sin | apply continuous_Rabs]. Qed.

Lemma odd_turn f k : Z.even k = false -> (forall x, continuous f x) -> (forall t, f (t + PI) = f t) ->
  is_RInt (fun t => f t * cos (IZR k * t)) 0 (2 * PI) 0 /\ is_RInt (fun t => f t * sin (IZR k * t)) 0 (2 * PI) 0.
Proof.
  intros Hk F P. split.
  - destruct (cont_wave f (fun t => cos (IZR k * t)) 0 PI F (cont_cos k)) as (v & I).
    eapply is_RInt_val; [apply (half_turns _ (-1) v); [|exact I] | ring]. intros t. rewrite P, wave_cos, par_odd by exact Hk. ring.
  - destruct (cont_wave f (fun t => sin (IZR k * t)) 0 PI F (cont_sin k)) as (v & I).
    eapply is_RInt_val; [apply (half_turns _ (-1) v); [|exact I] | ring]. intros t. rewrite P, wave_sin, par_odd by exact Hk. ring.
Qed.
Lemma abs_cos_PI t : Rabs (cos (t + PI)) = Rabs (cos t).
Proof. rewrite neg_cos. apply Rabs_Ropp. Qed.
Lemma abs_sin_PI t : Rabs (sin (t + PI)) = Rabs (sin t).
Proof. rewrite neg_sin. apply Rabs_Ropp. Qed.

Section EvenTurn.
  Variable q : Z.
  Let k := (2 * q)%Z.
  Lemma k_up : IZR (k + 1) <> 0. Proof. apply not_0_IZR. unfold k. lia. Qed.
  Lemma k_down : IZR (k - 1) <> 0. Proof. apply not_0_IZR. unfold k. lia. Qed.
  Lemma k_sq : IZR (1 - k ^ 2) = - (IZR (k + 1) * IZR (k - 1)).
  Proof. rewrite <- mult_IZR, <- opp_IZR. f_equal. ring. Qed.
  Lemma k_sq' : IZR (1 - k ^ 2) <> 0.
  Proof. rewrite k_sq. apply Ropp_neq_0_compat, Rmult_integral_contrapositive_currified; [apply k_up | apply k_down]. Qed.
  Lemma even_k : Z.even k = true. Proof. unfold k. rewrite Z.even_mul. reflexivity. Qed.

  Lemma at_PI_cos j : cos (IZR j * PI) = par j.
  Proof. rewrite <- (Rplus_0_l (IZR j * PI)), cos_IZR_PI, cos_0. ring. Qed.
  Lemma at_PI_sin j : sin (IZR j * PI) = 0.
  Proof. rewrite <- (Rplus_0_l (IZR j * PI)), sin_IZR_PI, sin_0. ring. Qed.
  Lemma par_up : par (k + 1) = -1. Proof. apply par_odd. unfold k. rewrite Z.even_add, Z.even_mul. reflexivity. Qed.
  Lemma par_down : par (k - 1) = -1. Proof. apply par_odd. unfold k. rewrite Z.even_sub, Z.even_mul. reflexivity. Qed.

  Lemma abs_sin_c : is_RInt (fun t => Rabs (sin t) * cos (IZR k * t)) 0 (2 * PI) (4 / IZR (1 - k ^ 2)).
  Proof.
    set (v := 2 / IZR (1 - k ^ 2)). replace (4 / IZR (1 - k ^ 2)) with (v + 1 * v) by (unfold v; field; apply k_sq').
    apply half_turns; [intros t; rewrite abs_sin_PI, wave_cos, par_even by apply even_k; ring|].
    apply (is_RInt_ext (fun t => (sin (IZR (k + 1) * t) - sin (IZR (k - 1) * t)) / 2)).
    - intros t Ht. pose proof PI_RGT_0. rewrite Rmin_left, Rmax_right in Ht by lra. rewrite Rabs_right by (apply Rle_ge, sin_ge_0; lra). symmetry. apply prod_sc.
    - pose proof (half_diff _ _ _ _ _ _ (int_sin _ 0 PI k_up) (int_sin _ 0 PI k_down)) as I.
      rewrite !at_PI_cos, !Rmult_0_r, !cos_0, par_up, par_down in I. apply (is_RInt_val _ _ _ _ _ I).
      unfold v. rewrite k_sq. pose proof k_up; pose proof k_down. replace (IZR (k + 1)) with (IZR k + 1) in * by (rewrite plus_IZR; ring). replace (IZR (k - 1)) with (IZR k - 1) in * by (rewrite minus_IZR; ring). field. auto.
  Qed.
  Lemma abs_sin_s : is_RInt (fun t => Rabs (sin t) * sin (IZR k * t)) 0 (2 * PI) 0.
  Proof.
    eapply is_RInt_val; [apply (half_turns _ 1 0) | ring]; [intros t; rewrite abs_sin_PI, wave_sin, par_even by apply even_k; ring|].
    apply (is_RInt_ext (fun t => (cos (IZR (k - 1) * t) - cos (IZR (k + 1) * t)) / 2)).
    - intros t Ht. pose proof PI_RGT_0. rewrite Rmin_left, Rmax_right in Ht by lra. rewrite Rabs_right by (apply Rle_ge, sin_ge_0; lra). symmetry. apply prod_ss.
    - pose proof (half_diff _ _ _ _ _ _ (int_cos _ 0 PI k_down) (int_cos _ 0 PI k_up)) as I. rewrite !at_PI_sin, !Rmult_0_r, !sin_0 in I.
      apply (is_RInt_val _ _ _ _ _ I). field. split; [apply k_up | apply k_down].
  Qed.

  Lemma quarter_cos j : cos (IZR (2 * j + 1) * (PI / 2)) = 0.
  Proof. replace (IZR (2 * j + 1) * (PI / 2)) with (PI / 2 + IZR j * PI) by (rewrite plus_IZR, mult_IZR; field). rewrite cos_IZR_PI, cos_PI2. ring. Qed.
  Lemma quarter_sin j : sin (IZR (2 * j + 1) * (PI / 2)) = par j.
  Proof. replace (IZR (2 * j + 1) * (PI / 2)) with (PI / 2 + IZR j * PI) by (rewrite plus_IZR, mult_IZR; field). rewrite sin_IZR_PI, sin_PI2. ring. Qed.
  Lemma up_q : (k + 1 = 2 * q + 1)%Z. Proof. reflexivity. Qed.
  Lemma down_q : (k - 1 = 2 * (q - 1) + 1)%Z. Proof. unfold k. ring. Qed.
  Lemma par_pred : par (q - 1) = - par q.
  Proof. unfold par. rewrite Z.even_sub. destruct (Z.even q); cbn; ring. Qed.

  Lemma abs_cos_split (g : R -> R) u v : is_RInt (fun t => cos t * g t) 0 (PI / 2) u -> is_RInt (fun t => cos t * g t) (PI / 2) PI v ->
    is_RInt (fun t => Rabs (cos t) * g t) 0 PI (u - v).
  Proof.
    intros U V. pose proof PI_RGT_0. replace (u - v) with (plus u (opp v)) by reflexivity. apply (is_RInt_Chasles (V := R_NormedModule)) with (PI / 2).
    - eapply is_RInt_ext; [|exact U]. intros t Ht. rewrite Rmin_left, Rmax_right in Ht by lra. rewrite Rabs_right; [reflexivity|]. apply Rle_ge, cos_ge_0; lra.
    - apply (is_RInt_ext (V := R_NormedModule) (fun t => opp (cos t * g t))).
      + intros t Ht. rewrite Rmin_left, Rmax_right in Ht by lra. rewrite Rabs_left1; [unfold opp; cbn; ring|]. apply cos_le_0; lra.
      + apply (is_RInt_opp (V := R_NormedModule)). exact V.
  Qed.
  Lemma abs_cos_c : is_RInt (fun t => Rabs (cos t) * cos (IZR k * t)) 0 (2 * PI) (par q * 4 / IZR (1 - k ^ 2)).
  Proof.
    set (v := par q / IZR (1 - k ^ 2)). replace (par q * 4 / IZR (1 - k ^ 2)) with ((v - - v) + 1 * (v - - v)) by (unfold v; field; apply k_sq').
    apply half_turns; [intros t; rewrite abs_cos_PI, wave_cos, par_even by apply even_k; ring|].
    pose proof k_up as Ku; pose proof k_down as Kd; pose proof k_sq as Ks.
    apply abs_cos_split; (eapply is_RInt_ext; [intros x _; symmetry; apply prod_cc|]).
    - eapply is_RInt_val; [exact (half_sum _ _ _ _ _ _ (int_cos _ 0 (PI / 2) Ku) (int_cos _ 0 (PI / 2) Kd))|].
      rewrite !Rmult_0_r, !sin_0. assert (Su : sin (IZR (k + 1) * (PI / 2)) = par q) by (rewrite up_q; apply quarter_sin). assert (Sd : sin (IZR (k - 1) * (PI / 2)) = - par q) by (rewrite down_q, quarter_sin; apply par_pred).
      rewrite Su, Sd. unfold v. rewrite Ks. clear Su Sd. rewrite plus_IZR, minus_IZR in *. field. auto.
    - eapply is_RInt_val; [exact (half_sum _ _ _ _ _ _ (int_cos _ (PI / 2) PI Ku) (int_cos _ (PI / 2) PI Kd))|].
      assert (Su : sin (IZR (k + 1) * (PI / 2)) = par q) by (rewrite up_q; apply quarter_sin). assert (Sd : sin (IZR (k - 1) * (PI / 2)) = - par q) by (rewrite down_q, quarter_sin; apply par_pred).
      rewrite Su, Sd, !at_PI_sin. unfold v. rewrite Ks. clear Su Sd. rewrite plus_IZR, minus_IZR in *. field. auto.
  Qed.
  Lemma abs_cos_s : is_RInt (fun t => Rabs (cos t) * sin (IZR k * t)) 0 (2 * PI) 0.
  Proof.
    set (v := (1 / IZR (k + 1) + 1 / IZR (k - 1)) / 2). eapply is_RInt_val; [apply (half_turns _ 1 (v - v)) | ring]; [intros t; rewrite abs_cos_PI, wave_sin, par_even by apply even_k; ring|].
    pose proof k_up as Ku; pose proof k_down as Kd.
    apply abs_cos_split; (eapply is_RInt_ext; [intros x _; symmetry; apply prod_cs|]).
    - eapply is_RInt_val; [exact (half_sum _ _ _ _ _ _ (int_sin _ 0 (PI / 2) Ku) (int_sin _ 0 (PI / 2) Kd))|].
      rewrite !Rmult_0_r, !cos_0. assert (Su : cos (IZR (k + 1) * (PI / 2)) = 0) by (rewrite up_q; apply quarter_cos). assert (Sd : cos (IZR (k - 1) * (PI / 2)) = 0) by (rewrite down_q; apply quarter_cos).
      rewrite Su, Sd. unfold v. field. auto.
    - eapply is_RInt_val; [exact (half_sum _ _ _ _ _ _ (int_sin _ (PI / 2) PI Ku) (int_sin _ (PI / 2) PI Kd))|].
      assert (Su : cos (IZR (k + 1) * (PI / 2)) = 0) by (rewrite up_q; apply quarter_cos). assert (Sd : cos (IZR (k - 1) * (PI / 2)) = 0) by (rewrite down_q; apply quarter_cos).
      rewrite Su, Sd, !at_PI_cos, par_up, par_down. unfold v. field. auto.
  Qed.
End EvenTurn.

Lemma theta_1_tilde_right m_p m_q : angular_integral (fun t => Rabs (cos t)) m_p m_q (RtoC (theta_1_tilde_integral m_p m_q)).
Proof.
  unfold theta_1_tilde_integral. rewrite odd_test. destruct (Z_even_cases (m_p - m_q)) as (q & [[E E']|[E E']]); rewrite E'; cbn [negb].
  - apply angular_of; replace (m_q - m_p)%Z with (2 * - q)%Z by lia.
    + eapply is_RInt_val; [apply abs_cos_c|]. replace ((2 * - q) ^ 2)%Z with ((m_p - m_q) ^ 2)%Z by (rewrite E; ring). unfold Rdiv. f_equal.
      rewrite mult_IZR. f_equal. unfold par. rewrite Z.even_opp, E. replace (Z.abs (2 * q) / 2)%Z with (Z.abs q).
      * rewrite Zmod_odd, odd_abs, <- Z.negb_even. destruct (Z.even q); reflexivity.
      * rewrite Z.abs_mul. change (Z.abs 2) with 2%Z. rewrite Z.mul_comm, Z.div_mul; lia.
    + apply abs_cos_s.
  - destruct (odd_turn (fun t => Rabs (cos t)) (m_q - m_p)) as [U V].
    + replace (m_q - m_p)%Z with (- (m_p - m_q))%Z by ring. rewrite Z.even_opp. exact E'.
    + exact cont_abs_cos.
    + exact abs_cos_PI.
    + exact (angular_of _ _ _ _ _ U V).
Qed.
Lemma theta_2_tilde_right m_p m_q : angular_integral (fun t => Rabs (sin t)) m_p m_q (RtoC (theta_2_tilde_integral m_p m_q)).
Proof.
  unfold theta_2_tilde_integral. rewrite odd_test. destruct (Z_even_cases (m_p - m_q)) as (q & [[E E']|[E E']]); rewrite E'; cbn [negb].
  - apply angular_of; replace (m_q - m_p)%Z with (2 * - q)%Z by lia.
    + eapply is_RInt_val; [apply abs_sin_c|]. replace ((2 * - q) ^ 2)%Z with ((m_p - m_q) ^ 2)%Z by (rewrite E; ring). reflexivity.
    + apply abs_sin_s.
  - destruct (odd_turn (fun t => Rabs (sin t)) (m_q - m_p)) as [U V].
    + replace (m_q - m_p)%Z with (- (m_p - m_q))%Z by ring. rewrite Z.even_opp. exact E'.
    + exact cont_abs_sin.
    + exact abs_sin_PI.
    + exact (angular_of _ _ _ _ _ U V).
Qed.
