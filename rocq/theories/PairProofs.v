(** The Coulomb elements are Coulomb integrals of the orbitals. *)
From Coq Require Import List Arith ZArith Reals Bool Lra Lia.
From Coquelicot Require Import Coquelicot.
From Verif Require Import TwoDim Angular AngularProofs Gauss Moments Laguerre Coulomb CoulombSpec CoulombProofs Orbitals OrbitalSpec OrbitalProofs PairSpec.
Open Scope R_scope.

(** ** Complex sums and powers *)
Fixpoint cs (n : nat) (f : nat -> C) : C := match n with O => RtoC 0 | S k => (cs k f + f k)%C end.
Lemma cs_ext n f g : (forall k, (k < n)%nat -> f k = g k) -> cs n f = cs n g.
Proof. induction n as [|n IH]; intros H; cbn; [reflexivity|]. rewrite (H n) by lia. rewrite IH by (intros; apply H; lia). reflexivity. Qed.
Lemma cs_plus n f g : cs n (fun k => (f k + g k)%C) = (cs n f + cs n g)%C.
Proof. induction n as [|n IH]; cbn [cs]; [ring|]. rewrite IH. ring. Qed.
Lemma cs_scal n c f : cs n (fun k => (c * f k)%C) = (c * cs n f)%C.
Proof. induction n as [|n IH]; cbn [cs]; [ring|]. rewrite IH. ring. Qed.
Lemma cs_scal_r n c f : cs n (fun k => (f k * c)%C) = (cs n f * c)%C.
Proof. induction n as [|n IH]; cbn [cs]; [ring|]. rewrite IH. ring. Qed.
Lemma cs_first n f : cs (S n) f = (f O + cs n (fun k => f (S k)))%C.
Proof. induction n as [|n IH]; [cbn; ring|]. cbn [cs] in *. rewrite IH. ring. Qed.
Lemma cs_R n (f : nat -> R) : cs n (fun k => RtoC (f k)) = RtoC (rsum n f).
Proof. induction n as [|n IH]; cbn [cs rsum]; [reflexivity|]. rewrite IH, RtoC_plus. reflexivity. Qed.
Lemma cs_conj n f : Cconj (cs n f) = cs n (fun k => Cconj (f k)).
Proof. induction n as [|n IH]; cbn [cs]; [unfold Cconj, RtoC; cbn; f_equal; ring|]. rewrite <- IH. unfold Cconj, Cplus. cbn. f_equal; ring. Qed.

Fixpoint cp (z : C) (n : nat) : C := match n with O => RtoC 1 | S k => (z * cp z k)%C end.
Lemma cp_add z a b : cp z (a + b) = (cp z a * cp z b)%C.
Proof. induction a as [|a IH]; cbn [cp Nat.add]; [ring|]. rewrite IH. ring. Qed.
Lemma cp_mul z w n : cp (z * w)%C n = (cp z n * cp w n)%C.
Proof. induction n as [|n IH]; cbn [cp]; [ring|]. rewrite IH. ring. Qed.
Lemma cp_R x n : cp (RtoC x) n = RtoC (x ^ n).
Proof. induction n as [|n IH]; cbn [cp pow]; [reflexivity|]. rewrite IH, RtoC_mult. reflexivity. Qed.
Lemma conj_mul z w : Cconj (z * w)%C = (Cconj z * Cconj w)%C.
Proof. unfold Cconj, Cmult. cbn. f_equal; ring. Qed.
Lemma conj_add z w : Cconj (z + w)%C = (Cconj z + Cconj w)%C.
Proof. unfold Cconj, Cplus. cbn. f_equal; ring. Qed.
Lemma conj_sub z w : Cconj (z - w)%C = (Cconj z - Cconj w)%C.
Proof. unfold Cconj, Cminus, Cplus, Copp. cbn. f_equal; ring. Qed.
Lemma conj_R x : Cconj (RtoC x) = RtoC x.
Proof. unfold Cconj, RtoC. cbn. f_equal; ring. Qed.
Lemma conj_conj z : Cconj (Cconj z) = z.
Proof. destruct z. unfold Cconj. cbn. f_equal; ring. Qed.
Lemma cp_conj z n : Cconj (cp z n) = cp (Cconj z) n.
Proof. induction n as [|n IH]; cbn [cp]; [apply conj_R|]. rewrite conj_mul, IH. reflexivity. Qed.
Definition norm2 (z : C) : R := fst z ^ 2 + snd z ^ 2.
Lemma cp_norm2 z j : (cp z j * cp (Cconj z) j)%C = RtoC (norm2 z ^ j).
Proof. rewrite <- cp_mul, <- cp_R. f_equal. destruct z as [x y]. unfold norm2, RtoC, Cconj, Cmult. cbn. f_equal; ring. Qed.

Lemma binom_C n i : (i <= n)%nat -> Binomial.C n i = binom n i.
Proof.
  intros H. unfold Binomial.C. rewrite <- (binom_fact n i H). pose proof (fact_pos i). pose proof (fact_pos (n - i)). field. lra.
Qed.
Lemma cp_sum z w n : cp (z + w)%C n = cs (n + 1) (fun k => (RtoC (binom n k) * (cp z k * cp w (n - k)))%C).
Proof.
  rewrite Nat.add_1_r. induction n as [|n IH]; [cbn; rewrite ?binom_0; ring|].
  cbn [cp]. rewrite IH. set (T := cs (S n) _). rewrite cs_first.
  replace ((z + w) * T)%C with (w * T + z * T)%C by ring. unfold T.
  rewrite (cs_first n (fun k => (RtoC (binom n k) * (cp z k * cp w (n - k)))%C)) at 1.
  rewrite (cs_ext (S n) (fun k => (RtoC (binom (S n) (S k)) * (cp z (S k) * cp w (S n - S k)))%C) (fun k => (RtoC (binom n (S k)) * (cp z (S k) * cp w (n - k)) + z * (RtoC (binom n k) * (cp z k * cp w (n - k))))%C)).
  2:{ intros k Hk. change (binom (S n) (S k)) with (binom n k + binom n (S k)). cbn [Nat.sub cp]. rewrite RtoC_plus. ring. }
  rewrite cs_plus, cs_scal. cbn [cs]. rewrite (binom_above n (S n)) by lia.
  rewrite !binom_0, !Nat.sub_0_r.
  rewrite (cs_ext n (fun k => (RtoC (binom n (S k)) * (cp z (S k) * cp w (n - k)))%C) (fun k => (w * (RtoC (binom n (S k)) * (cp z (S k) * cp w (n - S k))))%C)).
  2:{ intros k Hk. replace (n - k)%nat with (S (n - S k)) by lia. cbn [cp]. ring. }
  rewrite cs_scal. cbn [cp]. ring.
Qed.

(** ** Polar coordinates *)
Lemma cp_point r t n : cp (point r t) n = (RtoC (r ^ n) * spf_theta t (Z.of_nat n))%C.
Proof.
  induction n as [|n IH].
  - cbn. unfold spf_theta. cbn. rewrite Rmult_0_l, cos_0, sin_0. unfold RtoC, Cmult. cbn. f_equal; ring.
  - cbn [cp]. rewrite IH. unfold spf_theta. rewrite Nat2Z.inj_succ, succ_IZR, Rmult_plus_distr_r, Rmult_1_l, cos_plus, sin_plus.
    unfold point, RtoC, Cmult. cbn. f_equal; ring.
Qed.
Lemma conj_point r t : Cconj (point r t) = point r (- t).
Proof. unfold point, Cconj. cbn. rewrite cos_neg, sin_neg. f_equal; ring. Qed.
Lemma theta_neg t n : spf_theta (- t) (Z.of_nat n) = spf_theta t (- Z.of_nat n).
Proof. unfold spf_theta. rewrite opp_IZR. do 2 f_equal; ring. Qed.
Lemma theta_add t m n : (spf_theta t m * spf_theta t n)%C = spf_theta t (m + n).
Proof. unfold spf_theta. rewrite plus_IZR, Rmult_plus_distr_r, cos_plus, sin_plus. unfold Cmult. cbn. f_equal; ring. Qed.
Lemma monomial r t a b : (cp (point r t) a * cp (Cconj (point r t)) b)%C = (RtoC (r ^ (a + b)) * spf_theta t (Z.of_nat a - Z.of_nat b))%C.
Proof.
  rewrite conj_point, !cp_point, theta_neg, pow_add, RtoC_mult. unfold Z.sub. rewrite <- theta_add. ring.
Qed.
Lemma norm2_point r t : norm2 (point r t) = r ^ 2.
Proof. unfold norm2, point. cbn [fst snd]. replace (r ^ 2) with (r ^ 2 * ((cos t)² + (sin t)²)) by (rewrite (Rplus_comm _ (Rsqr (sin t))), sin2_cos2; ring). unfold Rsqr. ring. Qed.

(** ** Linearity *)
Lemma plane_mul_i f u : plane_integral f u -> plane_integral (fun r t => (Ci * f r t)%C) (Ci * u)%C.
Proof.
  intros (F & F1 & F2 & F3). exists (fun r => (Ci * F r)%C). split; [|split].
  - intros r Hr. pose proof (F1 r Hr) as A.
    pose proof (is_RInt_fct_extend_fst _ _ _ _ A) as A1. pose proof (is_RInt_fct_extend_snd _ _ _ _ A) as A2.
    replace (Ci * F r)%C with ((- snd (F r)), fst (F r)) by (unfold Ci, Cmult; cbn; f_equal; ring).
    apply is_RInt_fct_extend_pair.
    + eapply is_RInt_ext; [|apply (is_RInt_opp (V := R_NormedModule)), A2]. intros t _. unfold Ci, Cmult, opp; cbn. ring.
    + eapply is_RInt_ext; [|apply A1]. intros t _. unfold Ci, Cmult; cbn. ring.
  - eapply half_line_val; [eapply half_line_ext; [|apply (half_line_scal (-1)); exact F3]|]; [intros r _|]; unfold Ci, Cmult; cbn; ring.
  - eapply half_line_val; [eapply half_line_ext; [|exact F2]|]; [intros r _|]; unfold Ci, Cmult; cbn; ring.
Qed.
Lemma plane_val f u v : plane_integral f u -> u = v -> plane_integral f v.
Proof. intros H <-. exact H. Qed.
Lemma plane_scalC c f u : plane_integral f u -> plane_integral (fun r t => (c * f r t)%C) (c * u)%C.
Proof.
  intros H. destruct c as [x y].
  assert (E : forall z : C, ((x, y) * z)%C = (RtoC x * z + RtoC y * (Ci * z))%C) by (intros []; unfold RtoC, Ci, Cmult, Cplus; cbn; f_equal; ring).
  rewrite E. apply (plane_ext (fun r t => (RtoC x * f r t + RtoC y * (Ci * f r t))%C)); [intros; symmetry; apply E|].
  apply plane_add; apply plane_scal; [exact H | apply plane_mul_i, H].
Qed.
Lemma plane_zero : plane_integral (fun _ _ => RtoC 0) (RtoC 0).
Proof.
  exists (fun _ => RtoC 0). split; [|split; (eapply half_line_ext; [|apply half_line_zero]; intros r _; cbn; ring)].
  intros r _. apply is_RInt_fct_extend_pair; apply int_zero.
Qed.
(** Functions of centre and separation *)
Definition com_integral (H : C -> C -> C) (v : C) : Prop :=
  exists G : R -> R -> C,
    (forall r t, 0 <= r -> plane_integral (fun R T => H (point R T) (point r t)) (G r t)) /\
    plane_integral (fun r t => (RtoC (/ r)%R * G r t)%C) v.
Lemma com_ext H H' v : (forall X x, H X x = H' X x) -> com_integral H v -> com_integral H' v.
Proof. intros E (G & G1 & G2). exists G. split; [|exact G2]. intros r t Hr. eapply plane_ext; [|apply G1, Hr]. intros; apply E. Qed.
Lemma com_val H u v : com_integral H u -> u = v -> com_integral H v.
Proof. intros I <-. exact I. Qed.
Lemma com_add H H' u v : com_integral H u -> com_integral H' v -> com_integral (fun X x => (H X x + H' X x)%C) (u + v)%C.
Proof.
  intros (G & G1 & G2) (G' & G1' & G2'). exists (fun r t => (G r t + G' r t)%C). split.
  - intros r t Hr. apply plane_add; auto.
  - eapply plane_ext; [|apply plane_add; [exact G2 | exact G2']]. intros. cbv beta. ring.
Qed.
Lemma com_scal c H v : com_integral H v -> com_integral (fun X x => (c * H X x)%C) (c * v)%C.
Proof.
  intros (G & G1 & G2). exists (fun r t => (c * G r t)%C). split.
  - intros r t Hr. apply plane_scalC; auto.
  - eapply plane_ext; [|apply (plane_scalC c); exact G2]. intros. cbv beta. ring.
Qed.
Lemma com_zero : com_integral (fun _ _ => RtoC 0) (RtoC 0).
Proof. exists (fun _ _ => RtoC 0). split; [intros; apply plane_zero|]. eapply plane_ext; [|apply plane_zero]. intros. cbv beta. ring. Qed.
Lemma com_sum n (H : nat -> C -> C -> C) v : (forall k, (k < n)%nat -> com_integral (H k) (v k)) ->
  com_integral (fun X x => cs n (fun k => H k X x)) (cs n v).
Proof. induction n as [|n IH]; intros E; cbn [cs]; [apply com_zero|]. apply com_add; [apply IH; intros; apply E; lia | apply E; lia]. Qed.
Lemma com_prod (A B : C -> C) a b : plane_integral (fun r t => A (point r t)) a -> plane_integral (fun r t => (RtoC (/ r)%R * B (point r t))%C) b ->
  com_integral (fun X x => (A X * B x)%C) (a * b)%C.
Proof.
  intros HA HB. exists (fun r t => (B (point r t) * a)%C). split.
  - intros r t Hr. eapply plane_ext; [|apply (plane_scalC (B (point r t))); exact HA]. intros. cbv beta. ring.
  - eapply plane_ext; [|apply (plane_scalC a); exact HB]. intros. cbv beta. ring.
Qed.

(** ** One power of each variable *)
Lemma plane_wave (f : R -> R) (m : Z) v : half_line (fun r => r * f r) v ->
  plane_integral (fun r t => (RtoC (f r) * spf_theta t m)%C) (RtoC (turn m * v)).
Proof.
  intros H. exists (fun r => RtoC (f r * turn m)). split; [|split].
  - intros r _. apply is_RInt_fct_extend_pair.
    + eapply is_RInt_ext; [|exact (is_RInt_scal (V := R_NormedModule) _ _ _ (f r) _ (turn_cos m))]. intros t _. unfold spf_theta, RtoC, Cmult, scal; cbn. unfold mult; cbn. ring.
    + apply is_RInt_val with (f r * 0); [|ring].
      eapply is_RInt_ext; [|exact (is_RInt_scal (V := R_NormedModule) _ _ _ (f r) _ (turn_sin m))]. intros t _. unfold spf_theta, RtoC, Cmult, scal; cbn. unfold mult; cbn. ring.
  - eapply half_line_ext; [|apply (half_line_scal (turn m)); exact H]. intros r _. cbn. ring.
  - eapply half_line_ext; [|apply half_line_zero]. intros r _. cbn. ring.
Qed.
Section Gaussian.
  Variable b : R.
  Hypothesis Hb : 0 < b.
  Definition gauss (z : C) : R := exp (- (b ^ 2 * norm2 z)).
  Lemma monomial_gauss r t i j : (cp (point r t) i * cp (Cconj (point r t)) j * RtoC (gauss (point r t)))%C
    = (RtoC (r ^ (i + j) * exp (- (b ^ 2 * r ^ 2)))%R * spf_theta t (Z.of_nat i - Z.of_nat j))%C.
  Proof. rewrite monomial. unfold gauss. rewrite norm2_point, RtoC_mult. ring. Qed.
  Definition angle (i j : nat) : R := if (i =? j)%nat then 2 * PI else 0.
  Lemma turn_angle i j : turn (Z.of_nat i - Z.of_nat j) = angle i j.
  Proof. unfold turn, angle. destruct (Z.eqb_spec (Z.of_nat i - Z.of_nat j) 0), (Nat.eqb_spec i j); try lia; reflexivity. Qed.
  Lemma centre_power i j : plane_integral (fun r t => (cp (point r t) i * cp (Cconj (point r t)) j * RtoC (gauss (point r t)))%C) (RtoC (angle i j * moment b (S (i + j)))).
  Proof.
    rewrite <- turn_angle. eapply plane_ext; [intros r t _; symmetry; apply monomial_gauss|].
    apply (plane_wave (fun r => r ^ (i + j) * exp (- (b ^ 2 * r ^ 2)))). eapply half_line_ext; [|apply (moment_ok b Hb)]. intros r _. cbn [pow]. ring.
  Qed.
  Lemma separation_power i j : plane_integral (fun r t => (RtoC (/ r)%R * (cp (point r t) i * cp (Cconj (point r t)) j * RtoC (gauss (point r t))))%C) (RtoC (angle i j * moment b (i + j))).
  Proof.
    rewrite <- turn_angle. apply (plane_ext (fun r t => (RtoC (/ r * (r ^ (i + j) * exp (- (b ^ 2 * r ^ 2))))%R * spf_theta t (Z.of_nat i - Z.of_nat j))%C)).
    - intros r t _. rewrite monomial_gauss. rewrite (RtoC_mult (/ r)). ring.
    - apply (plane_wave (fun r => / r * (r ^ (i + j) * exp (- (b ^ 2 * r ^ 2))))). eapply half_line_ext; [|apply (moment_ok b Hb)]. intros r Hr. cbv beta. field. lra.
  Qed.
End Gaussian.

(** ** Four sums *)
Lemma cs_prod4 n0 n1 n2 n3 f0 f1 f2 f3 e :
  (cs n0 f0 * cs n1 f1 * cs n2 f2 * cs n3 f3 * e)%C
  = cs n0 (fun k0 => cs n1 (fun k1 => cs n2 (fun k2 => cs n3 (fun k3 => (f0 k0 * f1 k1 * f2 k2 * f3 k3 * e)%C)))).
Proof.
  transitivity (cs n0 f0 * (cs n1 f1 * (cs n2 f2 * (cs n3 f3 * e))))%C; [ring|].
  rewrite <- cs_scal_r. apply cs_ext. intros k0 _.
  transitivity (cs n1 f1 * (f0 k0 * (cs n2 f2 * (cs n3 f3 * e))))%C; [ring|].
  rewrite <- cs_scal_r. apply cs_ext. intros k1 _.
  transitivity (cs n2 f2 * (f1 k1 * (f0 k0 * (cs n3 f3 * e))))%C; [ring|].
  rewrite <- cs_scal_r. apply cs_ext. intros k2 _.
  transitivity (cs n3 f3 * (f2 k2 * (f1 k1 * (f0 k0 * e))))%C; [ring|].
  rewrite <- cs_scal_r. apply cs_ext. intros k3 _. ring.
Qed.
Lemma com_sum4 n0 n1 n2 n3 (H : nat -> nat -> nat -> nat -> C -> C -> C) v :
  (forall k0 k1 k2 k3, (k0 < n0)%nat -> (k1 < n1)%nat -> (k2 < n2)%nat -> (k3 < n3)%nat -> com_integral (H k0 k1 k2 k3) (RtoC (v k0 k1 k2 k3))) ->
  com_integral (fun X x => cs n0 (fun k0 => cs n1 (fun k1 => cs n2 (fun k2 => cs n3 (fun k3 => H k0 k1 k2 k3 X x)))))
    (RtoC (rsum n0 (fun k0 => rsum n1 (fun k1 => rsum n2 (fun k2 => rsum n3 (fun k3 => v k0 k1 k2 k3)))))).
Proof.
  intros E. rewrite <- cs_R. apply com_sum. intros k0 H0. rewrite <- cs_R. apply com_sum. intros k1 H1.
  rewrite <- cs_R. apply com_sum. intros k2 H2. rewrite <- cs_R. apply com_sum. intros k3 H3. apply E; assumption.
Qed.

Section Pair.
  Variables mass omega : R.
  Hypothesis Hm : 0 < mass.
  Hypothesis Hw : 0 < omega.
  Let a := bohr_radius mass omega.
  Lemma pair_a_pos : 0 < a.
  Proof. unfold a, bohr_radius. apply sqrt_lt_R0. apply Rmult_lt_0_compat; assumption. Qed.
  Definition b1 : R := sqrt 2 * a.
  Definition b2 : R := a / sqrt 2.
  Lemma sqrt2_pos : 0 < sqrt 2.
  Proof. apply sqrt_lt_R0. lra. Qed.
  Lemma sqrt2_sq : sqrt 2 * sqrt 2 = 2.
  Proof. apply sqrt_sqrt. lra. Qed.
  Lemma b1_pos : 0 < b1.
  Proof. unfold b1. pose proof sqrt2_pos. pose proof pair_a_pos. nra. Qed.
  Lemma b2_pos : 0 < b2.
  Proof. unfold b2. pose proof sqrt2_pos. pose proof pair_a_pos. apply Rdiv_lt_0_compat; assumption. Qed.

  Definition kmono (g0 g1 g2 g3 : nat) (x1 x2 : C) : C :=
    (cp (Cconj x1) g0 * cp (Cconj x2) g1 * cp x2 g2 * cp x1 g3 * RtoC (exp (- (a ^ 2 * (norm2 x1 + norm2 x2)))))%C.
  Definition kcoef (g0 g1 g2 g3 l0 l1 l2 l3 : nat) : R :=
    binom g0 l0 * binom g1 l1 * binom g2 l2 * binom g3 l3
    * ((/ 2) ^ (g0 - l0) * (- / 2) ^ (g1 - l1) * (- / 2) ^ (g2 - l2) * (/ 2) ^ (g3 - l3)).
  Lemma gauss_split X x : exp (- (a ^ 2 * (norm2 (X + x / RtoC 2)%C + norm2 (X - x / RtoC 2)%C))) = gauss b1 X * gauss b2 x.
  Proof.
    unfold gauss. rewrite <- exp_plus. f_equal. unfold b1, b2. rewrite Rpow_mult_distr. unfold Rdiv. rewrite Rpow_mult_distr, pow_inv.
    replace (sqrt 2 ^ 2) with 2 by (cbn [pow]; rewrite Rmult_1_r; symmetry; apply sqrt2_sq).
    destruct X as [X Y], x as [x y]. unfold norm2, Cdiv, Cminus, Cplus, Copp, Cmult, Cinv, RtoC. cbn [fst snd]. field.
  Qed.
  Lemma shift_plus X x : (X + x / RtoC 2)%C = (X + RtoC (/ 2) * x)%C.
  Proof. destruct X as [X Y], x as [x y]. unfold Cdiv, Cplus, Cmult, Cinv, RtoC. cbn [fst snd]. f_equal; field. Qed.
  Lemma shift_minus X x : (X - x / RtoC 2)%C = (X + RtoC (- / 2) * x)%C.
  Proof. destruct X as [X Y], x as [x y]. unfold Cdiv, Cminus, Cplus, Copp, Cmult, Cinv, RtoC. cbn [fst snd]. f_equal; field. Qed.
  Lemma kmono_expand g0 g1 g2 g3 X x :
    kmono g0 g1 g2 g3 (X + x / RtoC 2)%C (X - x / RtoC 2)%C
    = cs (g0 + 1) (fun l0 => cs (g1 + 1) (fun l1 => cs (g2 + 1) (fun l2 => cs (g3 + 1) (fun l3 =>
        (RtoC (kcoef g0 g1 g2 g3 l0 l1 l2 l3) *
         ((cp X (l2 + l3) * cp (Cconj X) (l0 + l1) * RtoC (gauss b1 X)) *
          (cp x (g2 - l2 + (g3 - l3)) * cp (Cconj x) (g0 - l0 + (g1 - l1)) * RtoC (gauss b2 x))))%C)))).
  Proof.
    unfold kmono. rewrite gauss_split, shift_plus, shift_minus, !conj_add, !conj_mul, !conj_R, !cp_sum, cs_prod4.
    apply cs_ext. intros l0 _. apply cs_ext. intros l1 _. apply cs_ext. intros l2 _. apply cs_ext. intros l3 _.
    rewrite !cp_mul, !cp_R, !cp_add. unfold kcoef. rewrite !RtoC_mult. ring.
  Qed.
  Definition kvalue (g0 g1 g2 g3 : nat) : R :=
    rsum (g0 + 1) (fun l0 => rsum (g1 + 1) (fun l1 => rsum (g2 + 1) (fun l2 => rsum (g3 + 1) (fun l3 =>
      kcoef g0 g1 g2 g3 l0 l1 l2 l3 *
      ((angle (l2 + l3) (l0 + l1) * moment b1 (S (l2 + l3 + (l0 + l1)))) *
       (angle (g2 - l2 + (g3 - l3)) (g0 - l0 + (g1 - l1)) * moment b2 (g2 - l2 + (g3 - l3) + (g0 - l0 + (g1 - l1))))))))).
  Lemma kmono_integral g0 g1 g2 g3 : com_integral (fun X x => kmono g0 g1 g2 g3 (X + x / RtoC 2)%C (X - x / RtoC 2)%C) (RtoC (kvalue g0 g1 g2 g3)).
  Proof.
    eapply com_ext; [intros X x; symmetry; apply kmono_expand|]. unfold kvalue. apply com_sum4. intros l0 l1 l2 l3 _ _ _ _.
    rewrite RtoC_mult. apply com_scal. rewrite RtoC_mult.
    apply (com_prod (fun X => (cp X (l2 + l3) * cp (Cconj X) (l0 + l1) * RtoC (gauss b1 X))%C)
      (fun x => (cp x (g2 - l2 + (g3 - l3)) * cp (Cconj x) (g0 - l0 + (g1 - l1)) * RtoC (gauss b2 x))%C)).
    - apply centre_power, b1_pos.
    - apply separation_power, b2_pos.
  Qed.
  Lemma neg_half_pow n : (- / 2) ^ n = (-1) ^ n * (/ 2) ^ n.
  Proof. rewrite <- Rpow_mult_distr. f_equal. ring. Qed.
  Lemma powers L D : / (2 * b1 ^ (L + 2)) * / (2 * b2 ^ (D + 1)) * (/ 2) ^ D = / 4 * (/ a ^ (L + D + 3) * / sqrt (2 ^ (L + D + 1))).
  Proof.
    assert (Q : forall n, sqrt (2 ^ n) = sqrt 2 ^ n).
    { intros n. induction n as [|n IH]; cbn [pow]; [apply sqrt_1|]. rewrite sqrt_mult, IH; [reflexivity | lra | apply pow_le; lra]. }
    rewrite Q. unfold b1, b2. pose proof sqrt2_pos as P. pose proof pair_a_pos as Pa.
    replace ((/ 2) ^ D) with (/ (sqrt 2 ^ D * sqrt 2 ^ D)) by (rewrite <- Rpow_mult_distr, sqrt2_sq, pow_inv; reflexivity).
    unfold Rdiv. rewrite !Rpow_mult_distr, pow_inv, !pow_add.
    assert (N1 : sqrt 2 ^ L <> 0) by (apply pow_nonzero; lra). assert (N2 : sqrt 2 ^ D <> 0) by (apply pow_nonzero; lra).
    assert (N3 : a ^ L <> 0) by (apply pow_nonzero; lra). assert (N4 : a ^ D <> 0) by (apply pow_nonzero; lra).
    cbn [pow]. rewrite !Rmult_1_r. field. repeat split; try assumption; lra.
  Qed.
  Lemma kvalue_ok g0 g1 g2 g3 : kvalue g0 g1 g2 g3 =
    if Nat.eq_dec (g0 + g1) (g2 + g3) then PI ^ 2 / a ^ (g0 + g1 + g2 + g3 + 3) * term g0 g1 g2 g3 else 0.
  Proof.
    unfold kvalue. destruct (Nat.eq_dec (g0 + g1) (g2 + g3)) as [E|E].
    - unfold term, inner_sum. rewrite <- Rmult_assoc. rewrite <- rsum_scal. apply rsum_ext. intros l0 H0. rewrite <- rsum_scal. apply rsum_ext. intros l1 H1.
      rewrite <- rsum_scal. apply rsum_ext. intros l2 H2. rewrite <- rsum_scal. apply rsum_ext. intros l3 H3.
      unfold angle. destruct (Nat.eq_dec (l0 + l1) (l2 + l3)) as [F|F].
      + rewrite (proj2 (Nat.eqb_eq (l2 + l3) (l0 + l1))) by lia. rewrite (proj2 (Nat.eqb_eq (g2 - l2 + (g3 - l3)) (g0 - l0 + (g1 - l1)))) by lia.
        cbv iota. unfold kcoef, moment. rewrite !binom_C by lia. rewrite !neg_half_pow.
        set (L := (l0 + l1 + l2 + l3)%nat). set (D := (g0 - l0 + (g1 - l1) + (g2 - l2) + (g3 - l3))%nat).
        replace (S (S (l2 + l3 + (l0 + l1)))) with (L + 2)%nat by (unfold L; lia).
        replace (S (g2 - l2 + (g3 - l3) + (g0 - l0 + (g1 - l1)))) with (D + 1)%nat by (unfold D; lia).
        replace (2 + L)%nat with (L + 2)%nat by lia. replace (g0 + g1 + g2 + g3 - L + 1)%nat with (D + 1)%nat by (unfold L, D; lia).
        replace (g0 + g1 + g2 + g3 + 3)%nat with (L + D + 3)%nat by (unfold L, D; lia). replace (g0 + g1 + g2 + g3 + 1)%nat with (L + D + 1)%nat by (unfold L, D; lia).
        replace (g1 + g2 - l1 - l2)%nat with (g1 - l1 + (g2 - l2))%nat by lia. rewrite (pow_add (-1)).
        pose proof (powers L D) as P.
        assert (P2 : (/ 2) ^ D = (/ 2) ^ (g0 - l0) * (/ 2) ^ (g1 - l1) * (/ 2) ^ (g2 - l2) * (/ 2) ^ (g3 - l3)) by (unfold D; rewrite !pow_add; ring).
        rewrite P2 in P. unfold Rdiv.
        transitivity (binom g0 l0 * binom g1 l1 * binom g2 l2 * binom g3 l3 * ((-1) ^ (g1 - l1) * (-1) ^ (g2 - l2)) * gamma2 (L + 2) * gamma2 (D + 1) * (4 * PI ^ 2)
          * (/ (2 * b1 ^ (L + 2)) * / (2 * b2 ^ (D + 1)) * ((/ 2) ^ (g0 - l0) * (/ 2) ^ (g1 - l1) * (/ 2) ^ (g2 - l2) * (/ 2) ^ (g3 - l3)))); [ring|].
        rewrite P. field. split; [apply Rgt_not_eq, sqrt_lt_R0, pow_lt; lra | apply pow_nonzero; pose proof pair_a_pos; lra].
      + rewrite (proj2 (Nat.eqb_neq (l2 + l3) (l0 + l1))) by lia. cbv iota. ring.
    - rewrite (rsum_ext _ _ (fun _ => 0)); [apply rsum_zero|]. intros l0 H0. rewrite (rsum_ext _ _ (fun _ => 0)); [apply rsum_zero|]. intros l1 H1.
      rewrite (rsum_ext _ _ (fun _ => 0)); [apply rsum_zero|]. intros l2 H2. rewrite (rsum_ext _ _ (fun _ => 0)); [apply rsum_zero|]. intros l3 H3.
      unfold angle. destruct (Nat.eqb_spec (l2 + l3) (l0 + l1)) as [F|F]; [|ring].
      rewrite (proj2 (Nat.eqb_neq (g2 - l2 + (g3 - l3)) (g0 - l0 + (g1 - l1)))) by lia. cbv iota. ring.
  Qed.

  (** ** The orbitals as polynomials times a Gaussian *)
  Definition ocoef (n : nat) (m : Z) (j : nat) : R := spf_norm n m mass omega * a ^ (Z.abs_nat m + 2 * j) * weight n m j.
  Definition psi (n : nat) (m : Z) (z : C) : C :=
    (cs (n + 1) (fun j => RtoC (ocoef n m j) * (cp z (j + mplus m) * cp (Cconj z) (j + mminus m))) * RtoC (exp (- (a ^ 2 * norm2 z) / 2)))%C.
  Lemma m_split m : (Z.of_nat (mplus m) - Z.of_nat (mminus m) = m)%Z /\ (mplus m + mminus m)%nat = Z.abs_nat m.
  Proof. unfold mplus, mminus. lia. Qed.
  Lemma psi_polar n m r t : spf_state n m mass omega r t = psi n m (point r t).
  Proof.
    unfold spf_state, psi, spf_radial. fold a. rewrite norm2_point.
    replace (- a ^ 2 * r ^ 2 / 2) with (- (a ^ 2 * r ^ 2) / 2) by field.
    rewrite !RtoC_mult. set (e := RtoC (exp _)). unfold laguerre. rewrite <- rsum_sigma, <- cs_R.
    transitivity (RtoC (spf_norm n m mass omega) * spf_theta t m * RtoC ((a * r) ^ Z.abs_nat m) *
      cs (n + 1) (fun k : nat => RtoC ((-1) ^ k * (INR (fact (n + Z.abs_nat m)) / (INR (fact (n - k)) * INR (fact (Z.abs_nat m + k)) * INR (fact k))) * (a ^ 2 * r ^ 2) ^ k)) * e)%C; [ring|].
    rewrite <- cs_scal. f_equal. apply cs_ext. intros j Hj.
    rewrite monomial. destruct (m_split m) as [S1 S2].
    replace (Z.of_nat (j + mplus m) - Z.of_nat (j + mminus m))%Z with m by lia. replace (j + mplus m + (j + mminus m))%nat with (Z.abs_nat m + 2 * j)%nat by lia.
    unfold ocoef.
    replace (weight n m j) with ((-1) ^ j * (INR (fact (n + Z.abs_nat m)) / (INR (fact (n - j)) * INR (fact (Z.abs_nat m + j)) * INR (fact j)))).
    2:{ unfold weight, Binomial.C. replace (n + Z.abs_nat m - (n - j))%nat with (Z.abs_nat m + j)%nat by lia.
        pose proof (fact_pos j). pose proof (fact_pos (n - j)). pose proof (fact_pos (Z.abs_nat m + j)). field. repeat split; lra. }
    rewrite !pow_add, !pow_mult, !Rpow_mult_distr, !RtoC_mult. ring.
  Qed.
  Lemma polar (z : C) : exists r t, 0 <= r /\ z = point r t.
  Proof.
    destruct z as [x y]. set (r := sqrt (x ^ 2 + y ^ 2)). exists r.
    assert (Hr : 0 <= r) by apply sqrt_pos.
    assert (R2 : r * r = x ^ 2 + y ^ 2) by (apply sqrt_sqrt; pose proof (pow2_ge_0 x); pose proof (pow2_ge_0 y); lra).
    destruct (Req_dec r 0) as [Z|NZ].
    - exists 0. split; [exact Hr|]. rewrite Z in *. assert (x = 0 /\ y = 0) as [-> ->] by (pose proof (pow2_ge_0 x); pose proof (pow2_ge_0 y); split; apply Rsqr_0_uniq; unfold Rsqr; nra).
      unfold point. f_equal; ring.
    - assert (P : 0 < r) by lra.
      assert (B : -1 <= x / r <= 1).
      { assert (x ^ 2 <= r ^ 2) by (pose proof (pow2_ge_0 y); nra).
        assert (- r <= x <= r) by (split; [apply Rsqr_neg_pos_le_0 | apply Rsqr_incr_0_var]; unfold Rsqr; nra).
        split; (apply Rmult_le_reg_r with r; [exact P|]; unfold Rdiv; rewrite Rmult_assoc, Rinv_l by lra; lra). }
      assert (Sn : sin (acos (x / r)) = Rabs y / r).
      { rewrite sin_acos by exact B. replace (1 - (x / r)²) with (Rsqr (y / r)).
        - rewrite sqrt_Rsqr_abs. unfold Rdiv. rewrite Rabs_mult, (Rabs_right (/ r)); [reflexivity|]. apply Rle_ge, Rlt_le, Rinv_0_lt_compat, P.
        - unfold Rsqr. replace (1 - x / r * (x / r)) with ((r * r - x ^ 2) / (r * r)) by (field; lra). replace (r * r - x ^ 2) with (y ^ 2) by lra. field. lra. }
      destruct (Rle_dec 0 y) as [Hy|Hy].
      + exists (acos (x / r)). split; [exact Hr|]. unfold point. rewrite cos_acos, Sn by exact B. rewrite Rabs_right by lra. f_equal; field; lra.
      + exists (- acos (x / r)). split; [exact Hr|]. unfold point. rewrite cos_neg, sin_neg, cos_acos, Sn by exact B. rewrite Rabs_left by lra. f_equal; field; lra.
  Qed.
  Lemma psi_on_plane n m : on_plane (spf_state n m mass omega) (psi n m).
  Proof. intros r t _. symmetry. apply psi_polar. Qed.
  Lemma on_plane_psi n m F : on_plane (spf_state n m mass omega) F -> forall z, F z = psi n m z.
  Proof. intros H z. destruct (polar z) as (r & t & Hr & ->). rewrite (H r t Hr). apply psi_polar. Qed.
  Lemma psi_conj n m z : Cconj (psi n m z) =
    (cs (n + 1) (fun j => RtoC (ocoef n m j) * (cp (Cconj z) (j + mplus m) * cp z (j + mminus m))) * RtoC (exp (- (a ^ 2 * norm2 z) / 2)))%C.
  Proof.
    unfold psi. rewrite conj_mul, cs_conj, conj_R. f_equal. apply cs_ext. intros j _. rewrite !conj_mul, conj_R, !cp_conj, conj_conj. reflexivity.
  Qed.
  (** States in the order of the article: 0 and 3 belong to x_1, 1 and 2 to x_2 *)
  Lemma pair_expand n0 m0 n1 m1 n2 m2 n3 m3 x1 x2 :
    (Cconj (psi n0 m0 x1) * Cconj (psi n1 m1 x2) * psi n3 m3 x1 * psi n2 m2 x2)%C
    = cs (n0 + 1) (fun j0 => cs (n1 + 1) (fun j1 => cs (n2 + 1) (fun j2 => cs (n3 + 1) (fun j3 =>
        (RtoC (ocoef n0 m0 j0 * ocoef n1 m1 j1 * ocoef n2 m2 j2 * ocoef n3 m3 j3) *
         kmono (j0 + j3 + mplus m0 + mminus m3) (j1 + j2 + mplus m1 + mminus m2) (j1 + j2 + mplus m2 + mminus m1) (j0 + j3 + mplus m3 + mminus m0) x1 x2)%C)))).
  Proof.
    rewrite !psi_conj. unfold psi.
    set (e1 := exp (- (a ^ 2 * norm2 x1) / 2)). set (e2 := exp (- (a ^ 2 * norm2 x2) / 2)).
    assert (E : exp (- (a ^ 2 * (norm2 x1 + norm2 x2))) = e1 * e1 * (e2 * e2)) by (unfold e1, e2; rewrite <- !exp_plus; f_equal; field).
    set (s0 := cs (n0 + 1) _). set (s1 := cs (n1 + 1) _). set (s3 := cs (n3 + 1) _). set (s2 := cs (n2 + 1) _).
    transitivity (s0 * s1 * s2 * s3 * RtoC (e1 * e1 * (e2 * e2)))%C; [rewrite !RtoC_mult; ring|].
    unfold s0, s1, s2, s3. rewrite cs_prod4.
    apply cs_ext. intros j0 _. apply cs_ext. intros j1 _. apply cs_ext. intros j2 _. apply cs_ext. intros j3 _.
    unfold kmono. rewrite E, !cp_add, !RtoC_mult. ring.
  Qed.
  Lemma sqrt_prod5 q0 q1 q2 q3 q4 : 0 <= q0 -> 0 <= q1 -> 0 <= q2 -> 0 <= q3 -> sqrt q0 * sqrt q1 * sqrt q2 * sqrt q3 * sqrt q4 = sqrt (q0 * q1 * q2 * q3 * q4).
  Proof. intros H0 H1 H2 H3. rewrite !sqrt_mult_alt by (repeat apply Rmult_le_pos; assumption). reflexivity. Qed.
  Lemma norm_product4 n0 m0 n1 m1 n2 m2 n3 m3 :
    spf_norm n0 m0 mass omega * spf_norm n1 m1 mass omega * spf_norm n2 m2 mass omega * spf_norm n3 m3 mass omega * PI ^ 2
    = a ^ 4 * norm4 n0 m0 n1 m1 n2 m2 n3 m3.
  Proof.
    unfold spf_norm. fold a. unfold norm4.
    assert (P : forall n m, 0 <= INR (fact n) / (PI * INR (fact (n + Z.abs_nat m)))).
    { intros n m. apply Rlt_le, Rdiv_lt_0_compat; [apply fact_pos|]. apply Rmult_lt_0_compat; [apply PI_RGT_0 | apply fact_pos]. }
    transitivity (a ^ 4 * (sqrt (INR (fact n0) / (PI * INR (fact (n0 + Z.abs_nat m0)))) * sqrt (INR (fact n1) / (PI * INR (fact (n1 + Z.abs_nat m1))))
      * sqrt (INR (fact n2) / (PI * INR (fact (n2 + Z.abs_nat m2)))) * sqrt (INR (fact n3) / (PI * INR (fact (n3 + Z.abs_nat m3)))) * sqrt ((PI ^ 2) ^ 2))).
    { rewrite sqrt_pow2 by (apply pow_le, Rlt_le, PI_RGT_0). ring. }
    f_equal. pose proof (P n0 m0) as P0. pose proof (P n1 m1) as P1. pose proof (P n2 m2) as P2. pose proof (P n3 m3) as P3.
    rewrite sqrt_prod5 by assumption.
    f_equal. pose proof PI_RGT_0. pose proof (fact_pos (n0 + Z.abs_nat m0)). pose proof (fact_pos (n1 + Z.abs_nat m1)). pose proof (fact_pos (n2 + Z.abs_nat m2)). pose proof (fact_pos (n3 + Z.abs_nat m3)).
    field. repeat split; lra.
  Qed.
  Lemma pair_integral n0 m0 n1 m1 n2 m2 n3 m3 :
    interaction (psi n0 m0) (psi n1 m1) (psi n3 m3) (psi n2 m2) (RtoC (a * coulomb_ho n0 m0 n1 m1 n3 m3 n2 m2)).
  Proof.
    change (com_integral (fun X x => (Cconj (psi n0 m0 (X + x / RtoC 2)) * Cconj (psi n1 m1 (X - x / RtoC 2)) * psi n3 m3 (X + x / RtoC 2) * psi n2 m2 (X - x / RtoC 2))%C)
      (RtoC (a * coulomb_ho n0 m0 n1 m1 n3 m3 n2 m2))).
    eapply com_ext; [intros X x; symmetry; apply pair_expand|].
    set (c := fun j0 j1 j2 j3 => ocoef n0 m0 j0 * ocoef n1 m1 j1 * ocoef n2 m2 j2 * ocoef n3 m3 j3).
    set (k := fun (j0 j1 j2 j3 : nat) => kvalue (j0 + j3 + mplus m0 + mminus m3) (j1 + j2 + mplus m1 + mminus m2) (j1 + j2 + mplus m2 + mminus m1) (j0 + j3 + mplus m3 + mminus m0)).
    apply (com_val _ (RtoC (rsum (n0 + 1) (fun j0 => rsum (n1 + 1) (fun j1 => rsum (n2 + 1) (fun j2 => rsum (n3 + 1) (fun j3 => c j0 j1 j2 j3 * k j0 j1 j2 j3))))))).
    { apply (com_sum4 (n0 + 1) (n1 + 1) (n2 + 1) (n3 + 1)
        (fun j0 j1 j2 j3 X x => (RtoC (c j0 j1 j2 j3) * kmono (j0 + j3 + mplus m0 + mminus m3) (j1 + j2 + mplus m1 + mminus m2) (j1 + j2 + mplus m2 + mminus m1) (j0 + j3 + mplus m3 + mminus m0) (X + x / RtoC 2) (X - x / RtoC 2))%C)
        (fun j0 j1 j2 j3 => c j0 j1 j2 j3 * k j0 j1 j2 j3)).
      intros j0 j1 j2 j3 _ _ _ _. rewrite RtoC_mult. apply com_scal. apply kmono_integral. }
    unfold c, k. clear c k.
    f_equal. destruct (m_split m0) as [S0 A0], (m_split m1) as [S1 A1], (m_split m2) as [S2 A2], (m_split m3) as [S3 A3].
    destruct (Z.eq_dec (m0 + m1) (m2 + m3)) as [E|E].
    - rewrite coulomb_closed by exact E. unfold closed. rewrite <- Rmult_assoc, <- rsum_scal.
      apply rsum_ext. intros j0 H0. rewrite <- rsum_scal. apply rsum_ext. intros j1 H1. rewrite <- rsum_scal. apply rsum_ext. intros j2 H2. rewrite <- rsum_scal. apply rsum_ext. intros j3 H3.
      rewrite kvalue_ok. destruct (Nat.eq_dec _ _) as [F|F]; [|exfalso; lia].
      set (t := term _ _ _ _). unfold ocoef.
      replace (j0 + j3 + mplus m0 + mminus m3 + (j1 + j2 + mplus m1 + mminus m2) + (j1 + j2 + mplus m2 + mminus m1) + (j0 + j3 + mplus m3 + mminus m0) + 3)%nat
        with ((Z.abs_nat m0 + 2 * j0) + (Z.abs_nat m1 + 2 * j1) + (Z.abs_nat m2 + 2 * j2) + (Z.abs_nat m3 + 2 * j3) + 3)%nat by lia.
      rewrite !pow_add with (m := 3%nat). rewrite (pow_add a (_ + _ + _) (Z.abs_nat m3 + 2 * j3)), (pow_add a (_ + _) (Z.abs_nat m2 + 2 * j2)), (pow_add a _ (Z.abs_nat m1 + 2 * j1)).
      pose proof (norm_product4 n0 m0 n1 m1 n2 m2 n3 m3) as NP. pose proof pair_a_pos as Pa.
      assert (NZ : forall k, a ^ k <> 0) by (intros; apply pow_nonzero; lra).
      set (p0 := a ^ (Z.abs_nat m0 + 2 * j0)) in *. set (p1 := a ^ (Z.abs_nat m1 + 2 * j1)) in *. set (p2 := a ^ (Z.abs_nat m2 + 2 * j2)) in *. set (p3 := a ^ (Z.abs_nat m3 + 2 * j3)) in *.
      transitivity ((spf_norm n0 m0 mass omega * spf_norm n1 m1 mass omega * spf_norm n2 m2 mass omega * spf_norm n3 m3 mass omega * PI ^ 2) / a ^ 3
        * (weight n0 m0 j0 * weight n1 m1 j1 * weight n2 m2 j2 * weight n3 m3 j3 * t)).
      + field. repeat split; try apply NZ. lra.
      + rewrite NP. field. lra.
    - rewrite coulomb_zero by exact E. rewrite Rmult_0_r.
      rewrite (rsum_ext _ _ (fun _ => 0)); [apply rsum_zero|]. intros j0 H0. rewrite (rsum_ext _ _ (fun _ => 0)); [apply rsum_zero|]. intros j1 H1.
      rewrite (rsum_ext _ _ (fun _ => 0)); [apply rsum_zero|]. intros j2 H2. rewrite (rsum_ext _ _ (fun _ => 0)); [apply rsum_zero|]. intros j3 H3.
      rewrite kvalue_ok. destruct (Nat.eq_dec _ _) as [F|F]; [exfalso; lia | ring].
  Qed.
End Pair.
