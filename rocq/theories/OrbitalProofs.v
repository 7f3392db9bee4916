(** Matrix elements between the oscillator functions. *)
From Coq Require Import ZArith Reals Lra Lia Arith Bool.
From Coquelicot Require Import Coquelicot.
From Verif Require Import TwoDim Angular AngularSpec AngularProofs Gauss Moments Coulomb Orbitals OrbitalSpec Laguerre.
Open Scope R_scope.

Lemma half_line_sum2 (f : nat -> nat -> R -> R) u n m : (forall i j, (i <= n)%nat -> (j <= m)%nat -> half_line (f i j) (u i j)) ->
  half_line (fun x => sum_f_R0 (fun i => sum_f_R0 (fun j => f i j x) m) n) (sum_f_R0 (fun i => sum_f_R0 (u i) m) n).
Proof. intros H. apply (half_line_sum (fun i x => sum_f_R0 (fun j => f i j x) m)). intros i Hi. apply half_line_sum. intros j Hj. apply H; assumption. Qed.
Lemma sum_prod f g n m : sum_f_R0 f n * sum_f_R0 g m = sum_f_R0 (fun i => sum_f_R0 (fun j => f i * g j) m) n.
Proof. rewrite <- sum_scal_r. apply sum_ext. intros i _. rewrite <- sum_scal. reflexivity. Qed.

Section Radial.
  Variables mass omega : R.
  Hypotheses (Hm : 0 < mass) (Hw : 0 < omega).
  Notation a := (bohr_radius mass omega).
  Lemma a_pos : 0 < a.
  Proof. apply sqrt_lt_R0, Rmult_lt_0_compat; assumption. Qed.

  Definition radial_value (n : nat) (k : nat) (n' k' o : nat) : R :=
    sum_f_R0 (fun i => sum_f_R0 (fun j => lag n k i * lag n' k' j * a ^ (k + k' + 2 * (i + j)) * moment a (1 + o + (k + k' + 2 * (i + j)))) n') n.
  Lemma radial_product n m n' m' o r :
    r * r ^ o * spf_radial n m mass omega r * spf_radial n' m' mass omega r =
    sum_f_R0 (fun i => sum_f_R0 (fun j => lag n (Z.abs_nat m) i * lag n' (Z.abs_nat m') j * a ^ (Z.abs_nat m + Z.abs_nat m' + 2 * (i + j))
      * (r ^ (1 + o + (Z.abs_nat m + Z.abs_nat m' + 2 * (i + j))) * exp (- (a ^ 2 * r ^ 2)))) n') n.
  Proof.
    unfold spf_radial. set (k := Z.abs_nat m). set (k' := Z.abs_nat m'). set (c := a).
    replace (exp (- (c ^ 2 * r ^ 2))) with (exp (- c ^ 2 * r ^ 2 / 2) * exp (- c ^ 2 * r ^ 2 / 2)) by (rewrite <- exp_plus; f_equal; field).
    set (e := exp (- c ^ 2 * r ^ 2 / 2)).
    transitivity (r * r ^ o * (c * r) ^ k * (c * r) ^ k' * (e * e) * (laguerre n k (c ^ 2 * r ^ 2) * laguerre n' k' (c ^ 2 * r ^ 2))); [ring|].
    unfold laguerre. rewrite sum_prod, <- sum_scal. apply sum_ext. intros i _. rewrite <- sum_scal. apply sum_ext. intros j _.
    fold (lag n k i). fold (lag n' k' j).
    replace (c ^ (k + k' + 2 * (i + j))) with (c ^ k * c ^ k' * ((c ^ 2) ^ i * (c ^ 2) ^ j)) by (rewrite !pow_add, pow_mult, pow_add; ring).
    replace (r ^ (1 + o + (k + k' + 2 * (i + j)))) with (r * r ^ o * (r ^ k * r ^ k') * ((r ^ 2) ^ i * (r ^ 2) ^ j)) by (rewrite !pow_add, pow_mult, pow_add; cbn [pow]; ring).
    rewrite !Rpow_mult_distr. ring.
  Qed.
  Lemma radial_half_line n m n' m' o :
    half_line (fun r => r * r ^ o * spf_radial n m mass omega r * spf_radial n' m' mass omega r) (radial_value n (Z.abs_nat m) n' (Z.abs_nat m') o).
  Proof.
    eapply half_line_ext; [intros r _; symmetry; apply radial_product|]. apply half_line_sum2. intros i j _ _. apply half_line_scal. apply moment_ok. apply a_pos.
  Qed.
  Lemma radial_integral_value n m n' m' o :
    radial_integral (spf_radial n m mass omega) (spf_radial n' m' mass omega) o = radial_value n (Z.abs_nat m) n' (Z.abs_nat m') o.
  Proof. apply (is_RInt_gen_unique (V := R_CompleteNormedModule)). apply radial_half_line. Qed.
  Lemma radial_integral_ok n m n' m' o :
    half_line (fun r => r * r ^ o * spf_radial n m mass omega r * spf_radial n' m' mass omega r)
      (radial_integral (spf_radial n m mass omega) (spf_radial n' m' mass omega) o).
  Proof. rewrite radial_integral_value. apply radial_half_line. Qed.

  Lemma gamma_fact s : gamma2 (S (S (2 * s))) = INR (fact s).
  Proof.
    induction s as [|s IH]; [reflexivity|]. replace (S (S (2 * S s))) with (S (S (S (S (2 * s))))) by lia.
    change (gamma2 (S (S (S (S (2 * s)))))) with (INR (S (S (2 * s))) / 2 * gamma2 (S (S (2 * s)))). rewrite IH, fact_S.
    replace (S (S (2 * s))) with (2 * S s)%nat by lia. rewrite mult_INR. cbn [INR]. field.
  Qed.
  Lemma radial_overlap n n' m m' : Z.abs_nat m = Z.abs_nat m' ->
    radial_integral (spf_radial n m mass omega) (spf_radial n' m' mass omega) 0 =
    (if (n' =? n)%nat then INR (fact (n + Z.abs_nat m)) / INR (fact n) else 0) / (2 * a ^ 2).
  Proof.
    intros E. rewrite radial_integral_value, <- E. rewrite <- lag_orthogonal. unfold radial_value, lag_product, Rdiv. rewrite <- sum_scal_r. apply sum_ext. intros i _. rewrite <- sum_scal_r. apply sum_ext. intros j _.
    set (k := Z.abs_nat m). unfold moment. replace (S (1 + 0 + (k + k + 2 * (i + j)))) with (S (S (2 * (i + j + k)))) by lia. rewrite gamma_fact.
    replace (k + k + 2 * (i + j))%nat with (2 * (i + j + k))%nat by lia. pose proof a_pos. cbn [pow]. field. repeat split; try apply pow_nonzero; lra.
  Qed.
  Lemma norm_product n m : spf_norm n m mass omega * spf_norm n m mass omega = a ^ 2 * (INR (fact n) / (PI * INR (fact (n + Z.abs_nat m)))).
  Proof.
    unfold spf_norm. set (x := INR (fact n) / (PI * INR (fact (n + Z.abs_nat m)))). transitivity (a ^ 2 * (sqrt x * sqrt x)); [ring|]. rewrite sqrt_sqrt; [reflexivity|].
    unfold x. apply Rdiv_le_0_compat; [left; apply fact_pos|]. apply Rmult_lt_0_compat; [apply PI_RGT_0 | apply fact_pos].
  Qed.

  (** ** Plane integrals *)
  Definition elem (n : nat) (m : Z) (n' : nat) (m' : Z) (o : nat) (v : C) : C :=
    (RtoC (spf_norm n m mass omega * spf_norm n' m' mass omega * radial_integral (spf_radial n m mass omega) (spf_radial n' m' mass omega) o) * v)%C.
  Lemma plane_elem n m n' m' o (w : R -> R) (V : R -> R -> R) v :
    (forall r t, 0 <= r -> V (r * cos t) (r * sin t) = r ^ o * w t) -> angular_integral w m m' v ->
    matrix_element (spf_state n m mass omega) (spf_state n' m' mass omega) V (elem n m n' m' o v).
  Proof.
    intros HV Hv. set (N := spf_norm n m mass omega * spf_norm n' m' mass omega).
    exists (fun r => (RtoC (N * (r ^ o * spf_radial n m mass omega r * spf_radial n' m' mass omega r)) * v)%C).
    split; [|split].
    - intros r Hr. set (c := N * (r ^ o * spf_radial n m mass omega r * spf_radial n' m' mass omega r)).
      replace (RtoC c * v)%C with (scal c v) by (destruct v; unfold scal; cbn; unfold prod_scal, RtoC, Cmult, scal; cbn; unfold mult; cbn; f_equal; ring).
      eapply is_RInt_ext; [|apply (is_RInt_scal (V := C_R_NormedModule)); exact Hv].
      intros t _. rewrite HV by exact Hr. unfold spf_state, spf_theta, cis, c, N. unfold scal; cbn; unfold prod_scal, RtoC, Cmult, Cconj, scal; cbn; unfold mult; cbn. f_equal; ring.
    - unfold elem. fold N. eapply half_line_val; [eapply half_line_ext; [|apply (half_line_scal (N * fst v)); apply (radial_integral_ok n m n' m' o)]|].
      + intros r _. unfold RtoC, Cmult. cbn. ring.
      + unfold RtoC, Cmult. cbn. ring.
    - unfold elem. fold N. eapply half_line_val; [eapply half_line_ext; [|apply (half_line_scal (N * snd v)); apply (radial_integral_ok n m n' m' o)]|].
      + intros r _. unfold RtoC, Cmult. cbn. ring.
      + unfold RtoC, Cmult. cbn. ring.
  Qed.

  Lemma angular_one m m' : angular_integral (fun _ => 1) m m' (RtoC (if (m =? m')%Z then 2 * PI else 0)).
  Proof.
    apply angular_of.
    - eapply is_RInt_val; [eapply is_RInt_ext; [|apply turn_cos]; intros x _; symmetry; apply Rmult_1_l|]. unfold turn. destruct (Z.eqb_spec (m' - m) 0); destruct (Z.eqb_spec m m'); try lia; reflexivity.
    - eapply is_RInt_ext; [|apply turn_sin]. intros x _. symmetry. apply Rmult_1_l.
  Qed.
  Lemma orthonormal n m n' m' :
    matrix_element (spf_state n m mass omega) (spf_state n' m' mass omega) (fun _ _ => 1) (if (n =? n')%nat && (m =? m')%Z then RtoC 1 else RtoC 0).
  Proof.
    pose proof (plane_elem n m n' m' 0 (fun _ => 1) (fun _ _ => 1) _ ltac:(intros; cbn; ring) (angular_one m m')) as P.
    replace (if (n =? n')%nat && (m =? m')%Z then RtoC 1 else RtoC 0) with (elem n m n' m' 0 (RtoC (if (m =? m')%Z then 2 * PI else 0))); [exact P|]. clear P.
    unfold elem. destruct (Z.eqb_spec m m') as [<-|E]; [|rewrite andb_false_r; unfold RtoC, Cmult; cbn; f_equal; ring].
    rewrite radial_overlap by reflexivity. rewrite (Nat.eqb_sym n' n), andb_true_r. destruct (Nat.eqb_spec n n') as [<-|E].
    - rewrite norm_product. unfold RtoC, Cmult. cbn [fst snd]. f_equal; [|ring]. pose proof a_pos. pose proof (fact_pos n). pose proof (fact_pos (n + Z.abs_nat m)). pose proof PI_RGT_0. field. lra.
    - unfold RtoC, Cmult. cbn [fst snd]. pose proof a_pos. f_equal; field; lra.
  Qed.

  Lemma plane_add f g u v : plane_integral f u -> plane_integral g v -> plane_integral (fun r t => (f r t + g r t)%C) (u + v)%C.
  Proof.
    intros (F & F1 & F2 & F3) (G & G1 & G2 & G3). exists (fun r => (F r + G r)%C). split; [|split].
    - intros r Hr. apply (is_RInt_plus (V := C_R_NormedModule)); auto.
    - eapply half_line_ext; [|apply half_line_plus; [exact F2 | exact G2]]. intros r _. unfold Cplus. cbn. ring.
    - eapply half_line_ext; [|apply half_line_plus; [exact F3 | exact G3]]. intros r _. unfold Cplus. cbn. ring.
  Qed.
  Lemma plane_scal c f u : plane_integral f u -> plane_integral (fun r t => (RtoC c * f r t)%C) (RtoC c * u)%C.
  Proof.
    intros (F & F1 & F2 & F3). exists (fun r => (RtoC c * F r)%C). split; [|split].
    - intros r Hr. assert (S : forall z : C, (RtoC c * z)%C = scal (V := C_R_ModuleSpace) c z) by (intros []; unfold scal; cbn; unfold prod_scal, RtoC, Cmult, scal; cbn; unfold mult; cbn; f_equal; ring).
      rewrite S. eapply is_RInt_ext; [intros t _; symmetry; apply S|]. apply (is_RInt_scal (V := C_R_NormedModule)); auto.
    - eapply half_line_val; [eapply half_line_ext; [|apply (half_line_scal c); exact F2]|]; [intros r _|]; unfold RtoC, Cmult; cbn; ring.
    - eapply half_line_val; [eapply half_line_ext; [|apply (half_line_scal c); exact F3]|]; [intros r _|]; unfold RtoC, Cmult; cbn; ring.
  Qed.
  Lemma plane_ext f g u : (forall r t, 0 <= r -> f r t = g r t) -> plane_integral f u -> plane_integral g u.
  Proof.
    intros E (F & F1 & F2 & F3). exists F. split; [|split; assumption]. intros r Hr. eapply is_RInt_ext; [|exact (F1 r Hr)]. intros t _. apply E, Hr.
  Qed.
  Lemma plane_unique f u v : plane_integral f u -> plane_integral f v -> u = v.
  Proof.
    intros (F & F1 & F2 & F3) (G & G1 & G2 & G3).
    assert (E : forall r, 0 <= r -> F r = G r).
    { intros r Hr. pose proof (F1 r Hr) as A. pose proof (G1 r Hr) as B. 
      pose proof (is_RInt_fct_extend_fst _ _ _ _ A) as A1. pose proof (is_RInt_fct_extend_fst _ _ _ _ B) as B1. pose proof (is_RInt_fct_extend_snd _ _ _ _ A) as A2. pose proof (is_RInt_fct_extend_snd _ _ _ _ B) as B2.
      apply (is_RInt_unique (V := R_CompleteNormedModule)) in A1, B1, A2, B2. destruct (F r), (G r). cbn in *. congruence. }
    destruct u as [u1 u2], v as [v1 v2]. f_equal.
    - eapply half_line_unique; [exact F2|]. eapply half_line_ext; [|exact G2]. intros r Hr. cbn. rewrite E by lra. reflexivity.
    - eapply half_line_unique; [exact F3|]. eapply half_line_ext; [|exact G3]. intros r Hr. cbn. rewrite E by lra. reflexivity.
  Qed.

  (** ** The dipole matrix *)
  Section Dipole.
    Variable nm : nat -> Z * Z.
    Notation phi p := (spf_state (qn (nm p)) (qm (nm p)) mass omega).
    Lemma dipole_x p q : matrix_element (phi p) (phi q) (fun x _ => x) (dipole_element nm mass omega 0 p q).
    Proof.
      pose proof (plane_elem (qn (nm p)) (qm (nm p)) (qn (nm q)) (qm (nm q)) 1 cos (fun x _ => x) _ ltac:(intros; cbn; ring) (theta_1_right _ _)) as P.
      unfold dipole_element. unfold elem in P. destruct (Z.abs (qm (nm p) - qm (nm q)) =? 1)%Z eqn:E; cbn [negb]; [exact P|].
      unfold theta_1_integral in P. rewrite E in P. rewrite Cmult_0_r in P. exact P.
    Qed.
    Lemma dipole_y p q : matrix_element (phi p) (phi q) (fun _ y => y) (dipole_element nm mass omega 1 p q).
    Proof.
      pose proof (plane_elem (qn (nm p)) (qm (nm p)) (qn (nm q)) (qm (nm q)) 1 sin (fun _ y => y) _ ltac:(intros; cbn; ring) (theta_2_right _ _)) as P.
      unfold dipole_element. unfold elem in P. destruct (Z.abs (qm (nm p) - qm (nm q)) =? 1)%Z eqn:E; cbn [negb]; [exact P|].
      unfold theta_2_integral in P. rewrite E in P. rewrite Cmult_0_r in P. exact P.
    Qed.
  End Dipole.
End Radial.

