(** Half-line moments of the Gaussian: the integral of r^k exp(-a^2 r^2) is
    Gamma((k+1)/2) / (2 a^(k+1)). *)
From Coq Require Import Reals Lra Lia Arith.
From Coquelicot Require Import Coquelicot.
From Verif Require Import AngularProofs Gauss Coulomb.
Open Scope R_scope.

Section Moments.
  Variable a : R.
  Hypothesis Ha : 0 < a.
  Definition gk (k : nat) (t : R) : R := t ^ k * exp (- (a ^ 2 * t ^ 2)).
  Lemma gk_derive k t : is_derive (gk (S k)) t (INR (S k) * gk k t - 2 * a ^ 2 * gk (S (S k)) t).
  Proof.
    unfold gk. auto_derive; [trivial|]. change (t * (t * 1)) with (t ^ 2). change (a * (a * 1)) with (a ^ 2).
    replace (- (a * a * (t * t))) with (- (a ^ 2 * t ^ 2)) by ring. cbn [Nat.pred]. rewrite S_INR. destruct k; cbn [pow]; cbn; ring.
  Qed.
  Lemma gk_cont k t : continuous (gk k) t.
  Proof. apply (ex_derive_continuous (gk k)). unfold gk. auto_derive. trivial. Qed.
  Lemma gk_int k x y : ex_RInt (gk k) x y.
  Proof. apply (ex_RInt_continuous (V := R_CompleteNormedModule)). intros; apply gk_cont. Qed.
  Definition gM (k : nat) (x : R) : R := RInt (gk k) 0 x.
  Lemma gM_ok k x : is_RInt (gk k) 0 x (gM k x).
  Proof. apply (RInt_correct (V := R_CompleteNormedModule)), gk_int. Qed.
  Lemma gM_0 x : gM 0 x = gF (a * x) / a.
  Proof.
    apply (is_RInt_unique (V := R_CompleteNormedModule)).
    apply (is_RInt_ext (fun t => scal (/ a) (scal a (exp (- (a * t + 0) ^ 2))))).
    - intros t _. change (/ a * (a * exp (- (a * t + 0) ^ 2)) = t ^ 0 * exp (- (a ^ 2 * t ^ 2))). replace (- (a * t + 0) ^ 2) with (- (a ^ 2 * t ^ 2)) by ring. cbn [pow]. field. lra.
    - replace (gF (a * x) / a) with (scal (/ a) (gF (a * x))) by (change (/ a * gF (a * x) = gF (a * x) / a); field; lra).
      apply (is_RInt_scal (V := R_NormedModule)), (is_RInt_comp_lin (V := R_NormedModule) (fun t => exp (- t ^ 2))).
      replace (a * 0 + 0) with 0 by ring. replace (a * x + 0) with (a * x) by ring. apply (RInt_correct (V := R_CompleteNormedModule)), gauss_int.
  Qed.
  Lemma gM_1 x : gM 1 x = (1 - gk 0 x) / (2 * a ^ 2).
  Proof.
    apply (is_RInt_unique (V := R_CompleteNormedModule)).
    eapply is_RInt_val; [apply (is_RInt_derive (fun t => - gk 0 t / (2 * a ^ 2)))|].
    - intros t _. unfold gk. cbn [pow]. auto_derive; [trivial|]. field. lra.
    - intros t _. apply gk_cont.
    - unfold gk, minus, plus, opp; cbn [AbelianGroup.sort]. replace (- (a ^ 2 * 0 ^ 2)) with 0 by ring. rewrite exp_0. change (- (x ^ 0 * exp (- (a ^ 2 * x ^ 2))) / (2 * a ^ 2) + - (- (0 ^ 0 * 1) / (2 * a ^ 2)) = (1 - x ^ 0 * exp (- (a ^ 2 * x ^ 2))) / (2 * a ^ 2)). cbn [pow]. field. lra.
  Qed.
  Lemma gM_SS k x : gM (S (S k)) x = (INR (S k) * gM k x - gk (S k) x) / (2 * a ^ 2).
  Proof.
    apply (is_RInt_unique (V := R_CompleteNormedModule)).
    pose proof (is_RInt_derive (gk (S k)) (fun t => INR (S k) * gk k t - 2 * a ^ 2 * gk (S (S k)) t) 0 x (fun t _ => gk_derive k t)) as D.
    assert (D' : is_RInt (fun t => INR (S k) * gk k t - 2 * a ^ 2 * gk (S (S k)) t) 0 x (gk (S k) x)).
    { eapply is_RInt_val; [apply D|].
      - intros t _. apply (continuous_minus (V := R_NormedModule)); apply (continuous_scal_r (V := R_NormedModule)), gk_cont.
      - unfold gk at 2. change (gk (S k) x + - (0 ^ S k * exp (- (a ^ 2 * 0 ^ 2))) = gk (S k) x). rewrite pow_i by lia. ring. }
    pose proof (is_RInt_scal (V := R_NormedModule) _ _ _ (/ (2 * a ^ 2)) _ (is_RInt_minus (V := R_NormedModule) _ _ _ _ _ _ (is_RInt_scal (V := R_NormedModule) _ _ _ (INR (S k)) _ (gM_ok k x)) D')) as E.
    eapply is_RInt_val; [eapply is_RInt_ext; [|exact E]|].
    - intros t _. change (/ (2 * a ^ 2) * (INR (S k) * gk k t + - (INR (S k) * gk k t - 2 * a ^ 2 * gk (S (S k)) t)) = gk (S (S k)) t). field. lra.
    - change (/ (2 * a ^ 2) * (INR (S k) * gM k x + - gk (S k) x) = (INR (S k) * gM k x - gk (S k) x) / (2 * a ^ 2)). field. lra.
  Qed.
  Definition moment (k : nat) : R := gamma2 (S k) / (2 * a ^ S k).
  Lemma gk_lim k : is_lim (gk k) p_infty 0.
  Proof. apply decay_lim, Ha. Qed.
  Lemma gM_lim k : is_lim (gM k) p_infty (moment k).
  Proof.
    assert (A : is_lim (gM k) p_infty (moment k) /\ is_lim (gM (S k)) p_infty (moment (S k))); [|apply A].
    induction k as [|k [IH1 IH2]]; split; try assumption.
    - apply (is_lim_ext (fun x => gF (a * x + 0) / a)); [intros x; rewrite gM_0; rewrite Rplus_0_r; reflexivity|].
      replace (Finite (moment 0)) with (Rbar_mult (sqrt PI / 2) (/ a)).
      + apply is_lim_scal_r. apply is_lim_comp_lin; [|lra]. replace (Rbar_plus (Rbar_mult a p_infty) 0) with p_infty; [apply gF_lim|].
        cbn. destruct (Rle_dec 0 a) as [H|H]; [|lra]. destruct (Rle_lt_or_eq_dec 0 a H); [reflexivity | lra].
      + cbn [Rbar_mult Rbar_mult']. f_equal. unfold moment. cbn [gamma2 pow]. field. lra.
    - apply (is_lim_ext (fun x => (1 - gk 0 x) * / (2 * a ^ 2))); [intros x; rewrite gM_1; reflexivity|].
      replace (Finite (moment 1)) with (Rbar_mult (1 - 0) (/ (2 * a ^ 2))).
      + apply is_lim_scal_r. apply (is_lim_minus' (fun _ => 1) (gk 0)); [apply is_lim_const | apply gk_lim].
      + cbn [Rbar_mult Rbar_mult']. f_equal. unfold moment. cbn. field. lra.
    - apply (is_lim_ext (fun x => (INR (S k) * gM k x - gk (S k) x) * / (2 * a ^ 2))); [intros x; rewrite gM_SS; reflexivity|].
      replace (Finite (moment (S (S k)))) with (Rbar_mult (INR (S k) * moment k - 0) (/ (2 * a ^ 2))).
      + apply is_lim_scal_r. apply (is_lim_minus' (fun x => INR (S k) * gM k x) (gk (S k))); [|apply gk_lim].
        apply (is_lim_scal_l (gM k) (INR (S k)) p_infty (Finite (moment k))). exact IH1.
      + cbn [Rbar_mult Rbar_mult']. f_equal. unfold moment. change (gamma2 (S (S (S k)))) with (INR (S k) / 2 * gamma2 (S k)). cbn [pow]. field. split; [apply pow_nonzero|]; lra.
  Qed.
  Lemma moment_ok k : half_line (fun r => r ^ k * exp (- (a ^ 2 * r ^ 2))) (moment k).
  Proof. apply (half_line_of _ (gM k)); [intros; apply gM_ok | apply gM_lim]. Qed.
End Moments.
