(** The oscillator functions are eigenfunctions. *)
From Coq Require Import ZArith Reals Lra Lia Arith.
From Coquelicot Require Import Coquelicot.
From Verif Require Import Orbitals OrbitalSpec Laguerre OrbitalProofs.
Open Scope R_scope.

Lemma lag_step n k i : (i < n)%nat -> INR (S i) * INR (S i + k) * lag n k (S i) = - (INR (n - i) * lag n k i).
Proof.
  intros Hi. unfold lag. replace (n - i)%nat with (S (n - S i)) by lia. rewrite !fact_S. replace (k + S i)%nat with (S (k + i)) by lia. replace (S i + k)%nat with (S (k + i)) by lia. rewrite fact_S.
  pose proof (fact_pos (n - S i)). pose proof (fact_pos (k + i)). pose proof (fact_pos i). pose proof (lt_0_INR (S i) ltac:(lia)). pose proof (lt_0_INR (S (k + i)) ltac:(lia)). pose proof (lt_0_INR (S (n - S i)) ltac:(lia)).
  cbn [pow]. field. repeat split; lra.
Qed.
Definition lag0 n k (x : R) := sum_f_R0 (fun i => lag n k i * x ^ i) n.
Definition lag1 n k (x : R) := sum_f_R0 (fun i => lag n k i * (INR i * x ^ pred i)) n.
Definition lag2 n k (x : R) := sum_f_R0 (fun i => lag n k i * (INR i * (INR (pred i) * x ^ pred (pred i)))) n.
Lemma derive_sum (f f' : nat -> R -> R) n (x : R) : (forall i, is_derive (f i) x (f' i x)) ->
  is_derive (fun y => sum_f_R0 (fun i => f i y) n) x (sum_f_R0 (fun i => f' i x) n).
Proof.
  intros H. induction n as [|n IH]; cbn [sum_f_R0]; [apply H|]. apply (is_derive_plus (V := R_NormedModule)); [exact IH | apply H].
Qed.
Lemma derive_pow i (x : R) : is_derive (fun y : R => y ^ i) x (INR i * x ^ pred i).
Proof. auto_derive; [trivial|]. ring. Qed.
Lemma lag0_derive n k (x : R) : is_derive (lag0 n k) x (lag1 n k x).
Proof. apply (derive_sum (fun i y => lag n k i * y ^ i) (fun i y => lag n k i * (INR i * y ^ pred i))). intros i. apply (is_derive_scal (fun y : R => y ^ i)), derive_pow. Qed.
Lemma lag1_derive n k (x : R) : is_derive (lag1 n k) x (lag2 n k x).
Proof.
  apply (derive_sum (fun i y => lag n k i * (INR i * y ^ pred i)) (fun i y => lag n k i * (INR i * (INR (pred i) * y ^ pred (pred i))))). intros i.
  apply (is_derive_scal (fun y : R => INR i * y ^ pred i)). apply (is_derive_scal (fun y : R => y ^ pred i)), derive_pow.
Qed.
Lemma lag_telescope n k (x : R) N : (N <= n)%nat ->
  sum_f_R0 (fun i => lag n k i * (INR i * INR (i + k) * x ^ pred i) + lag n k i * (INR (n - i) * x ^ i)) N = lag n k N * INR (n - N) * x ^ N.
Proof.
  induction N as [|N IH]; intros HN.
  - cbn [sum_f_R0 INR pow]. ring.
  - cbn [sum_f_R0]. rewrite IH by lia. pose proof (lag_step n k N ltac:(lia)) as E. cbn [pred].
    transitivity ((INR (S N) * INR (S N + k) * lag n k (S N) + INR (n - N) * lag n k N) * x ^ N + lag n k (S N) * INR (n - S N) * x ^ S N); [ring|]. rewrite E. ring.
Qed.
Lemma laguerre_equation n k (x : R) : x * lag2 n k x + (INR k + 1 - x) * lag1 n k x + INR n * lag0 n k x = 0.
Proof.
  pose proof (lag_telescope n k x n (le_n n)) as T. rewrite Nat.sub_diag in T. cbn [INR] in T. rewrite Rmult_0_r, Rmult_0_l in T. rewrite <- T.
  unfold lag0, lag1, lag2. rewrite <- !sum_scal, <- !sum_add. apply sum_ext. intros i Hi. rewrite minus_INR, plus_INR by exact Hi. destruct i as [|[|i]]; cbn [pred].
  - cbn [INR pow]. ring.
  - cbn [INR pow]. ring.
  - rewrite !S_INR. cbn [pow]. ring.
Qed.

Section Radial.
  Variables (n k : nat) (a : R).
  (** The radial function and its derivatives, for r > 0 *)
  Definition rad (r : R) := (a * r) ^ k * lag0 n k (a ^ 2 * r ^ 2) * exp (- a ^ 2 * r ^ 2 / 2).
  Definition rad1 (r : R) := (a * r) ^ k * exp (- a ^ 2 * r ^ 2 / 2) *
    (INR k / r * lag0 n k (a ^ 2 * r ^ 2) + 2 * a ^ 2 * r * lag1 n k (a ^ 2 * r ^ 2) - a ^ 2 * r * lag0 n k (a ^ 2 * r ^ 2)).
  Definition rad2 (r : R) := (a * r) ^ k * exp (- a ^ 2 * r ^ 2 / 2) *
    ((INR k / r - a ^ 2 * r) * (INR k / r * lag0 n k (a ^ 2 * r ^ 2) + 2 * a ^ 2 * r * lag1 n k (a ^ 2 * r ^ 2) - a ^ 2 * r * lag0 n k (a ^ 2 * r ^ 2))
     - INR k / r ^ 2 * lag0 n k (a ^ 2 * r ^ 2) - a ^ 2 * lag0 n k (a ^ 2 * r ^ 2)
     + (INR k / r - a ^ 2 * r) * (2 * a ^ 2 * r * lag1 n k (a ^ 2 * r ^ 2))
     + 2 * a ^ 2 * lag1 n k (a ^ 2 * r ^ 2) + (2 * a ^ 2 * r) ^ 2 * lag2 n k (a ^ 2 * r ^ 2)).
  Lemma base_derive (r : R) : 0 < r ->
    is_derive (fun r : R => (a * r) ^ k * exp (- a ^ 2 * r ^ 2 / 2)) r ((a * r) ^ k * exp (- a ^ 2 * r ^ 2 / 2) * (INR k / r - a ^ 2 * r)).
  Proof.
    intros Hr. auto_derive; [trivial|]. change (r * (r * 1)) with (r ^ 2). replace (a * (a * 1)) with (a ^ 2) by reflexivity.
    set (e := exp _). destruct k as [|k']; [cbn; field; lra|]. cbn [pred pow]. rewrite S_INR. field. lra.
  Qed.
  Lemma square_derive (f f' : R -> R) (r : R) : is_derive f (a ^ 2 * r ^ 2) (f' (a ^ 2 * r ^ 2)) ->
    is_derive (fun r : R => f (a ^ 2 * r ^ 2)) r (2 * a ^ 2 * r * f' (a ^ 2 * r ^ 2)).
  Proof.
    intros H. apply (is_derive_comp f (fun r : R => a ^ 2 * r ^ 2)); [exact H|]. auto_derive; [trivial|]. ring.
  Qed.
  Lemma mult_derive (f g : R -> R) (x f' g' : R) : is_derive f x f' -> is_derive g x g' -> is_derive (fun y => f y * g y) x (f' * g x + f x * g').
  Proof. intros F G. apply (is_derive_mult (K := R_AbsRing) f g x f' g' F G). intros. apply Rmult_comm. Qed.
  Lemma derive_val (f : R -> R) (x u v : R) : is_derive f x u -> u = v -> is_derive f x v.
  Proof. intros H <-. exact H. Qed.
  Lemma derive_ext (f g : R -> R) (x u : R) : (forall t : R, f t = g t) -> is_derive f x u -> is_derive g x u.
  Proof. intros E H. eapply is_derive_ext; [exact E | exact H]. Qed.
  Lemma rad_derive (r : R) : 0 < r -> is_derive rad r (rad1 r).
  Proof.
    intros Hr. eapply derive_val; [eapply derive_ext; [|exact (mult_derive _ _ _ _ _ (base_derive r Hr) (square_derive _ _ r (lag0_derive n k _)))]|].
    - intros x. unfold rad. ring.
    - unfold rad1. ring.
  Qed.
  Lemma inv_derive c (r : R) : 0 < r -> is_derive (fun r : R => c / r - a ^ 2 * r) r (- c / r ^ 2 - a ^ 2).
  Proof. intros Hr. auto_derive; [lra|]. field. lra. Qed.
  Lemma rad1_derive (r : R) : 0 < r -> is_derive rad1 r (rad2 r).
  Proof.
    intros Hr.
    pose proof (square_derive _ _ r (lag0_derive n k (a ^ 2 * r ^ 2))) as D0. pose proof (square_derive _ _ r (lag1_derive n k (a ^ 2 * r ^ 2))) as D1.
    assert (D2 : is_derive (fun r : R => 2 * a ^ 2 * r) r (2 * a ^ 2)) by (auto_derive; [trivial | ring]).
    pose proof (is_derive_plus (V := R_NormedModule) _ _ r _ _ (mult_derive _ _ _ _ _ (inv_derive (INR k) r Hr) D0) (mult_derive _ _ _ _ _ D2 D1)) as D.
    eapply derive_val; [eapply derive_ext; [|exact (mult_derive _ _ _ _ _ (base_derive r Hr) D)]|].
    - intros x. unfold rad1, plus. cbn. change (x * (x * 1)) with (x ^ 2). ring.
    - unfold rad2. change (@plus R_NormedModule) with Rplus. field. lra.
  Qed.
  Lemma radial_equation (r : R) : 0 < r ->
    rad2 r + / r * rad1 r - INR k ^ 2 / r ^ 2 * rad r = (a ^ 4 * r ^ 2 - 2 * a ^ 2 * (2 * INR n + INR k + 1)) * rad r.
  Proof.
    intros Hr. pose proof (laguerre_equation n k (a ^ 2 * r ^ 2)) as L. unfold rad, rad1, rad2. set (x := a ^ 2 * r ^ 2) in *.
    set (l0 := lag0 n k x) in *. set (l1 := lag1 n k x) in *. set (l2 := lag2 n k x) in *. set (B := (a * r) ^ k). set (e := exp _).
    assert (L' : (4 * a ^ 2) * (x * l2 + (INR k + 1 - x) * l1 + INR n * l0) = 0) by (rewrite L; ring).
    match goal with |- ?u = ?v => assert (u - v = B * e * ((4 * a ^ 2) * (x * l2 + (INR k + 1 - x) * l1 + INR n * l0))) as D by (unfold x; field; lra) end.
    rewrite L', Rmult_0_r in D. lra.
  Qed.
End Radial.

Lemma spf_radial_rad n m mass omega r : spf_radial n m mass omega r = rad n (Z.abs_nat m) (bohr_radius mass omega) r.
Proof. reflexivity. Qed.

Section Eigen.
  Variables mass omega : R.
  Hypotheses (Hm : 0 < mass) (Hw : 0 < omega).
  Variables (n : nat) (m : Z) (b : R).
  Notation a := (bohr_radius mass omega).
  Notation k := (Z.abs_nat m).
  Notation N := (spf_norm n m mass omega).
  Definition energy := omega * (2 * INR n + INR k + 1).
  Definition field_energy := energy - b * IZR m.
  (** radial factor [h], n-th derivative of the angular factor *)
  Definition polar (h : R -> R) (u : R -> C) (r t : R) : C := (RtoC N * u t * RtoC (h r))%C.
  Definition ang0 (t : R) : C := (cos (IZR m * t), sin (IZR m * t)).
  Definition ang1 (t : R) : C := (- IZR m * sin (IZR m * t), IZR m * cos (IZR m * t)).
  Definition ang2 (t : R) : C := (- IZR m * (IZR m * cos (IZR m * t)), - IZR m * (IZR m * sin (IZR m * t))).
  Lemma polar_r h h' u : (forall r, 0 < r -> is_derive h r (h' r)) -> partial_r (polar h u) (polar h' u).
  Proof.
    intros H r t Hr. unfold polar, Cmult, RtoC. cbn [fst snd]. split.
    - eapply derive_val; [eapply derive_ext; [|exact (is_derive_scal _ r (N * fst (u t)) _ (H r Hr))]|]; [intros x|]; cbn; ring.
    - eapply derive_val; [eapply derive_ext; [|exact (is_derive_scal _ r (N * snd (u t)) _ (H r Hr))]|]; [intros x|]; cbn; ring.
  Qed.
  Lemma polar_t h (u u' : R -> C) : (forall t : R, is_derive (fun x : R => fst (u x)) t (fst (u' t)) /\ is_derive (fun x : R => snd (u x)) t (snd (u' t))) -> partial_t (polar h u) (polar h u').
  Proof.
    intros H r t Hr. destruct (H t) as [H1 H2]. unfold polar, Cmult, RtoC. cbn [fst snd]. split.
    - eapply derive_val; [eapply derive_ext; [|exact (is_derive_scal _ t (N * h r) _ H1)]|]; [intros x|]; cbn; ring.
    - eapply derive_val; [eapply derive_ext; [|exact (is_derive_scal _ t (N * h r) _ H2)]|]; [intros x|]; cbn; ring.
  Qed.
  Lemma bohr_sq : a ^ 2 = mass * omega.
  Proof. unfold bohr_radius. rewrite <- Rsqr_pow2, Rsqr_sqrt; [reflexivity|]. left. apply Rmult_lt_0_compat; assumption. Qed.
  Lemma abs_sq : INR k ^ 2 = IZR m * IZR m.
  Proof. rewrite INR_IZR_INZ, Zabs2Nat.id_abs, abs_IZR. rewrite <- Rsqr_pow2, <- Rsqr_abs. reflexivity. Qed.
  (** The oscillator with an extra potential W and a rotation term b L_z *)
  Lemma oscillator_hamiltonian (W : R -> R -> R) :
    hamiltonian mass b (fun x y => mass * omega ^ 2 * (x ^ 2 + y ^ 2) / 2 + W x y) (spf_state n m mass omega)
      (fun r t => (RtoC (field_energy + W (r * cos t) (r * sin t))%R * spf_state n m mass omega r t)%C).
  Proof.
    exists (polar (rad1 n k a) ang0), (polar (rad2 n k a) ang0), (polar (rad n k a) ang1), (polar (rad n k a) ang2).
    split; [|split; [|split; [|split]]].
    - apply (polar_r (rad n k a)). intros r Hr. apply rad_derive, Hr.
    - apply polar_r. intros r Hr. apply rad1_derive, Hr.
    - apply (polar_t (rad n k a) ang0). intros t. cbn [ang0 ang1 fst snd]. split; auto_derive; trivial; ring.
    - apply polar_t. intros t. cbn [ang1 ang2 fst snd]. split; auto_derive; trivial; ring.
    - intros r t Hr. pose proof (radial_equation n k a r Hr) as E. rewrite abs_sq in E.
      unfold spf_state, spf_theta. rewrite spf_radial_rad. unfold polar, ang0, ang1, ang2, field_energy, energy.
      assert (P : (r * cos t) ^ 2 + (r * sin t) ^ 2 = r ^ 2) by (pose proof (sin2_cos2 t) as S2; unfold Rsqr in S2; transitivity (r ^ 2 * (sin t * sin t + cos t * cos t)); [ring | rewrite S2; ring]).
      set (x := r * cos t) in *. set (y := r * sin t) in *. rewrite P. set (w := W x y). set (R0 := rad n k a r) in *. set (R1 := rad1 n k a r) in *. set (R2 := rad2 n k a r) in *.
      assert (E2 : R2 = (a ^ 4 * r ^ 2 - 2 * a ^ 2 * (2 * INR n + INR k + 1)) * R0 - / r * R1 + IZR m * IZR m / r ^ 2 * R0) by lra.
      replace (a ^ 4) with ((mass * omega) ^ 2) in E2 by (rewrite <- bohr_sq; ring). rewrite bohr_sq in E2. rewrite E2.
      unfold Cmult, Cplus, RtoC, Ci. cbn [fst snd]. set (c := cos _). set (s := sin _). f_equal; field; lra.
  Qed.
End Eigen.
