(** The Coulomb integrals of monomials times a Gaussian have the symmetries of
    [FourierPoly.symmetric_functional]: translations and dilations of the plane. *)
From Coq Require Import List Arith ZArith Reals Bool Lra Lia.
From Coquelicot Require Import Coquelicot.
From Verif Require Import TwoDim AngularProofs Gauss Moments Laguerre Coulomb CoulombSpec CoulombProofs Orbitals OrbitalSpec OrbitalProofs PairSpec PairProofs PairTheorems FourierPoly.
Open Scope R_scope.

Lemma com_unique H u v : com_integral H u -> com_integral H v -> u = v.
Proof.
  intros (G & G1 & G2) (F & F1 & F2). eapply plane_unique; [exact G2|]. eapply plane_ext; [|exact F2].
  intros r t Hr. cbv beta. f_equal. eapply plane_unique; [apply F1 | apply G1]; exact Hr.
Qed.

(** ** Derivatives of powers *)
Definition dcp (z : C) (n : nat) : C := (RtoC (INR n) * cp z (pred n))%C.
Lemma binom_step n k : INR (S n) * binom n k = INR (S k) * binom (S n) (S k).
Proof.
  destruct (le_lt_dec k n) as [H|H].
  - pose proof (binom_fact n k H) as A. pose proof (binom_fact (S n) (S k) ltac:(lia)) as B. change (S n - S k)%nat with (n - k)%nat in B. rewrite !fact_S in B. rewrite <- A in B.
    pose proof (fact_pos k). pose proof (fact_pos (n - k)). apply Rmult_eq_reg_r with (INR (fact k) * INR (fact (n - k))); [|apply Rgt_not_eq, Rmult_lt_0_compat; assumption]. lra.
  - rewrite !binom_above by lia. ring.
Qed.
Lemma dcp_sum z w n : dcp (z + w)%C n = cs (n + 1) (fun k => (RtoC (binom n k) * (dcp z k * cp w (n - k)))%C).
Proof.
  unfold dcp. destruct n as [|n].
  - cbn [INR cs Nat.add cp pred Nat.sub]. ring.
  - cbn [pred]. rewrite cp_sum. replace (S n + 1)%nat with (S (n + 1)) by lia. rewrite cs_first. change (INR 0) with 0. rewrite <- cs_scal.
    rewrite (cs_ext _ (fun k => (RtoC (binom (S n) (S k)) * (RtoC (INR (S k)) * cp z (pred (S k)) * cp w (S n - S k)))%C) (fun k => (RtoC (INR (S n)) * (RtoC (binom n k) * (cp z k * cp w (n - k))))%C)); [ring|].
    intros k _. cbn [pred Nat.sub]. pose proof (binom_step n k) as E. apply (f_equal RtoC) in E. rewrite !RtoC_mult in E.
    transitivity (RtoC (INR (S k)) * RtoC (binom (S n) (S k)) * (cp z k * cp w (n - k)))%C; [ring|]. rewrite <- E. ring.
Qed.

(** ** Four sums *)
Definition cs4 n0 n1 n2 n3 (F : nat -> nat -> nat -> nat -> C) : C :=
  cs (n0 + 1) (fun a => cs (n1 + 1) (fun b => cs (n2 + 1) (fun c => cs (n3 + 1) (fun d => F a b c d)))).
Lemma cs4_ext n0 n1 n2 n3 F G : (forall a b c d, (a <= n0)%nat -> (b <= n1)%nat -> (c <= n2)%nat -> (d <= n3)%nat -> F a b c d = G a b c d) -> cs4 n0 n1 n2 n3 F = cs4 n0 n1 n2 n3 G.
Proof. intros H. unfold cs4. apply cs_ext; intros a Ha. apply cs_ext; intros b Hb. apply cs_ext; intros c Hc. apply cs_ext; intros d Hd. apply H; lia. Qed.
Lemma cs4_plus n0 n1 n2 n3 F G : cs4 n0 n1 n2 n3 (fun a b c d => F a b c d + G a b c d)%C = (cs4 n0 n1 n2 n3 F + cs4 n0 n1 n2 n3 G)%C.
Proof. unfold cs4. rewrite <- cs_plus. apply cs_ext; intros a _. rewrite <- cs_plus. apply cs_ext; intros b _. rewrite <- cs_plus. apply cs_ext; intros c _. rewrite <- cs_plus. reflexivity. Qed.
Lemma cs4_scal n0 n1 n2 n3 k F : cs4 n0 n1 n2 n3 (fun a b c d => k * F a b c d)%C = (k * cs4 n0 n1 n2 n3 F)%C.
Proof. unfold cs4. rewrite <- cs_scal. apply cs_ext; intros a _. rewrite <- cs_scal. apply cs_ext; intros b _. rewrite <- cs_scal. apply cs_ext; intros c _. rewrite <- cs_scal. reflexivity. Qed.
Lemma cs4_prod n0 n1 n2 n3 f0 f1 f2 f3 e : (cs (n0 + 1) f0 * cs (n1 + 1) f1 * cs (n2 + 1) f2 * cs (n3 + 1) f3 * e)%C = cs4 n0 n1 n2 n3 (fun a b c d => f0 a * f1 b * f2 c * f3 d * e)%C.
Proof. apply cs_prod4. Qed.
Lemma com_cs4 n0 n1 n2 n3 (H : nat -> nat -> nat -> nat -> C -> C -> C) v :
  (forall a b c d, (a <= n0)%nat -> (b <= n1)%nat -> (c <= n2)%nat -> (d <= n3)%nat -> com_integral (H a b c d) (v a b c d)) ->
  com_integral (fun X x => cs4 n0 n1 n2 n3 (fun a b c d => H a b c d X x)) (cs4 n0 n1 n2 n3 v).
Proof.
  intros E. unfold cs4. apply com_sum. intros a Ha. apply com_sum. intros b Hb. apply com_sum. intros c Hc. apply com_sum. intros d Hd. apply E; lia.
Qed.

(** ** The functional *)
Definition M (g0 g1 g2 g3 : nat) : R := kvalue 1 1 g0 g1 g2 g3.
Lemma a_one : bohr_radius 1 1 = 1.
Proof. unfold bohr_radius. rewrite Rmult_1_l. apply sqrt_1. Qed.
Lemma b1_sq : b1 1 1 ^ 2 = 2.
Proof. unfold b1. rewrite a_one, Rmult_1_r. apply sqrt2_sq2. Qed.
Lemma b2_sq : b2 1 1 ^ 2 = / 2.
Proof. unfold b2. rewrite a_one. unfold Rdiv. rewrite Rmult_1_l, pow_inv, sqrt2_sq2. reflexivity. Qed.
Local Notation km := (kmono 1 1).
Local Notation z1 X x := (X + RtoC (/ 2) * x)%C.
Local Notation z2 X x := (X + RtoC (- / 2) * x)%C.
Lemma M_integral g0 g1 g2 g3 : com_integral (fun X x => km g0 g1 g2 g3 (z1 X x) (z2 X x)) (RtoC (M g0 g1 g2 g3)).
Proof. eapply com_ext; [|apply (kmono_integral 1 1 Rlt_0_1 Rlt_0_1)]. intros X x. cbv beta. rewrite shift_plus, shift_minus. reflexivity. Qed.
Lemma M_balance g0 g1 g2 g3 : M g0 g1 g2 g3 = if Nat.eq_dec (g0 + g1) (g2 + g3) then PI ^ 2 * term g0 g1 g2 g3 else 0.
Proof. unfold M. rewrite (kvalue_ok 1 1 Rlt_0_1 Rlt_0_1), a_one, pow1. destruct (Nat.eq_dec _ _); [|reflexivity]. field. Qed.
Lemma M_rev g0 g1 g2 g3 : M g3 g2 g1 g0 = M g0 g1 g2 g3.
Proof. rewrite !M_balance, term_rev. destruct (Nat.eq_dec (g3 + g2) (g1 + g0)), (Nat.eq_dec (g0 + g1) (g2 + g3)); try lia; reflexivity. Qed.

(** The Gaussian factor, and the separation part of one term of the expansion *)
Definition sep (g0 g1 g2 g3 l0 l1 l2 l3 : nat) (x : C) : C :=
  (RtoC (kcoef g0 g1 g2 g3 l0 l1 l2 l3) * (cp x (g2 - l2 + (g3 - l3)) * cp (Cconj x) (g0 - l0 + (g1 - l1)) * RtoC (gauss (b2 1 1) x)))%C.
Lemma e_split X x : RtoC (exp (- (bohr_radius 1 1 ^ 2 * (norm2 (z1 X x) + norm2 (z2 X x))))) = (RtoC (gauss (b1 1 1) X) * RtoC (gauss (b2 1 1) x))%C.
Proof. rewrite <- shift_plus, <- shift_minus, gauss_split, RtoC_mult. reflexivity. Qed.

(** A translation of the centre *)
Lemma translate_expand g0 g1 g2 g3 X x :
  (RtoC (INR g3) * km g0 g1 g2 (pred g3) (z1 X x) (z2 X x) + RtoC (INR g2) * km g0 g1 (pred g2) g3 (z1 X x) (z2 X x)
   + RtoC (-1) * (km (S g0) g1 g2 g3 (z1 X x) (z2 X x) + km g0 (S g1) g2 g3 (z1 X x) (z2 X x)))%C
  = cs4 g0 g1 g2 g3 (fun l0 l1 l2 l3 =>
      ((dcp X (l2 + l3) * cp (Cconj X) (l0 + l1) + RtoC (-2) * (cp X (l2 + l3) * cp (Cconj X) (S (l0 + l1)))) * RtoC (gauss (b1 1 1) X) * sep g0 g1 g2 g3 l0 l1 l2 l3 x)%C).
Proof.
  unfold kmono. rewrite e_split. set (e := (RtoC (gauss (b1 1 1) X) * RtoC (gauss (b2 1 1) x))%C).
  transitivity ((cp (Cconj (z1 X x)) g0 * cp (Cconj (z2 X x)) g1 * cp (z2 X x) g2 * dcp (z1 X x) g3 * e
    + cp (Cconj (z1 X x)) g0 * cp (Cconj (z2 X x)) g1 * dcp (z2 X x) g2 * cp (z1 X x) g3 * e
    + RtoC (-2) * Cconj X * (cp (Cconj (z1 X x)) g0 * cp (Cconj (z2 X x)) g1 * cp (z2 X x) g2 * cp (z1 X x) g3 * e))%C).
  { unfold dcp. cbn [cp].
    assert (S0 : (Cconj (z1 X x) + Cconj (z2 X x))%C = (RtoC 2 * Cconj X)%C) by (destruct X, x; unfold Cconj, Cplus, Cmult, RtoC; cbn; f_equal; field).
    replace (RtoC (-2) * Cconj X)%C with (RtoC (-1) * (Cconj (z1 X x) + Cconj (z2 X x)))%C by (rewrite S0; unfold RtoC, Cmult, Cconj; cbn; f_equal; ring). ring. }
  rewrite !conj_add, !conj_mul, !conj_R, !dcp_sum, !cp_sum, !cs4_prod, <- cs4_scal, <- !cs4_plus. apply cs4_ext. intros l0 l1 l2 l3 _ _ _ _.
  assert (D : dcp X (l2 + l3) = (cp X l2 * dcp X l3 + dcp X l2 * cp X l3)%C).
  { unfold dcp. rewrite plus_INR, RtoC_plus. destruct l2 as [|l2].
    - cbn [INR pred cp Nat.add]. ring.
    - destruct l3 as [|l3]; [cbn [INR pred cp]; rewrite Nat.add_0_r; cbn [pred cp]; ring|].
      cbn [pred]. replace (pred (S l2 + S l3)) with (l2 + S l3)%nat by lia. rewrite cp_add. cbn [cp]. ring. }
  rewrite D. unfold e, sep, kcoef. cbn [cp]. rewrite !cp_mul, !cp_R, !cp_add, !RtoC_mult. ring.
Qed.
Lemma centre_translate i j : plane_integral (fun r t => ((dcp (point r t) i * cp (Cconj (point r t)) j + RtoC (-2) * (cp (point r t) i * cp (Cconj (point r t)) (S j))) * RtoC (gauss (b1 1 1) (point r t)))%C) (RtoC 0).
Proof.
  pose proof (b1_pos 1 1 Rlt_0_1 Rlt_0_1) as P.
  pose proof (plane_add _ _ _ _ (plane_scalC (RtoC (INR i)) _ _ (centre_power (b1 1 1) P (pred i) j)) (plane_scalC (RtoC (-2)) _ _ (centre_power (b1 1 1) P i (S j)))) as I.
  eapply plane_val; [eapply plane_ext; [|exact I]|].
  - intros r t _. cbv beta. unfold dcp. ring.
  - rewrite <- !RtoC_mult, <- RtoC_plus. f_equal. unfold angle. destruct i as [|i].
    + cbn [pred INR Nat.eqb]. ring.
    + cbn [pred Nat.eqb]. destruct (Nat.eqb_spec i j) as [<-|N]; [|ring].
      replace (S (S i + S i)) with (S (S (S (i + i)))) by lia. rewrite (moment_next _ (S (i + i))) by lra. rewrite b1_sq.
      replace (INR (S (S (i + i)))) with (2 * INR (S i)) by (rewrite !S_INR, plus_INR; ring). field.
Qed.
Lemma M_move g0 g1 g2 g3 : INR g3 * M g0 g1 g2 (pred g3) + INR g2 * M g0 g1 (pred g2) g3 = M (S g0) g1 g2 g3 + M g0 (S g1) g2 g3.
Proof.
  assert (A : com_integral (fun X x => (RtoC (INR g3) * km g0 g1 g2 (pred g3) (z1 X x) (z2 X x) + RtoC (INR g2) * km g0 g1 (pred g2) g3 (z1 X x) (z2 X x)
     + RtoC (-1) * (km (S g0) g1 g2 g3 (z1 X x) (z2 X x) + km g0 (S g1) g2 g3 (z1 X x) (z2 X x)))%C)
    (RtoC (INR g3) * RtoC (M g0 g1 g2 (pred g3)) + RtoC (INR g2) * RtoC (M g0 g1 (pred g2) g3) + RtoC (-1) * (RtoC (M (S g0) g1 g2 g3) + RtoC (M g0 (S g1) g2 g3)))%C).
  { apply com_add; [apply com_add; apply com_scal, M_integral|]. apply com_scal, com_add; apply M_integral. }
  assert (B : com_integral (fun X x => (RtoC (INR g3) * km g0 g1 g2 (pred g3) (z1 X x) (z2 X x) + RtoC (INR g2) * km g0 g1 (pred g2) g3 (z1 X x) (z2 X x)
     + RtoC (-1) * (km (S g0) g1 g2 g3 (z1 X x) (z2 X x) + km g0 (S g1) g2 g3 (z1 X x) (z2 X x)))%C) (cs4 g0 g1 g2 g3 (fun _ _ _ _ => RtoC 0))).
  { eapply com_ext; [intros X x; symmetry; apply translate_expand|]. apply com_cs4. intros l0 l1 l2 l3 _ _ _ _.
    pose proof (separation_power (b2 1 1) (b2_pos 1 1 Rlt_0_1 Rlt_0_1) (g2 - l2 + (g3 - l3)) (g0 - l0 + (g1 - l1))) as S0.
    pose proof (plane_scalC (RtoC (kcoef g0 g1 g2 g3 l0 l1 l2 l3)) _ _ S0) as S1.
    pose proof (com_prod (fun X => ((dcp X (l2 + l3) * cp (Cconj X) (l0 + l1) + RtoC (-2) * (cp X (l2 + l3) * cp (Cconj X) (S (l0 + l1)))) * RtoC (gauss (b1 1 1) X))%C) (sep g0 g1 g2 g3 l0 l1 l2 l3) _ _ (centre_translate (l2 + l3) (l0 + l1))
      ltac:(eapply plane_ext; [|exact S1]; intros r t _; unfold sep; cbv beta; ring)) as Q.
    eapply com_val; [exact Q | ring]. }
  pose proof (com_unique _ _ _ A B) as E.
  assert (Z : cs4 g0 g1 g2 g3 (fun _ _ _ _ => RtoC 0) = RtoC 0).
  { transitivity (cs4 g0 g1 g2 g3 (fun _ _ _ _ => RtoC 0 * RtoC 0)%C); [apply cs4_ext; intros; ring|]. rewrite cs4_scal. ring. }
  rewrite Z, <- !RtoC_mult, <- !RtoC_plus, <- RtoC_mult, <- RtoC_plus in E. apply RtoC_inj in E. lra.
Qed.

(** A dilation *)
Lemma dilate_expand g0 g1 g2 g3 X x :
  (RtoC 2 * (km (S g0) g1 g2 (S g3) (z1 X x) (z2 X x) + km g0 (S g1) (S g2) g3 (z1 X x) (z2 X x)))%C
  = cs4 g0 g1 g2 g3 (fun l0 l1 l2 l3 =>
      (RtoC 4 * ((cp X (S (l2 + l3)) * cp (Cconj X) (S (l0 + l1)) * RtoC (gauss (b1 1 1) X)) * sep g0 g1 g2 g3 l0 l1 l2 l3 x)
      + (cp X (l2 + l3) * cp (Cconj X) (l0 + l1) * RtoC (gauss (b1 1 1) X)) * (x * Cconj x * sep g0 g1 g2 g3 l0 l1 l2 l3 x))%C).
Proof.
  unfold kmono. rewrite e_split. set (e := (RtoC (gauss (b1 1 1) X) * RtoC (gauss (b2 1 1) x))%C).
  transitivity ((RtoC 4 * (X * Cconj X) + x * Cconj x) * (cp (Cconj (z1 X x)) g0 * cp (Cconj (z2 X x)) g1 * cp (z2 X x) g2 * cp (z1 X x) g3 * e))%C.
  { cbn [cp]. replace (RtoC 4 * (X * Cconj X) + x * Cconj x)%C with (RtoC 2 * (Cconj (z1 X x) * z1 X x + Cconj (z2 X x) * z2 X x))%C.
    - ring.
    - destruct X, x; unfold Cconj, Cplus, Cmult, RtoC; cbn; f_equal; field. }
  rewrite !conj_add, !conj_mul, !conj_R, !cp_sum, !cs4_prod, <- cs4_scal. apply cs4_ext. intros l0 l1 l2 l3 _ _ _ _.
  unfold e, sep, kcoef. cbn [cp]. rewrite !cp_mul, !cp_R, !cp_add, !RtoC_mult. ring.
Qed.
Lemma M_scale g0 g1 g2 g3 : INR (g0 + g1 + g2 + g3 + 3) * M g0 g1 g2 g3 = 2 * (M (S g0) g1 g2 (S g3) + M g0 (S g1) (S g2) g3).
Proof.
  pose proof (b1_pos 1 1 Rlt_0_1 Rlt_0_1) as P1. pose proof (b2_pos 1 1 Rlt_0_1 Rlt_0_1) as P2.
  assert (A : com_integral (fun X x => (RtoC 2 * (km (S g0) g1 g2 (S g3) (z1 X x) (z2 X x) + km g0 (S g1) (S g2) g3 (z1 X x) (z2 X x)))%C)
    (RtoC 2 * (RtoC (M (S g0) g1 g2 (S g3)) + RtoC (M g0 (S g1) (S g2) g3)))%C) by (apply com_scal, com_add; apply M_integral).
  set (I := fun i j => angle i j * moment (b1 1 1) (S (i + j))). set (J := fun i j => angle i j * moment (b2 1 1) (i + j)).
  set (k := kcoef g0 g1 g2 g3). set (di l2 l3 := (g2 - l2 + (g3 - l3))%nat). set (dj l0 l1 := (g0 - l0 + (g1 - l1))%nat).
  assert (B : com_integral (fun X x => (RtoC 2 * (km (S g0) g1 g2 (S g3) (z1 X x) (z2 X x) + km g0 (S g1) (S g2) g3 (z1 X x) (z2 X x)))%C)
    (cs4 g0 g1 g2 g3 (fun l0 l1 l2 l3 => RtoC 4 * (RtoC (I (S (l2 + l3)) (S (l0 + l1))) * (RtoC (k l0 l1 l2 l3) * RtoC (J (di l2 l3) (dj l0 l1))))
       + RtoC (I (l2 + l3)%nat (l0 + l1)%nat) * (RtoC (k l0 l1 l2 l3) * RtoC (J (S (di l2 l3)) (S (dj l0 l1)))))%C)).
  { eapply com_ext; [intros X x; symmetry; apply dilate_expand|]. apply com_cs4. intros l0 l1 l2 l3 _ _ _ _. apply com_add.
    - apply com_scal. apply (com_prod (fun X => (cp X (S (l2 + l3)) * cp (Cconj X) (S (l0 + l1)) * RtoC (gauss (b1 1 1) X))%C) (sep g0 g1 g2 g3 l0 l1 l2 l3)); [apply (centre_power _ P1)|].
      eapply plane_ext; [|apply (plane_scalC (RtoC (k l0 l1 l2 l3))), (separation_power (b2 1 1) P2 (di l2 l3) (dj l0 l1))]. intros r t _. unfold sep. cbv beta. unfold k, di, dj. ring.
    - apply (com_prod (fun X => (cp X (l2 + l3) * cp (Cconj X) (l0 + l1) * RtoC (gauss (b1 1 1) X))%C) (fun x => (x * Cconj x * sep g0 g1 g2 g3 l0 l1 l2 l3 x)%C)); [apply (centre_power _ P1)|].
      eapply plane_ext; [|apply (plane_scalC (RtoC (k l0 l1 l2 l3))), (separation_power (b2 1 1) P2 (S (di l2 l3)) (S (dj l0 l1)))]. intros r t _. unfold sep. cbv beta. unfold k, di, dj. cbn [cp]. ring. }
  assert (D : com_integral (fun X x => km g0 g1 g2 g3 (z1 X x) (z2 X x)) (cs4 g0 g1 g2 g3 (fun l0 l1 l2 l3 => RtoC (I (l2 + l3)%nat (l0 + l1)%nat) * (RtoC (k l0 l1 l2 l3) * RtoC (J (di l2 l3) (dj l0 l1)))))%C).
  { apply (com_ext (fun X x => cs4 g0 g1 g2 g3 (fun l0 l1 l2 l3 => ((cp X (l2 + l3) * cp (Cconj X) (l0 + l1) * RtoC (gauss (b1 1 1) X)) * sep g0 g1 g2 g3 l0 l1 l2 l3 x)%C))).
    - intros X x. unfold kmono. rewrite e_split, !conj_add, !conj_mul, !conj_R, !cp_sum, !cs4_prod. apply cs4_ext. intros l0 l1 l2 l3 _ _ _ _.
      unfold sep, kcoef. rewrite !cp_mul, !cp_R, !cp_add, !RtoC_mult. ring.
    - apply com_cs4. intros l0 l1 l2 l3 _ _ _ _. apply (com_prod (fun X => (cp X (l2 + l3) * cp (Cconj X) (l0 + l1) * RtoC (gauss (b1 1 1) X))%C) (sep g0 g1 g2 g3 l0 l1 l2 l3)); [apply (centre_power _ P1)|].
      eapply plane_ext; [|apply (plane_scalC (RtoC (k l0 l1 l2 l3))), (separation_power (b2 1 1) P2 (di l2 l3) (dj l0 l1))]. intros r t _. unfold sep. cbv beta. unfold k, di, dj. ring. }
  pose proof (com_unique _ _ _ A B) as E1. pose proof (com_unique _ _ _ (M_integral g0 g1 g2 g3) D) as E2.
  apply RtoC_inj. rewrite !RtoC_mult, E2, RtoC_plus, E1, <- cs4_scal. apply cs4_ext. intros l0 l1 l2 l3 H0 H1 H2 H3.
  assert (EI : (RtoC 4 * RtoC (I (S (l2 + l3)) (S (l0 + l1))))%C = (RtoC (INR (l0 + l1 + l2 + l3 + 2)) * RtoC (I (l2 + l3)%nat (l0 + l1)%nat))%C).
  { rewrite <- !RtoC_mult. f_equal. unfold I, angle. cbn [Nat.eqb]. replace (S (S (l2 + l3) + S (l0 + l1))) with (S (S (S (l2 + l3 + (l0 + l1))))) by lia.
    rewrite (moment_next _ (S _)) by lra. rewrite b1_sq. replace (S (S (l2 + l3 + (l0 + l1)))) with (l0 + l1 + l2 + l3 + 2)%nat by lia. field. }
  assert (EJ : RtoC (J (S (di l2 l3)) (S (dj l0 l1))) = (RtoC (INR (di l2 l3 + dj l0 l1 + 1)) * RtoC (J (di l2 l3) (dj l0 l1)))%C).
  { rewrite <- !RtoC_mult. f_equal. unfold J, angle. cbn [Nat.eqb]. replace (S (di l2 l3) + S (dj l0 l1))%nat with (S (S (di l2 l3 + dj l0 l1))) by lia.
    rewrite (moment_next _ (_ + _)) by lra. rewrite b2_sq. replace (S (di l2 l3 + dj l0 l1)) with (di l2 l3 + dj l0 l1 + 1)%nat by lia. field. }
  transitivity ((RtoC 4 * RtoC (I (S (l2 + l3)) (S (l0 + l1)))) * (RtoC (k l0 l1 l2 l3) * RtoC (J (di l2 l3) (dj l0 l1))) + RtoC (I (l2 + l3)%nat (l0 + l1)%nat) * (RtoC (k l0 l1 l2 l3) * RtoC (J (S (di l2 l3)) (S (dj l0 l1)))))%C; [|ring].
  rewrite EI, EJ. replace (INR (g0 + g1 + g2 + g3 + 3)) with (INR (l0 + l1 + l2 + l3 + 2) + INR (di l2 l3 + dj l0 l1 + 1)) by (rewrite <- plus_INR; f_equal; unfold di, dj; lia).
  rewrite RtoC_plus. ring.
Qed.
Lemma M_symmetric : symmetric_functional M.
Proof.
  constructor; intros g0 g1 g2 g3.
  - intros H. rewrite M_balance. destruct (Nat.eq_dec _ _); [contradiction | reflexivity].
  - apply M_move.
  - pose proof (M_move g3 g2 g1 g0) as A. rewrite (M_rev (pred g0) g1 g2 g3), (M_rev g0 (pred g1) g2 g3), (M_rev g0 g1 g2 (S g3)), (M_rev g0 g1 (S g2) g3) in A. exact A.
  - apply M_scale.
Qed.
Lemma M_first : 0 < M 0 0 0 0.
Proof.
  rewrite M_balance. cbn [Nat.add]. destruct (Nat.eq_dec 0 0) as [_|N]; [|contradiction].
  pose proof PI_RGT_0. apply Rmult_lt_0_compat; [apply pow_lt; assumption|]. unfold term, inner_sum. cbn [Nat.add rsum]. destruct (Nat.eq_dec 0 0) as [_|N]; [|contradiction].
  cbn [Nat.sub Nat.add pow]. unfold Binomial.C. cbn [fact Nat.sub INR gamma2]. pose proof (sqrt_lt_R0 PI PI_RGT_0). pose proof (sqrt_lt_R0 (2 * 1) ltac:(lra)).
  apply Rmult_lt_0_compat; [apply Rinv_0_lt_compat; assumption|]. lra.
Qed.
Definition plane_constant : R := M 0 0 0 0 / fourier 0 0 0 0.
Lemma plane_constant_pos : 0 < plane_constant.
Proof. apply Rdiv_lt_0_compat; [apply M_first | apply fourier_first]. Qed.
Lemma M_fourier g0 g1 g2 g3 : M g0 g1 g2 g3 = plane_constant * fourier g0 g1 g2 g3.
Proof.
  apply functional_unique; [apply M_symmetric | apply fourier_symmetric|]. unfold plane_constant. pose proof fourier_first. field. lra.
Qed.
