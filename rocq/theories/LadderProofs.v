(** Multiplication of the two-dimensional orbitals with x + i y, and the dipole matrix. *)
From Coq Require Import List Arith ZArith Reals Bool Lra Lia.
From Coquelicot Require Import Coquelicot.
From Verif Require Import TwoDim Angular AngularProofs Gauss Moments Laguerre Orbitals OrbitalSpec OrbitalProofs MatrixProofs LadderSpec.
Open Scope R_scope.

(** ** Recurrences of the Laguerre polynomials *)
Lemma laguerre_lag n k x : laguerre n k x = sum_f_R0 (fun i => lag n k i * x ^ i) n.
Proof. reflexivity. Qed.
Lemma lag_top n k : lag n k n = (-1) ^ n / INR (fact n).
Proof. unfold lag. rewrite Nat.sub_diag, (Nat.add_comm k n). cbn [fact INR]. pose proof (fact_pos n). pose proof (fact_pos (n + k)). field. split; lra. Qed.
Lemma lag_step n k i : (i <= n)%nat -> lag (S n) (S k) i - lag n (S k) i = lag (S n) k i.
Proof.
  intros H. unfold lag. rewrite (Nat.sub_succ_l i n H). replace (n + S k)%nat with (S (n + k)) by lia. replace (S n + S k)%nat with (S (S (n + k))) by lia. replace (S n + k)%nat with (S (n + k)) by lia.
  replace (S k + i)%nat with (S (k + i)) by lia. rewrite !fact_S.
  pose proof (fact_pos (n - i)). pose proof (fact_pos (k + i)). pose proof (fact_pos i). pose proof (fact_pos (n + k)).
  rewrite !S_INR, !plus_INR, minus_INR by exact H. pose proof (pos_INR k). pose proof (pos_INR i). pose proof (le_INR i n H).
  field. repeat split; lra.
Qed.
Lemma laguerre_up n k x : laguerre (S n) k x = laguerre (S n) (S k) x - laguerre n (S k) x.
Proof.
  rewrite !laguerre_lag. rewrite !tech5, !lag_top.
  assert (E : sum_f_R0 (fun i => lag (S n) k i * x ^ i) n = sum_f_R0 (fun i => lag (S n) (S k) i * x ^ i) n - sum_f_R0 (fun i => lag n (S k) i * x ^ i) n).
  { rewrite <- minus_sum. apply sum_ext. intros i Hi. rewrite <- lag_step by exact Hi. ring. }
  rewrite E. ring.
Qed.
Lemma laguerre_0 k x : laguerre 0 k x = 1.
Proof. rewrite laguerre_lag. cbn [sum_f_R0 pow]. rewrite lag_top. cbn [fact INR pow]. field. Qed.
Lemma lag_down n k i : (i < n)%nat -> lag n (S k) i = (INR n + INR k + 1) * lag n k (S i) - (INR n + 1) * lag (S n) k (S i).
Proof.
  intros H. unfold lag. cbn [Nat.sub]. destruct (n - i)%nat as [|j] eqn:E; [lia|]. replace (n - S i)%nat with j by lia. 
  replace (n + S k)%nat with (S (n + k)) by lia. replace (S n + k)%nat with (S (n + k)) by lia. replace (k + S i)%nat with (S (k + i)) by lia. replace (S k + i)%nat with (S (k + i)) by lia.
  assert (F : INR n = INR j + 1 + INR i) by (rewrite <- S_INR, <- plus_INR; f_equal; lia).
  rewrite !fact_S. pose proof (fact_pos j). pose proof (fact_pos (k + i)). pose proof (fact_pos i). pose proof (fact_pos (n + k)).
  rewrite !S_INR, !plus_INR, F. pose proof (pos_INR k). pose proof (pos_INR i). pose proof (pos_INR j). cbn [pow].
  field. repeat split; lra.
Qed.
Lemma lag_bottom n k : (INR n + INR k + 1) * lag n k 0 = (INR n + 1) * lag (S n) k 0.
Proof.
  unfold lag. rewrite !Nat.sub_0_r, !Nat.add_0_r. cbn [Nat.add]. rewrite !fact_S, !S_INR, !plus_INR. cbn [fact INR pow].
  pose proof (fact_pos n). pose proof (fact_pos k). pose proof (pos_INR n). field. repeat split; lra.
Qed.
Lemma laguerre_down n k x : x * laguerre n (S k) x = (INR n + INR k + 1) * laguerre n k x - (INR n + 1) * laguerre (S n) k x.
Proof.
  destruct n as [|n].
  - rewrite !laguerre_0, laguerre_lag. cbn [sum_f_R0]. rewrite lag_top. pose proof (lag_bottom 0 k) as B. rewrite lag_top in B. cbn [fact Nat.mul Nat.add INR pow] in *. lra.
  - rewrite !laguerre_lag. rewrite (decomp_sum (fun i => lag (S n) k i * x ^ i) (S n)) by lia. rewrite (decomp_sum (fun i => lag (S (S n)) k i * x ^ i) (S (S n))) by lia. cbn [pred].
    rewrite (tech5 (fun i => lag (S n) (S k) i * x ^ i)). rewrite (tech5 (fun i => lag (S (S n)) k (S i) * x ^ S i)).
    rewrite !lag_top, !pow_O, !Rmult_1_r.
    assert (E : x * sum_f_R0 (fun i => lag (S n) (S k) i * x ^ i) n
      = (INR (S n) + INR k + 1) * sum_f_R0 (fun i => lag (S n) k (S i) * x ^ S i) n - (INR (S n) + 1) * sum_f_R0 (fun i => lag (S (S n)) k (S i) * x ^ S i) n).
    { rewrite <- !sum_scal, <- minus_sum. apply sum_ext. intros i Hi. rewrite (lag_down (S n) k i) by lia. cbn [pow]. ring. }
    rewrite Rmult_plus_distr_l, E. pose proof (lag_bottom (S n) k) as B.
    assert (T : x * ((-1) ^ S n / INR (fact (S n)) * x ^ S n) = - ((INR (S n) + 1) * ((-1) ^ S (S n) / INR (fact (S (S n))) * x ^ S (S n)))).
    { rewrite (fact_S (S n)), (S_INR (S n)). pose proof (fact_pos (S n)). pose proof (pos_INR (S n)). cbn [pow]. field. split; lra. }
    rewrite T. lra.
Qed.

(** ** x + i y applied to an orbital *)
Section Ladder.
  Variables mass omega : R.
  Hypothesis Hm : 0 < mass.
  Hypothesis Hw : 0 < omega.
  Notation a := (bohr_radius mass omega).
  Definition Nn (n k : nat) : R := a * sqrt (INR (fact n) / (PI * INR (fact (n + k)))).
  Lemma norm_up n k : Nn n k = sqrt (INR (n + k + 1)) * Nn n (S k).
  Proof.
    unfold Nn. replace (sqrt (INR (n + k + 1)) * (a * sqrt (INR (fact n) / (PI * INR (fact (n + S k)))))) with (a * (sqrt (INR (n + k + 1)) * sqrt (INR (fact n) / (PI * INR (fact (n + S k)))))) by ring.
    rewrite <- sqrt_mult_alt by apply pos_INR. f_equal. f_equal. replace (n + S k)%nat with (S (n + k)) by lia. rewrite fact_S. replace (n + k + 1)%nat with (S (n + k)) by lia.
    pose proof (fact_pos n). pose proof (fact_pos (n + k)). pose proof PI_RGT_0. pose proof (lt_0_INR (S (n + k)) ltac:(lia)). field. lra.
  Qed.
  Lemma norm_shift n k : Nn (S n) k = sqrt (INR (S n)) * Nn n (S k).
  Proof.
    unfold Nn. replace (sqrt (INR (S n)) * (a * sqrt (INR (fact n) / (PI * INR (fact (n + S k)))))) with (a * (sqrt (INR (S n)) * sqrt (INR (fact n) / (PI * INR (fact (n + S k)))))) by ring.
    rewrite <- sqrt_mult_alt by apply pos_INR. f_equal. f_equal. replace (n + S k)%nat with (S n + k)%nat by lia. rewrite (fact_S n).
    pose proof (fact_pos (S n + k)). pose proof PI_RGT_0. field. lra.
  Qed.
  Definition radial (n k : nat) (r : R) : R := Nn n k * ((a * r) ^ k * laguerre n k (a ^ 2 * r ^ 2) * exp (- (a ^ 2) * r ^ 2 / 2)).
  Lemma state_radial n m r t : spf_state n m mass omega r t = (RtoC (radial n (Z.abs_nat m) r) * spf_theta t m)%C.
  Proof. unfold spf_state, radial, spf_norm, spf_radial. fold (Nn n (Z.abs_nat m)). rewrite (RtoC_mult (Nn n (Z.abs_nat m))). ring. Qed.
  Lemma radial_up_0 k r : a * r * radial 0 k r = sqrt (INR (k + 1)) * radial 0 (S k) r.
  Proof. unfold radial. rewrite (norm_up 0 k), !laguerre_0. cbn [Nat.add pow]. ring. Qed.
  Lemma radial_up n k r : a * r * radial (S n) k r = sqrt (INR (S n + k + 1)) * radial (S n) (S k) r - sqrt (INR (S n)) * radial n (S k) r.
  Proof.
    unfold radial. rewrite laguerre_up. set (e := exp _). set (L1 := laguerre _ _ _). set (L2 := laguerre _ _ _).
    replace (a * r * (Nn (S n) k * ((a * r) ^ k * (L1 - L2) * e))) with (Nn (S n) k * ((a * r) ^ S k * L1 * e) - Nn (S n) k * ((a * r) ^ S k * L2 * e)) by (cbn [pow]; ring).
    rewrite (norm_up (S n) k) at 1. rewrite (norm_shift n k). ring.
  Qed.
  Lemma radial_down n k r : a * r * radial n (S k) r = sqrt (INR (n + k + 1)) * radial n k r - sqrt (INR (S n)) * radial (S n) k r.
  Proof.
    unfold radial. set (e := exp _). pose proof (laguerre_down n k (a ^ 2 * r ^ 2)) as D. set (L1 := laguerre n (S k) _) in *. set (L2 := laguerre n k _) in *. set (L3 := laguerre (S n) k _) in *.
    replace (a * r * (Nn n (S k) * ((a * r) ^ S k * L1 * e))) with (Nn n (S k) * ((a * r) ^ k * e * (a ^ 2 * r ^ 2 * L1))) by (cbn [pow]; ring). rewrite D.
    rewrite (norm_up n k), (norm_shift n k).
    pose proof (sqrt_sqrt (INR (n + k + 1)) (pos_INR _)) as S1. pose proof (sqrt_sqrt (INR (S n)) (pos_INR _)) as S2.
    replace (INR n + INR k + 1) with (INR (n + k + 1)) by (rewrite !plus_INR; reflexivity). rewrite <- S_INR.
    transitivity (Nn n (S k) * ((a * r) ^ k * e * (sqrt (INR (n + k + 1)) * sqrt (INR (n + k + 1)) * L2 - sqrt (INR (S n)) * sqrt (INR (S n)) * L3))); [rewrite S1, S2; reflexivity | ring].
  Qed.

  (** (x + i y) psi as a sum of at most two orbitals *)
  Definition zpsi (n : nat) (m : Z) (r t : R) : C := (RtoC r * spf_theta t 1 * spf_state n m mass omega r t)%C.
  Lemma theta_turn t m : (spf_theta t 1 * spf_theta t m)%C = spf_theta t (m + 1).
  Proof.
    unfold spf_theta, Cmult. cbn [fst snd]. rewrite plus_IZR, Rmult_plus_distr_r, cos_plus, sin_plus. f_equal; ring.
  Qed.
  Lemma a_pos' : 0 < a.
  Proof. apply sqrt_lt_R0, Rmult_lt_0_compat; assumption. Qed.
  Lemma zpsi_value n m r t c1 c2 n1 n2 :
    a * r * radial n (Z.abs_nat m) r = c1 * radial n1 (Z.abs_nat (m + 1)) r + c2 * radial n2 (Z.abs_nat (m + 1)) r ->
    zpsi n m r t = (RtoC (c1 / a) * spf_state n1 (m + 1) mass omega r t + RtoC (c2 / a) * spf_state n2 (m + 1) mass omega r t)%C.
  Proof.
    intros H. unfold zpsi. rewrite !state_radial. pose proof a_pos'.
    transitivity (RtoC (a * r * radial n (Z.abs_nat m) r / a) * (spf_theta t 1 * spf_theta t m))%C.
    { replace (a * r * radial n (Z.abs_nat m) r / a) with (r * radial n (Z.abs_nat m) r) by (field; lra). rewrite RtoC_mult. ring. }
    rewrite H, theta_turn. replace ((c1 * radial n1 (Z.abs_nat (m + 1)) r + c2 * radial n2 (Z.abs_nat (m + 1)) r) / a)
      with (c1 / a * radial n1 (Z.abs_nat (m + 1)) r + c2 / a * radial n2 (Z.abs_nat (m + 1)) r) by (field; lra).
    rewrite RtoC_plus, !RtoC_mult. ring.
  Qed.

  (** ** Its matrix *)
  Notation orb := (orbital mass omega).
  Definition same (n : nat) (m : Z) (n' : nat) (m' : Z) : R := if (n =? n')%nat && (m =? m')%Z then 1 else 0.
  Lemma zpsi_bracket n0 m0 n m c1 c2 n1 n2 :
    (forall r, a * r * radial n (Z.abs_nat m) r = c1 * radial n1 (Z.abs_nat (m + 1)) r + c2 * radial n2 (Z.abs_nat (m + 1)) r) ->
    bracket (spf_state n0 m0 mass omega) (zpsi n m) (RtoC (c1 / a * same n0 m0 n1 (m + 1) + c2 / a * same n0 m0 n2 (m + 1))).
  Proof.
    intros H. pose proof (orthonormal mass omega Hm Hw n0 m0 n1 (m + 1)) as O1. pose proof (orthonormal mass omega Hm Hw n0 m0 n2 (m + 1)) as O2.
    apply (plane_scal (c1 / a)) in O1. apply (plane_scal (c2 / a)) in O2. pose proof (plane_add _ _ _ _ O1 O2) as O. unfold bracket.
    assert (E : forall x n' m', RtoC (x * same n0 m0 n' m') = (RtoC x * (if (n0 =? n')%nat && (m0 =? m')%Z then RtoC 1 else RtoC 0))%C).
    { intros x n' m'. rewrite RtoC_mult. unfold same. destruct ((n0 =? n')%nat && (m0 =? m')%Z); reflexivity. }
    rewrite RtoC_plus, !E. eapply plane_ext; [|exact O]. intros r t Hr. cbv beta. rewrite (zpsi_value n m r t c1 c2 n1 n2 (H r)). ring.
  Qed.
  Lemma sqrt_over x : sqrt (x / (mass * omega)) = sqrt x / a.
  Proof. apply sqrt_div_alt, Rmult_lt_0_compat; assumption. Qed.
  Lemma abs_pos k : Z.abs_nat (Z.of_nat k + 1) = S k. Proof. lia. Qed.
  Lemma abs_neg k : Z.abs_nat (- Z.of_nat (S k) + 1) = k. Proof. lia. Qed.
  Ltac cases := repeat match goal with |- context [(?x =? ?y)%Z] => destruct (Z.eqb_spec x y); try lia | |- context [(?x =? ?y)%nat] => destruct (Nat.eqb_spec x y); try lia end; cbn [andb]; try lia.
  Ltac finish := cases; try (field; lra);
    match goal with |- _ = _ * (sqrt (IZR ?x) / _) => first
      [ match goal with |- context [IZR (Z.of_nat ?y)] => replace x with (Z.of_nat y) by lia end; field; lra
      | match goal with |- _ + _ / _ * 1 = _ => match goal with |- context [IZR (Z.of_nat (S ?y))] => replace x with (Z.of_nat (S y)) by lia end end; field; lra ] end.
  Lemma turn_bracket s t : (0 <= fst s)%Z -> (0 <= fst t)%Z -> bracket (orb s) (zpsi (qn t) (qm t)) (RtoC (turn_element mass omega s t)).
  Proof.
    destruct s as [ns ms], t as [nt mt]. cbn [fst]. intros Hs Ht. unfold orbital, qn, qm. cbn [fst snd].
    destruct (Z_of_nat_complete ns Hs) as [n0 ->]. destruct (Z_of_nat_complete nt Ht) as [n ->]. rewrite !Nat2Z.id. pose proof a_pos' as Pa.
    unfold turn_element, left_quanta, right_quanta. cbn [fst snd]. rewrite !sqrt_over.
    destruct (Z_lt_le_dec mt 0) as [Hn|Hp].
    - destruct (Z_of_nat_complete (- mt - 1) ltac:(lia)) as [k Ek]. replace mt with (- Z.of_nat (S k))%Z in * by lia.
      pose proof (zpsi_bracket n0 ms n (- Z.of_nat (S k)) (sqrt (INR (n + k + 1))) (- sqrt (INR (S n))) n (S n)) as B.
      replace (Z.abs_nat (- Z.of_nat (S k))) with (S k) in B by lia. rewrite abs_neg in B.
      specialize (B ltac:(intros r; rewrite radial_down; ring)). eapply eq_ind; [exact B|]. f_equal. unfold same.
      rewrite !INR_IZR_INZ. finish.
    - destruct (Z_of_nat_complete mt Hp) as [k ->]. destruct n as [|n].
      + pose proof (zpsi_bracket n0 ms 0 (Z.of_nat k) (sqrt (INR (k + 1))) 0 0 0) as B. rewrite Zabs2Nat.id, abs_pos in B.
        specialize (B ltac:(intros r; rewrite radial_up_0; ring)). eapply eq_ind; [exact B|]. f_equal. unfold same. rewrite !INR_IZR_INZ. finish.
      + pose proof (zpsi_bracket n0 ms (S n) (Z.of_nat k) (sqrt (INR (S n + k + 1))) (- sqrt (INR (S n))) (S n) n) as B. rewrite Zabs2Nat.id, abs_pos in B.
        specialize (B ltac:(intros r; rewrite radial_up; ring)). eapply eq_ind; [exact B|]. f_equal. unfold same. rewrite !INR_IZR_INZ. finish.
  Qed.
End Ladder.
