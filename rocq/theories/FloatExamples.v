(** Every computation of the model has a result, and roundings really happen. *)
From Coq Require Import List Arith ZArith Reals Permutation Lra Lia Bool.
From Flocq Require Import Core.
From Coquelicot Require Import Coquelicot.
From Verif Require Import Scalar ScalarC Spec EnergySpec GridSpec OneDim FloatModel FloatSpec FloatProofs FloatCode FloatGrid.
Import ListNotations.
Open Scope R_scope.

(** The left-to-right sum is one of the results *)
Definition left_sum (l : list R) : R := fold_right fadd 0 l.
Definition left_dot (l : list (R * R)) : R := fold_right (fun t v => fadd (fmul (fst t) (snd t)) v) 0 l.
Lemma summed_exists l : summed l (left_sum l).
Proof.
  induction l as [|x l H]; [constructor|]. eapply (summed_add _ [x] l); [reflexivity | constructor | exact H].
Qed.
Lemma dotted_exists l : dotted l (left_dot l).
Proof.
  induction l as [|(x, y) l H]; [constructor|]. eapply (dotted_add _ [(x, y)] l); [reflexivity | constructor | exact H].
Qed.
Definition some_dot (l : list (C * C)) : C := (left_dot (flat_map re_terms l), left_dot (flat_map im_terms l)).
Lemma some_dot_ok l : cdotted l (some_dot l).
Proof. split; apply dotted_exists. Qed.
Definition some_sum (l : list C) : C := (left_sum (map fst l), left_sum (map snd l)).
Lemma some_sum_ok l : csummed l (some_sum l).
Proof. split; apply summed_exists. Qed.

Lemma transform1_exists l k h c d : exists t, transform1 l k h c d t.
Proof.
  set (m := fun i j => some_dot (map (fun x => (h i x, c x j)) (seq 0 l))).
  exists (fun i j => some_dot (map (fun x => (d i x, m x j)) (seq 0 l))), m.
  split; intros i j _ _; apply some_dot_ok.
Qed.
Lemma transform2_exists l k u c d : exists t, transform2 l k u c d t.
Proof.
  set (u1 := fun a b g s => some_dot (map (fun e => (u a b g e, c e s)) (seq 0 l))).
  set (u2 := fun a b r s => some_dot (map (fun g => (u1 a b g s, c g r)) (seq 0 l))).
  set (u3 := fun a q r s => some_dot (map (fun b => (u2 a b r s, d q b)) (seq 0 l))).
  exists (fun p q r s => some_dot (map (fun a => (d p a, u3 a q r s)) (seq 0 l))), u1, u2, u3.
  repeat split; intros; apply some_dot_ok.
Qed.
Lemma trace2_exists n w : exists t, trace2 n w t.
Proof.
  exists (some_sum (map (fun i => some_sum (map (w i) (seq 0 n))) (seq 0 n))), (fun i => some_sum (map (w i) (seq 0 n))).
  split; intros; apply some_sum_ok.
Qed.
Lemma energy_exists n h u : exists e, reference_energy n h u e.
Proof.
  destruct (trace2_exists n (fun i j => u i j i j)) as (t2 & H2).
  eexists. exists (some_sum (map (fun i => h i i) (seq 0 n))), t2. split; [apply some_sum_ok|]. split; [exact H2 | reflexivity].
Qed.
Lemma fock_exists l n h u : exists f, fock_matrix l n h u f.
Proof.
  exists (fun p q => cadd (cadd (RtoC 0) (h p q)) (some_sum (map (fun i => u p i q i) (seq 0 n)))).
  intros p q _ _. eexists. split; [apply some_sum_ok | reflexivity].
Qed.
Definition some_mul (z w : C) : C := some_dot [(z, w)].
Lemma some_mul_ok z w : cmul z w (some_mul z w).
Proof. apply some_dot_ok. Qed.
Lemma integrals_exist l spf N grid alpha a : exists u, fintegrals l spf N grid alpha a u.
Proof.
  set (inner := fun q s i => ftrapz N (fun j => some_mul (some_mul (Cconj (spf q j)) (RtoC (fcoulomb (grid i) (grid j) alpha a))) (spf s j)) grid).
  exists (fun p q r s => ftrapz N (fun j => some_mul (some_mul (Cconj (spf p j)) (inner q s j)) (spf r j)) grid), inner.
  split.
  - intros q s i _ _ _. eexists. split; [|reflexivity]. intros j _. eexists. split; apply some_mul_ok.
  - intros p q r s _ _ _ _. eexists. split; [|reflexivity]. intros j _. eexists. split; apply some_mul_ok.
Qed.
Lemma density_exists l bra ket rho : exists z, fdensity l bra ket rho z.
Proof.
  unfold fdensity. generalize (RtoC 0). induction (list_prod (seq 0 l) (seq 0 l)) as [|pq pqs IH]; intros z; [exists z; constructor|].
  destruct (IH (cadd z (some_mul (some_mul (bra (fst pq)) (rho (snd pq) (fst pq))) (ket (snd pq))))) as (v & H).
  exists v. econstructor; [|exact H]. econstructor; [apply some_mul_ok | apply some_mul_ok | reflexivity].
Qed.

(** 1 + 2^-60 rounds to 1 *)
Definition tiny : R := bpow radix2 (-60).
Lemma float_tiny : float tiny.
Proof. apply float_bpow. lia. Qed.
Lemma tiny_bounds : 0 < tiny < / 1000.
Proof.
  split; [apply bpow_gt_0|]. apply Rle_lt_trans with (bpow radix2 (-10)); [apply bpow_le; lia|]. cbn. lra.
Qed.
Lemma round_one x : Rabs x <= tiny -> 0 <= x -> fl (1 + x) = 1.
Proof.
  intros H X. rewrite Rabs_right in H by lra. pose proof tiny_bounds as Tb.
  assert (M : mag_val radix2 (1 + x) (mag radix2 (1 + x)) = 1%Z).
  { apply mag_unique. rewrite Rabs_right by lra. cbn. lra. }
  unfold fl, round, scaled_mantissa, cexp. rewrite M.
  change (f64 1) with (-52)%Z.
  assert (E : ZnearestE ((1 + x) * bpow radix2 (- -52)) = (2 ^ 52)%Z).
  { apply Znearest_imp. change (- -52)%Z with 52%Z.
    assert (Ex : x * bpow radix2 52 <= / 4).
    { apply Rle_trans with (tiny * bpow radix2 52); [apply Rmult_le_compat_r; [apply bpow_ge_0 | exact H]|].
      unfold tiny. rewrite <- bpow_plus. apply Rle_trans with (bpow radix2 (-2)); [apply bpow_le; lia | cbn; lra]. }
    assert (0 <= x * bpow radix2 52) by (apply Rmult_le_pos; [exact X | apply bpow_ge_0]).
    change (IZR (2 ^ 52)) with (bpow radix2 52).
    replace ((1 + x) * bpow radix2 52 - bpow radix2 52) with (x * bpow radix2 52) by ring.
    rewrite Rabs_right; lra. }
  rewrite E. unfold F2R. cbn. lra.
Qed.
Lemma one_minus_tiny : fl (1 + tiny) = 1 /\ 1 + tiny <> 1.
Proof. pose proof tiny_bounds. split; [apply round_one; [rewrite Rabs_right|]; lra | lra]. Qed.

Lemma cfloat_R x : float x -> cfloat (RtoC x).
Proof. intros H. split; [exact H | apply float_0]. Qed.

(** Two-body elements 1 and -2^-60 *)
Definition ex_u (p q r s : nat) : C :=
  if ((p =? 0) && (q =? 1) && (r =? 0) && (s =? 1) || (p =? 1) && (q =? 0) && (r =? 1) && (s =? 0))%nat%bool then RtoC 1
  else if ((p =? 0) && (q =? 1) && (r =? 1) && (s =? 0) || (p =? 1) && (q =? 0) && (r =? 0) && (s =? 1))%nat%bool then RtoC (- tiny)
  else RtoC 0.
Lemma ex_u_float p q r s : cfloat (ex_u p q r s).
Proof.
  unfold ex_u. destruct (_ || _)%bool; [apply cfloat_R, float_1|].
  destruct (_ || _)%bool; [apply cfloat_R, float_opp, float_tiny | apply cfloat_0].
Qed.
Lemma ex_u_anti : anti_symmetrize ex_u 0 1 0 1 = RtoC 1 /\ exch (K := CC) ex_u 0 1 0 1 = RtoC (1 + tiny).
Proof.
  pose proof tiny_bounds. split.
  - change (csub (RtoC 1) (RtoC (- tiny)) = RtoC 1). unfold csub, fsub. change (fst (RtoC 1)) with 1. change (fst (RtoC (- tiny))) with (- tiny).
    change (snd (RtoC 1)) with 0. change (snd (RtoC (- tiny))) with 0. replace (1 - - tiny) with (1 + tiny) by ring.
    rewrite (proj1 one_minus_tiny). rewrite Rminus_0_r, fl_0. reflexivity.
  - unfold exch. cbn. unfold Cminus, Cplus, Copp, RtoC. cbn. f_equal; ring.
Qed.

(** A 2 by 2 one-body operator: 1 and 2^-60 on the diagonal, summed over by C = (1, 1)^T *)
Definition ex_h (p q : nat) : C := if (p =? q)%nat then (if (p =? 0)%nat then RtoC 1 else RtoC tiny) else RtoC 0.
Definition ex_c (_ _ : nat) : C := RtoC 1.
Lemma dot1 x y : dotted [(x, y)] (fmul x y). Proof. constructor. Qed.
Lemma ex_re (z w z' w' : R) : float (fadd (fmul z w) (fmul z' w')) ->
  cdotted [(RtoC z, RtoC w); (RtoC z', RtoC w')] (RtoC (fadd (fmul z w) (fmul z' w'))).
Proof.
  intros F. split.
  - cbn. replace (fadd (fmul z w) (fmul z' w')) with (fadd (fadd (fmul z w) (fmul (- 0) 0)) (fadd (fmul z' w') (fmul (- 0) 0))).
    + apply (dotted_add _ [(z, w); (- 0, 0)] [(z', w'); (- 0, 0)]); [reflexivity | |].
      * apply (dotted_add _ [(z, w)] [(- 0, 0)]); [reflexivity | constructor | constructor].
      * apply (dotted_add _ [(z', w')] [(- 0, 0)]); [reflexivity | constructor | constructor].
    + replace (fmul (- 0) 0) with 0 by (unfold fmul; rewrite Rmult_0_r, fl_0; reflexivity).
      rewrite !fadd_0_r by apply fl_float. reflexivity.
  - cbn. replace 0 with (fadd (fadd (fmul z 0) (fmul 0 w)) (fadd (fmul z' 0) (fmul 0 w'))) at 5.
    + apply (dotted_add _ [(z, 0); (0, w)] [(z', 0); (0, w')]); [reflexivity | |].
      * apply (dotted_add _ [(z, 0)] [(0, w)]); [reflexivity | constructor | constructor].
      * apply (dotted_add _ [(z', 0)] [(0, w')]); [reflexivity | constructor | constructor].
    + unfold fadd, fmul. rewrite !Rmult_0_r, !Rmult_0_l, !fl_0, !Rplus_0_r, !fl_0, Rplus_0_r, fl_0. reflexivity.
Qed.
Lemma ex_transform : transform1 2 1 ex_h ex_c ex_c (fun _ _ => RtoC 1) /\ T1 (K := CC) 2 ex_h ex_c ex_c 0 0 = RtoC (1 + tiny).
Proof.
  pose proof float_tiny as Ft. pose proof float_1 as F1. pose proof tiny_bounds.
  split.
  - exists (fun i _ => if (i =? 0)%nat then RtoC 1 else RtoC tiny). split.
    + intros i j Hi Hj. cbn [seq map]. destruct i as [|[|i]]; [| |lia]; unfold ex_h, ex_c; cbn [Nat.eqb].
      * replace (RtoC 1) with (RtoC (fadd (fmul 1 1) (fmul 0 1))) at 4; [apply ex_re, fl_float|].
        unfold fmul. rewrite Rmult_0_l, fl_0, Rmult_1_r, (fl_id 1 F1), fadd_0_r by exact F1. reflexivity.
      * replace (RtoC tiny) with (RtoC (fadd (fmul 0 1) (fmul tiny 1))) at 2; [apply ex_re, fl_float|].
        unfold fmul. rewrite Rmult_0_l, fl_0, Rmult_1_r, (fl_id tiny Ft), fadd_0_l by exact Ft. reflexivity.
    + intros i j Hi Hj. cbn [seq map Nat.eqb]. unfold ex_c.
      replace (RtoC 1) with (RtoC (fadd (fmul 1 1) (fmul 1 tiny))) at 4; [apply ex_re, fl_float|].
      unfold fmul, fadd. rewrite !Rmult_1_l, (fl_id 1 F1), (fl_id tiny Ft), (proj1 one_minus_tiny). reflexivity.
  - unfold T1, ex_c, ex_h. cbn [sumn Nat.eqb]. cc. unfold Cplus, Cmult, RtoC. cbn. f_equal; ring.
Qed.
