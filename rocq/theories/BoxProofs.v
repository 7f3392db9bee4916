(** The eigenbasis of the grid Hamiltonian is unique up to signs; the particle in a box. *)
From Coq Require Import List Arith Reals Lra Lia Bool.
From Coquelicot Require Import Coquelicot.
From Verif Require Import Scalar ScalarC Py Numpy BasisSet Spec BasisSpec OneDim OneDimSpec OneDimProofs DotProofs GridSpec GridProofs QuadProofs SpectrumProofs NodeSpec NodeProofs ParityProofs ParityTheorems.
Import ListNotations.
Open Scope R_scope.

(** ** Uniqueness *)
Lemma partial_sums n (f g : nat -> R) : (forall m, (m <= n)%nat -> rsum m f = rsum m g) -> forall p, (p < n)%nat -> f p = g p.
Proof. intros H p Hp. pose proof (H (S p) Hp) as A. pose proof (H p ltac:(lia)) as B. cbn in A. lra. Qed.
Lemma levels_unique n h w v w' v' : (forall i j, h i j = h j i) -> eigenbasis n h w v -> eigenbasis n h w' v' -> forall p, (p < n)%nat -> w p = w' p.
Proof.
  intros Sy. assert (Half : forall w v w' v', eigenbasis n h w v -> eigenbasis n h w' v' -> forall m, (m <= n)%nat -> rsum m w <= rsum m w').
  { clear w v w' v'. intros w v w' v' H H' m Hm. eapply Rle_trans; [apply (ky_fan n h w v H Sy m (fun k i => v' i k) Hm)|].
    - intros k k' Hk Hk'. apply (eb_o n h w' v' H'); lia.
    - apply Req_le, rsum_ext. intros k Hk. unfold dotp, apply_h. rewrite (rsum_ext n _ (fun i => w' k * (v' i k * v' i k))).
      + rewrite rsum_scal, (eb_o n h w' v' H') by lia. rewrite rdelta_same. ring.
      + intros i Hi. rewrite (eb_e n h w' v' H') by lia. ring. }
  intros H H'. apply partial_sums. intros m Hm. apply Rle_antisym; eapply Half; eassumption.
Qed.
Section Vectors.
  Variables (L : R) (N : nat) (V : R -> R) (w w' : nat -> R) (v v' : nat -> nat -> R).
  Hypotheses (HL : 0 < L) (H3 : (3 <= N)%nat).
  Hypothesis H : eigenbasis (N - 2) (grid_hamiltonian L N V) w v.
  Hypothesis H' : eigenbasis (N - 2) (grid_hamiltonian L N V) w' v'.
  Let b1 := dot_basis 0 false false 0 L N 0 0 0 V (fun _ _ => (w, v)).
  Let b2 := dot_basis 0 false false 0 L N 0 0 0 V (fun _ _ => (w', v')).
  Let ok1 : odqd 0 false false 0 L N 0 0 0 V (fun _ _ => (w, v)) = (Ok tt, b1).
  Proof. apply dot_ok; lia. Qed.
  Let ok2 : odqd 0 false false 0 L N 0 0 0 V (fun _ _ => (w', v')) = (Ok tt, b2).
  Proof. apply dot_ok; lia. Qed.
  Lemma vectors_unique p : (p < N - 2)%nat -> exists e, (e = 1 \/ e = -1) /\ forall i, (i < N - 2)%nat -> v' i p = e * v i p.
  Proof.
    intros Hp. set (eg1 := fun (_ : nat) (_ : nat -> nat -> R) => (w, v)). set (eg2 := fun (_ : nat) (_ : nat -> nat -> R) => (w', v')).
    pose proof (levels_unique _ _ _ _ _ _ (grid_hamiltonian_sym L N V) H H' p Hp) as Ew.
    pose proof (yv_rec _ _ _ _ _ _ _ _ _ _ eg1 b1 ok1 HL H p) as R1. pose proof (yv_rec _ _ _ _ _ _ _ _ _ _ eg2 b2 ok2 HL H' p) as R2.
    pose proof (t_pos _ _ _ _ _ _ _ _ _ _ eg1 b1 ok1 HL) as T. set (t := / (2 * spacing L N ^ 2)) in *.
    set (y := yv L N V eg1) in *. set (z := yv L N V eg2) in *. set (aa := av L N V) in *.
    change (fst (eg1 (N - 2)%nat (grid_hamiltonian L N V))) with w in R1. change (fst (eg2 (N - 2)%nat (grid_hamiltonian L N V))) with w' in R2. rewrite <- Ew in R2.
    assert (Y1 : y p 1%nat <> 0).
    { apply (first_nonzero (N - 2) t aa w y T (yv_0 L N V eg1)); [exact (fun p => yv_rec _ _ _ _ _ _ _ _ _ _ eg1 b1 ok1 HL H p) | exact (yv_orth L N V eg1 H) | exact Hp]. }
    assert (Z : forall j, (0 <= j <= S (N - 2))%nat -> y p 1%nat * z p j - z p 1%nat * y p j = 0).
    { apply (up (N - 2) t aa T (fun j => y p 1%nat * z p j - z p 1%nat * y p j) (w p)).
      - intros k Hk. pose proof (R1 k Hp Hk) as A. pose proof (R2 k Hp Hk) as B.
        transitivity (y p 1%nat * ((aa k - w p) * z p (S k)) - z p 1%nat * ((aa k - w p) * y p (S k))); [ring|]. rewrite A, B. ring.
      - unfold y, z. rewrite !yv_0. ring.
      - ring. }
    set (e := z p 1%nat / y p 1%nat). assert (Ez : forall i, (i < N - 2)%nat -> v' i p = e * v i p).
    { intros i Hi. pose proof (Z (S i) ltac:(lia)) as E. unfold y at 2, z at 1 in E. rewrite !yv_S in E by exact Hi. cbn [snd eg1 eg2] in E. unfold e. apply Rmult_eq_reg_l with (y p 1%nat); [|exact Y1]. rewrite <- Rmult_assoc.
      replace (y p 1%nat * (z p 1%nat / y p 1%nat)) with (z p 1%nat) by (field; exact Y1). change (snd (eg1 (N - 2)%nat (grid_hamiltonian L N V)) i p) with (v i p) in E. change (snd (eg2 (N - 2)%nat (grid_hamiltonian L N V)) i p) with (v' i p) in E. lra. }
    exists e. split; [|exact Ez].
    assert (E1 : e * e = 1).
    { pose proof (eb_o _ _ _ _ H' p p Hp Hp) as A. rewrite (rsum_ext (N - 2) _ (fun i => e * e * (v i p * v i p))) in A by (intros i Hi; rewrite !Ez by exact Hi; ring).
      rewrite rsum_scal, (eb_o _ _ _ _ H p p Hp Hp), rdelta_same in A. lra. }
    assert (F : (e - 1) * (e + 1) = 0) by lra. apply Rmult_integral in F. destruct F; [left | right]; lra.
  Qed.
End Vectors.

(** ** Sines *)
Lemma sine_sum M al : sin al <> 0 -> 2 * sin al * rsum M (fun k => cos (2 * INR k * al)) = sin ((2 * INR M - 1) * al) + sin al.
Proof.
  intros Hs. induction M as [|M IH]; [cbn; replace ((2 * 0 - 1) * al) with (- al) by ring; rewrite sin_neg; ring|].
  change (rsum (S M) (fun k => cos (2 * INR k * al))) with (rsum M (fun k => cos (2 * INR k * al)) + cos (2 * INR M * al)). rewrite Rmult_plus_distr_l, IH, S_INR.
  replace ((2 * (INR M + 1) - 1) * al) with (2 * INR M * al + al) by ring. replace ((2 * INR M - 1) * al) with (2 * INR M * al - al) by ring. rewrite sin_plus, sin_minus. ring.
Qed.
Lemma sin_multiple k : sin (INR k * PI) = 0.
Proof. induction k as [|k IH]; [cbn; rewrite Rmult_0_l; apply sin_0|]. rewrite S_INR, Rmult_plus_distr_r, Rmult_1_l, sin_plus, sin_PI, cos_PI, IH. ring. Qed.
Lemma sine_squares n p : (p < n)%nat -> rsum n (fun k => sin (INR (S k) * (INR (S p) * PI / INR (S n))) ^ 2) = INR (S n) / 2.
Proof.
  intros Hp. set (al := INR (S p) * PI / INR (S n)). pose proof PI_RGT_0 as Pp. assert (M0 : 0 < INR (S n)) by (apply lt_0_INR; lia). assert (P0 : 0 < INR (S p)) by (apply lt_0_INR; lia).
  assert (Pm : INR (S p) < INR (S n)) by (apply lt_INR; lia).
  assert (A0 : 0 < al) by (unfold al; apply Rdiv_lt_0_compat; [apply Rmult_lt_0_compat; lra | lra]).
  assert (A1 : al < PI). { unfold al. apply Rmult_lt_reg_r with (INR (S n)); [lra|]. replace (INR (S p) * PI / INR (S n) * INR (S n)) with (PI * INR (S p)) by (field; lra). apply Rmult_lt_compat_l; lra. }
  assert (Sa : 0 < sin al) by (apply sin_gt_0; lra).
  assert (Z : rsum (S n) (fun k => cos (2 * INR k * al)) = 0).
  { pose proof (sine_sum (S n) al ltac:(lra)) as E. replace ((2 * INR (S n) - 1) * al) with (2 * (INR (S p) * PI) - al) in E by (unfold al; field; lra).
    rewrite sin_minus, sin_2a, cos_2a, sin_multiple in E. apply Rmult_eq_reg_l with (2 * sin al); [|lra]. rewrite E.
    assert (Cc : cos (INR (S p) * PI) * cos (INR (S p) * PI) = 1) by (pose proof (sin2_cos2 (INR (S p) * PI)) as Q; unfold Rsqr in Q; rewrite sin_multiple in Q; lra). rewrite Cc. ring. }
  rewrite (rsum_first n (fun k => cos (2 * INR k * al))) in Z. cbn [INR] in Z. replace (2 * 0 * al) with 0 in Z by ring. rewrite cos_0 in Z.
  rewrite (rsum_ext n _ (fun k => / 2 + (- / 2) * cos (2 * INR (S k) * al))).
  - rewrite rsum_add, rsum_const, rsum_scal. replace (rsum n (fun k => cos (2 * INR (S k) * al))) with (- 1) by (cbn [INR] in Z |- *; lra). rewrite S_INR. field.
  - intros k _. replace (2 * INR (S k) * al) with (2 * (INR (S k) * al)) by ring. rewrite cos_2a_sin. field.
Qed.

(** ** The particle in a box *)
Section Box.
  Variables (L : R) (N : nat) (c : R).
  Hypotheses (HL : 0 < L) (H3 : (3 <= N)%nat).
  Let n := (N - 2)%nat.
  Notation dx := (spacing L N).
  Definition box_angle (p : nat) : R := INR (S p) * PI / INR (N - 1).
  Definition box_level (p : nat) : R := c + (1 - cos (box_angle p)) / dx ^ 2.
  Definition box_vector (i p : nat) : R := sqrt (2 / INR (N - 1)) * sin (INR (S i) * box_angle p).
  Let M_pos : 0 < INR (N - 1). Proof. apply lt_0_INR; lia. Qed.
  Let d_pos : 0 < dx. Proof. apply spacing_pos; [exact HL | lia]. Qed.
  Lemma angle_range p : (p < n)%nat -> 0 < box_angle p < PI.
  Proof.
    intros Hp. unfold box_angle. pose proof PI_RGT_0 as Pp. assert (P0 : 0 < INR (S p)) by (apply lt_0_INR; lia). assert (INR (S p) < INR (N - 1)) by (apply lt_INR; lia).
    split; [apply Rdiv_lt_0_compat; [apply Rmult_lt_0_compat; lra | exact M_pos]|].
    apply Rmult_lt_reg_r with (INR (N - 1)); [exact M_pos|]. replace (INR (S p) * PI / INR (N - 1) * INR (N - 1)) with (PI * INR (S p)) by (field; lra). apply Rmult_lt_compat_l; lra.
  Qed.
  Lemma angle_mono p q : (p < q)%nat -> box_angle p < box_angle q.
  Proof.
    intros Hpq. unfold box_angle. pose proof PI_RGT_0 as Pp. assert (INR (S p) < INR (S q)) by (apply lt_INR; lia). apply Rmult_lt_compat_r; [apply Rinv_0_lt_compat, M_pos|].
    apply Rmult_lt_compat_r; assumption.
  Qed.
  Lemma level_mono p q : (p < q)%nat -> (q < n)%nat -> box_level p < box_level q.
  Proof.
    intros Hpq Hq. unfold box_level. pose proof (angle_range p ltac:(lia)). pose proof (angle_range q Hq). pose proof (angle_mono p q Hpq).
    assert (cos (box_angle q) < cos (box_angle p)) by (apply cos_decreasing_1; lra). apply Rplus_lt_compat_l. apply Rmult_lt_compat_r; [apply Rinv_0_lt_compat, pow_lt, d_pos | lra].
  Qed.
  Let g (p k : nat) : R := sqrt (2 / INR (N - 1)) * sin (INR k * box_angle p).
  Lemma box_eigen i p : (i < n)%nat -> rsum n (fun j => grid_hamiltonian L N (fun _ => c) i j * box_vector j p) = box_level p * box_vector i p.
  Proof.
    intros Hi. assert (G0 : g p 0%nat = 0) by (unfold g; cbn; rewrite Rmult_0_l, sin_0; ring).
    assert (Gn : g p (N - 1)%nat = 0) by (unfold g, box_angle; replace (INR (N - 1) * (INR (S p) * PI / INR (N - 1))) with (INR (S p) * PI) by (field; lra); rewrite sin_multiple; ring).
    pose proof (matrix_difference L N (fun _ => c) HL (g p) i H3 Hi G0 Gn) as E. unfold apply_h in E. unfold n in *. change (fun j => grid_hamiltonian L N (fun _ => c) i j * box_vector j p) with (fun j => grid_hamiltonian L N (fun _ => c) i j * g p (S j)).
    rewrite E. change (box_vector i p) with (g p (S i)). unfold box_level, g. replace (INR (S (S i))) with (INR (S i) + 1) by (rewrite (S_INR (S i)); reflexivity).
    replace (INR i) with (INR (S i) - 1) by (rewrite S_INR; ring). rewrite Rmult_plus_distr_r, Rmult_minus_distr_r, Rmult_1_l, sin_plus, sin_minus. field. lra.
  Qed.
  Lemma box_orthonormal p q : (p < n)%nat -> (q < n)%nat -> rsum n (fun i => box_vector i p * box_vector i q) = rdelta p q.
  Proof.
    intros Hp Hq. destruct (Nat.eq_dec p q) as [->|Hn].
    - rewrite rdelta_same. unfold box_vector. rewrite (rsum_ext n _ (fun i => 2 / INR (N - 1) * sin (INR (S i) * box_angle q) ^ 2)).
      + rewrite rsum_scal. pose proof (sine_squares n q Hq) as E. unfold n in *. replace (S (N - 2)) with (N - 1)%nat in E by lia. fold (box_angle q) in E. rewrite E. field. lra.
      + intros i _. assert (Q : sqrt (2 / INR (N - 1)) * sqrt (2 / INR (N - 1)) = 2 / INR (N - 1)) by (apply sqrt_sqrt; apply Rlt_le, Rdiv_lt_0_compat; lra).
        rewrite <- Q at 3. ring.
    - (* different levels of a symmetric matrix *)
      unfold rdelta. destruct (Nat.eqb_spec p q) as [?|_]; [contradiction|].
      set (s := rsum n (fun i => box_vector i p * box_vector i q)).
      assert (E : box_level p * s = box_level q * s).
      { unfold s. rewrite <- !rsum_scal.
        transitivity (rsum n (fun i => rsum n (fun j => grid_hamiltonian L N (fun _ => c) i j * box_vector j p) * box_vector i q)).
        { apply rsum_ext. intros i Hi. rewrite box_eigen by exact Hi. ring. }
        transitivity (rsum n (fun i => rsum n (fun j => grid_hamiltonian L N (fun _ => c) i j * box_vector j q) * box_vector i p)).
        2: { apply rsum_ext. intros i Hi. rewrite box_eigen by exact Hi. ring. }
        rewrite (rsum_ext n _ (fun i => rsum n (fun j => grid_hamiltonian L N (fun _ => c) i j * box_vector j p * box_vector i q))).
        2: { intros i _. rewrite Rmult_comm, <- rsum_scal. apply rsum_ext. intros; ring. }
        rewrite rsum_swap. apply rsum_ext. intros j _. rewrite Rmult_comm, <- rsum_scal. apply rsum_ext. intros i _. rewrite (grid_hamiltonian_sym L N (fun _ => c) i j). ring. }
      assert (D : box_level p <> box_level q).
      { destruct (Nat.lt_trichotomy p q) as [A|[A|A]]; [pose proof (level_mono p q A Hq); lra | contradiction | pose proof (level_mono q p A Hp); lra]. }
      assert (F : (box_level p - box_level q) * s = 0) by lra. apply Rmult_integral in F. destruct F; [exfalso; lra | assumption].
  Qed.
  Lemma box_right' : eigenbasis n (grid_hamiltonian L N (fun _ => c)) box_level box_vector.
  Proof.
    split.
    - intros p q Hp Hq. transitivity (RtoC (rsum n (fun i => box_vector i p * box_vector i q))).
      + rewrite <- csum_rsum. apply csum_ext. intros i _. symmetry. apply RtoC_mult.
      + rewrite box_orthonormal by assumption. unfold rdelta, kronecker. destruct (p =? q)%nat; reflexivity.
    - intros i p Hi Hp. transitivity (RtoC (rsum n (fun j => grid_hamiltonian L N (fun _ => c) i j * box_vector j p))).
      + rewrite <- csum_rsum. apply csum_ext. intros j _. symmetry. apply RtoC_mult.
      + rewrite box_eigen by assumption. apply RtoC_mult.
    - intros p q Hpq Hq. destruct (Nat.eq_dec p q) as [->|]; [lra|]. apply Rlt_le, level_mono; lia.
  Qed.
End Box.

(** ** Taylor bounds *)
Lemma cos_taylor x : 0 <= x <= PI -> x ^ 2 / 2 - x ^ 4 / 24 <= 1 - cos x <= x ^ 2 / 2.
Proof.
  intros Hx. set (y := x / 2). assert (Ex : x = 2 * y) by (unfold y; field). pose proof PI_4 as P4. assert (Hy : 0 <= y <= 2) by (unfold y; lra).
  replace (1 - cos x) with (2 * sin y ^ 2) by (rewrite Ex, cos_2a_sin; ring).
  destruct (pre_sin_bound y 0 ltac:(lra) ltac:(lra)) as [Lo Up]. unfold sin_approx, sin_term in Lo. cbn in Lo.
  assert (Lo' : y - y ^ 3 / 6 <= sin y) by (eapply Rle_trans; [|exact Lo]; apply Req_le; field).
  assert (Up' : sin y <= y). { destruct (Req_dec y 0) as [->|]; [rewrite sin_0; lra|]. apply Rlt_le, sin_lt_x. lra. }
  assert (Y2 : y ^ 2 <= 4) by (replace 4 with (2 ^ 2) by ring; apply pow_incr; lra).
  assert (Y0 : 0 <= y - y ^ 3 / 6). { replace (y - y ^ 3 / 6) with (y * (1 - y ^ 2 / 6)) by field. apply Rmult_le_pos; lra. }
  split.
  - assert (A : (y - y ^ 3 / 6) ^ 2 <= sin y ^ 2) by (apply pow_incr; lra). rewrite Ex. assert (0 <= y ^ 6 / 36) by (pose proof (pow_le y 6 ltac:(lra)); lra).
    replace ((y - y ^ 3 / 6) ^ 2) with (y ^ 2 - y ^ 4 / 3 + y ^ 6 / 36) in A by field. replace ((2 * y) ^ 2 / 2 - (2 * y) ^ 4 / 24) with (2 * (y ^ 2 - y ^ 4 / 3)) by field. lra.
  - assert (A : sin y ^ 2 <= y ^ 2) by (apply pow_incr; lra). rewrite Ex. replace ((2 * y) ^ 2 / 2) with (2 * y ^ 2) by field. lra.
Qed.
Lemma level_taylor L N c p : 0 < L -> (3 <= N)%nat -> (p < N - 2)%nat ->
  let k := INR (S p) * PI / (2 * L) in c + k ^ 2 / 2 - k ^ 4 / 24 * spacing L N ^ 2 <= box_level L N c p <= c + k ^ 2 / 2.
Proof.
  intros HL H3 Hp k. pose proof (spacing_pos L N HL ltac:(lia)) as D. pose proof (angle_range N H3 p Hp) as A. assert (M : 0 < INR (N - 1)) by (apply lt_0_INR; lia).
  assert (E : box_angle N p = k * spacing L N) by (unfold box_angle, k, spacing; field; lra). destruct (cos_taylor (box_angle N p) ltac:(lra)) as [Lo Up]. unfold box_level. rewrite E in *.
  assert (D2 : 0 < spacing L N ^ 2) by (apply pow_lt; exact D). split.
  - apply Rplus_le_reg_l with (- c). apply Rmult_le_reg_r with (spacing L N ^ 2); [exact D2|].
    replace ((- c + (c + (1 - cos (k * spacing L N)) / spacing L N ^ 2)) * spacing L N ^ 2) with (1 - cos (k * spacing L N)) by (field; lra). eapply Rle_trans; [|exact Lo]. apply Req_le. field.
  - apply Rplus_le_compat_l. apply Rmult_le_reg_r with (spacing L N ^ 2); [exact D2|].
    replace ((1 - cos (k * spacing L N)) / spacing L N ^ 2 * spacing L N ^ 2) with (1 - cos (k * spacing L N)) by (field; lra). eapply Rle_trans; [exact Up|]. apply Req_le. field.
Qed.
