(** Rounding errors of the sinc-DVR matrices. *)
From Coq Require Import List Arith ZArith Reals Lra Lia Bool.
From Flocq Require Import Core.
From Coquelicot Require Import Coquelicot.
From Verif Require Import OneDim SincDvr FloatModel FloatSpec FloatProofs FloatCode FloatGrid FloatDvr FloatDvrSpec.
From Verif Require OneDimProofs.
Open Scope R_scope.
Local Notation U := unit_roundoff.

Lemma U_tiny : U <= / 1000000.
Proof. pose proof U_small. lra. Qed.
Lemma within_close x y : 0 <= x -> within (2 * U) x y -> close 3 x y.
Proof.
  intros X H. unfold within in H. rewrite (Rabs_right x) in H by lra. apply Rabs_le_inv in H. destruct H as [A B]. pose proof U_pos as Up. pose proof U_tiny as Ut.
  assert (G : grow 3 = 1 + 3 * U + 3 * U ^ 2 + U ^ 3) by (unfold grow; ring). assert (0 <= U ^ 3) by (apply pow_le; lra). assert (0 <= U ^ 2) by (apply pow_le; lra). split.
  - assert (y * grow 3 >= x * (1 - 2 * U) * (1 + 3 * U)); [|assert ((1 - 2 * U) * (1 + 3 * U) >= 1) by nra; nra].
    assert (x * (1 - 2 * U) <= y) by lra. assert (0 <= x * (1 - 2 * U)) by (apply Rmult_le_pos; lra). rewrite G. apply Rle_ge. apply Rmult_le_compat; lra.
  - apply Rle_trans with (x * (1 + 2 * U)); [lra|]. apply Rmult_le_compat_l; lra.
Qed.
Lemma grow_10 k : (k <= 10)%nat -> grow k <= 1 + 20 * U.
Proof.
  intros H. pose proof (grow_le k 10 H). pose proof (grow_small 10) as G. pose proof U_pos. pose proof U_tiny. assert (INR 10 = 10) by (cbn; ring). rewrite H3 in G. specialize (G ltac:(lra)). lra.
Qed.
(** The error of the spacing enters twice. *)
Lemma spacing_twice A s w c r k : 0 < A -> 0 < s -> U * 5 <= r -> r <= / 1000 -> Rabs (w - s) <= r * s -> (k <= 10)%nat -> close k (A / w ^ 2) c -> Rabs (c - A / s ^ 2) <= 7 * r * (A / s ^ 2).
Proof.
  intros HA Hs Hr1 Hr2 Hw Hk [C1 C2]. pose proof U_pos as Up. apply Rabs_le_inv in Hw. pose proof (grow_10 k Hk) as G. pose proof (grow_ge_1 k) as G1. assert (G4 : grow k <= 1 + 4 * r) by lra. clear G.
  set (Q := A / s ^ 2) in *. assert (HQ : 0 < Q) by (apply Rdiv_lt_0_compat; [exact HA | nra]). assert (W0 : 0 < w) by nra.
  assert (EA : A / w ^ 2 = Q * (s / w) ^ 2) by (unfold Q; field; lra). rewrite EA in *.
  assert (R1 : s / w <= 1 + 101 / 100 * r) by (apply Rle_div_l; [exact W0|]; nra). assert (R2 : 1 - r <= s / w) by (apply Rle_div_r; [exact W0|]; nra).
  set (q := s / w) in *. assert (Q1 : q ^ 2 <= 1 + 203 / 100 * r) by nra. assert (Q2 : 1 - 2 * r <= q ^ 2) by nra. apply Rabs_le. split.
  - assert (Q * (1 - 2 * r) <= c * (1 + 4 * r)). { apply Rle_trans with (Q * q ^ 2); [apply Rmult_le_compat_l; lra|]. eapply Rle_trans; [exact C1|]. apply Rmult_le_compat_l; [|exact G4]. nra. }
    assert (Q * (1 - 7 * r) * (1 + 4 * r) <= c * (1 + 4 * r)); [|assert (Q * (1 - 7 * r) <= c) by (apply Rmult_le_reg_r with (1 + 4 * r); lra); lra].
    eapply Rle_trans; [|exact H]. rewrite Rmult_assoc. apply Rmult_le_compat_l; nra.
  - assert (c <= Q * ((1 + 203 / 100 * r) * (1 + 4 * r))). { eapply Rle_trans; [exact C2|]. rewrite Rmult_assoc. apply Rmult_le_compat_l; [lra|]. apply Rmult_le_compat; nra. }
    assert ((1 + 203 / 100 * r) * (1 + 4 * r) <= 1 + 7 * r) by nra. nra.
Qed.
Lemma close_quot j k a x b y : 0 <= a -> 0 <= b -> 0 < x -> 0 < y -> close j a b -> close k x y -> close (j + k) (a / x) (b / y).
Proof.
  intros Ha Hb Hx Hy Ca Cx. unfold Rdiv. apply close_mul; try assumption; try (apply Rlt_le, Rinv_0_lt_compat; assumption).
  pose proof (close_div k 1 x y Rle_0_1 Hx Hy Cx) as D. unfold Rdiv in D. rewrite !Rmult_1_l in D. exact D.
Qed.
Lemma close_pos k x y : 0 < x -> close k x y -> 0 < y.
Proof. intros X [A _]. pose proof (grow_ge_1 k). destruct (Rlt_le_dec 0 y) as [H1|H1]; [exact H1|]. nra. Qed.
Lemma close_lower k x y b : (k <= 10)%nat -> 0 < x -> close k x y -> b <= x -> b / 2 <= y.
Proof. intros Hk X C B. pose proof (close_pos k x y X C). destruct C as [A _]. pose proof (grow_10 k Hk). pose proof U_tiny. nra. Qed.
Lemma pow_m1 n : (-1) ^ n = 1 \/ (-1) ^ n = -1.
Proof. induction n as [|n [IH|IH]]; [left; reflexivity | right | left]; cbn; rewrite IH; ring. Qed.
Lemma sign_pow z : powerRZ (-1) z = 1 \/ powerRZ (-1) z = -1.
Proof. destruct z as [|p|p]; cbn [powerRZ]; [left; reflexivity | apply pow_m1|]. destruct (pow_m1 (Pos.to_nat p)) as [E|E]; rewrite E; [left | right]; field. Qed.
Lemma sign_opp z : powerRZ (-1) (- z) = powerRZ (-1) z.
Proof. destruct z as [|p|p]; cbn [powerRZ Z.opp]; [reflexivity | |]; destruct (pow_m1 (Pos.to_nat p)) as [E|E]; rewrite E; field. Qed.
Lemma regroup1 s t : s <> 0 -> t <> 0 -> 1 / t / s ^ 2 = 1 / (s ^ 2 * t).
Proof. intros. field. split; assumption. Qed.
Lemma regroup2 a s : s <> 0 -> a / 6 / s ^ 2 = a / (6 * s ^ 2).
Proof. intros. field. assumption. Qed.
Section Dvr.
  Variable sq : R -> R.
  Variables (l : nat) (L : R).
  Hypotheses (Hsq : good_square sq) (FL : float L) (HL : bpow radix2 (-400) <= L) (HL' : L <= bpow radix2 400) (Hl : (2 <= l)%nat) (Hl' : (Z.of_nat l <= 2 ^ 26)%Z).
  Notation n := (INR (l - 1)). Notation s := (2 * L / INR (l - 1)). Notation w := (fdx l L).
  Lemma n_ge : 1 <= n.
  Proof. change 1 with (INR 1). apply le_INR. lia. Qed.
  Lemma n_le : n <= bpow radix2 26.
  Proof. rewrite INR_IZR_INZ. change (bpow radix2 26) with (IZR (2 ^ 26)). apply IZR_le. lia. Qed.
  Lemma L_large : bpow radix2 (-900) <= L.
  Proof. eapply Rle_trans; [|exact HL]. apply bpow_le. lia. Qed.
  Lemma L_positive : 0 < L.
  Proof. pose proof (bpow_gt_0 radix2 (-400)). lra. Qed.
  Lemma s_positive : 0 < s.
  Proof. pose proof n_ge. pose proof L_positive. apply Rdiv_lt_0_compat; lra. Qed.
  Lemma w_near : Rabs (w - s) <= 5 * n * U * s.
  Proof.
    pose proof (spacing_error L l FL L_large Hl ltac:(lia)) as H. unfold within in H. rewrite (Rabs_right s) in H by (pose proof s_positive; lra). exact H.
  Qed.
  Lemma r_small : 5 * n * U <= / 1000.
  Proof.
    pose proof n_ge. pose proof n_le as N1. pose proof U_pos. change (bpow radix2 26) with 67108864 in N1.
    pose proof U_small as Us. apply Rle_trans with (5 * 67108864 * / 9007199254740992); [|lra]. apply Rmult_le_compat; try lra.
  Qed.
  Lemma r_large : U * 5 <= 5 * n * U.
  Proof. pose proof n_ge. pose proof U_pos. nra. Qed.
  Lemma w_bounds : bpow radix2 (-426) <= w /\ n * w <= bpow radix2 402.
  Proof.
    pose proof w_near as H. apply Rabs_le_inv in H. pose proof r_small as R1. pose proof n_ge. pose proof n_le. pose proof s_positive as Sp. pose proof L_positive. pose proof U_pos.
    assert (A : s * (1 - / 1000) <= w <= s * (1 + / 1000)) by (split; nra). split.
    - apply Rle_trans with (s * / 2); [|lra]. apply Rle_trans with (2 * bpow radix2 (-400) * bpow radix2 (-26) * / 2).
      + replace (2 * bpow radix2 (-400) * bpow radix2 (-26) * / 2) with (bpow radix2 (-400) * bpow radix2 (-26)) by field. rewrite <- bpow_plus. apply bpow_le. lia.
      + apply Rmult_le_compat_r; [lra|]. unfold Rdiv. apply Rmult_le_compat; [pose proof (bpow_ge_0 radix2 (-400)); lra | apply bpow_ge_0 | lra|].
        replace (bpow radix2 (-26)) with (/ bpow radix2 26) by (symmetry; apply (bpow_opp radix2 26)). apply Rinv_le_contravar; lra.
    - apply Rle_trans with (n * (s * 2)); [apply Rmult_le_compat_l; lra|]. replace (n * (s * 2)) with (4 * L) by (field; lra).
      change 402%Z with (2 + 400)%Z. rewrite bpow_plus. change (bpow radix2 2) with 4. apply Rmult_le_compat_l; lra.
  Qed.
  Lemma w_positive : 0 < w.
  Proof. pose proof w_bounds as [A _]. pose proof (bpow_gt_0 radix2 (-426)). lra. Qed.
  Lemma w_square : bpow radix2 (-852) <= w ^ 2.
  Proof.
    pose proof w_bounds as [A _]. replace (w ^ 2) with (w * w) by ring. change (-852)%Z with (-426 + -426)%Z. rewrite bpow_plus. pose proof (bpow_ge_0 radix2 (-426)). apply Rmult_le_compat; lra.
  Qed.
  Lemma sq_close : float (sq w) /\ close 3 (w ^ 2) (sq w).
  Proof.
    destruct (Hsq w) as [A B]; [apply fl_float | eapply Rle_trans; [|apply w_square]; apply bpow_le; lia|]. split; [exact A|]. apply within_close; [apply pow2_ge_0 | exact B].
  Qed.
  Lemma sq_pos : 0 < sq w.
  Proof. apply (close_pos 3 (w ^ 2)); [pose proof w_positive; nra | apply sq_close]. Qed.
  (** A denominator t w^2 with 1 <= t <= 6 n^2 *)
  Lemma below_close t : 1 <= t -> close 4 (t * w ^ 2) (fl (t * sq w)).
  Proof.
    intros Ht. pose proof w_positive. pose proof sq_pos. apply (close_trans 3 1 _ (t * sq w)).
    - destruct (proj2 sq_close) as [A B]. split; rewrite Rmult_assoc; apply Rmult_le_compat_l; lra.
    - apply fl_close. pose proof (close_lower 3 (w ^ 2) (sq w) _ ltac:(lia) ltac:(nra) (proj2 sq_close) w_square) as Q.
      apply Rle_trans with (bpow radix2 (-852) / 2); [|nra]. change (bpow radix2 (-852) / 2) with (bpow radix2 (-852) * bpow radix2 (-1)). rewrite <- bpow_plus. apply bpow_le. lia.
  Qed.
  Lemma top_bound t : 1 <= t -> t <= 6 * n ^ 2 -> t * w ^ 2 <= bpow radix2 808.
  Proof.
    intros Ht Ht'. pose proof w_positive as W. pose proof (proj2 w_bounds) as B. pose proof n_ge. apply Rle_trans with (6 * (n * w) ^ 2); [nra|].
    apply Rle_trans with (8 * (bpow radix2 402 * bpow radix2 402)).
    - assert (0 <= n * w) by nra. assert ((n * w) ^ 2 <= bpow radix2 402 * bpow radix2 402) by (replace ((n * w) ^ 2) with ((n * w) * (n * w)) by ring; apply Rmult_le_compat; lra). nra.
    - rewrite <- bpow_plus. change 8 with (bpow radix2 3). rewrite <- bpow_plus. apply bpow_le. lia.
  Qed.
  Lemma quotient_close j A B t : 1 <= A -> close j A B -> (j <= 5)%nat -> 1 <= t -> t <= 6 * n ^ 2 -> close (j + 5) (A / (t * w ^ 2)) (fdiv B (fl (t * sq w))).
  Proof.
    intros HA CA Hj Ht Ht'. pose proof w_positive as W. assert (X : 0 < t * w ^ 2) by (apply Rmult_lt_0_compat; nra). pose proof (below_close t Ht) as Cb. pose proof (close_pos 4 _ _ X Cb) as Y. pose proof (close_pos j A B ltac:(lra) CA) as HB.
    pose proof (close_quot j 4 A (t * w ^ 2) B _ ltac:(lra) ltac:(lra) X Y CA Cb) as Q. replace (j + 5)%nat with (j + 4 + 1)%nat by lia. apply (close_trans (j + 4) 1 _ (B / fl (t * sq w)) _ Q). apply fl_close.
    assert (P : 0 < A / (t * w ^ 2)) by (apply Rdiv_lt_0_compat; lra).
    assert (Lw : bpow radix2 (-808) <= A / (t * w ^ 2)).
    { apply Rle_trans with (1 / (t * w ^ 2)); [|unfold Rdiv; apply Rmult_le_compat_r; [apply Rlt_le, Rinv_0_lt_compat; exact X | exact HA]]. unfold Rdiv. rewrite Rmult_1_l.
      change (-808)%Z with (- (808))%Z. rewrite bpow_opp. apply Rinv_le_contravar; [exact X | apply top_bound; assumption]. }
    pose proof (close_lower (j + 4) _ _ _ ltac:(lia) P Q Lw) as D. eapply Rle_trans; [|exact D]. change (bpow radix2 (-808) / 2) with (bpow radix2 (-808) * bpow radix2 (-1)). rewrite <- bpow_plus. apply bpow_le. lia.
  Qed.
  Lemma dx_value : linspace L l 1 - linspace L l 0 = s.
  Proof. apply (OneDimProofs.linspace_step L l 0). Qed.
  Lemma off_diagonal V i j : (i < l)%nat -> (j < l)%nat -> i <> j -> within (35 * n * U) (dvr_h l L V i j) (fkinetic sq l L i j).
  Proof.
    intros Hi Hj Ne. unfold dvr_h, fkinetic, within. rewrite (proj2 (Nat.eqb_neq i j) Ne), dx_value. set (z := diff_grid i j).
    assert (Hz : 1 <= IZR (z ^ 2) <= n ^ 2). { unfold z, diff_grid. split; [apply IZR_le; nia|]. rewrite INR_IZR_INZ. replace (IZR (Z.of_nat (l - 1)) ^ 2) with (IZR (Z.of_nat (l - 1) ^ 2)) by (rewrite pow_IZR; reflexivity). apply IZR_le. nia. }
    assert (Ez : IZR z ^ 2 = IZR (z ^ 2)) by (rewrite pow_IZR; reflexivity). rewrite Ez. set (t := IZR (z ^ 2)) in *. set (q := 1 / (s ^ 2 * t)). set (c := fdiv 1 (fl (t * sq w))).
    pose proof n_ge. pose proof w_positive as W. pose proof s_positive as Sp.
    assert (B : Rabs (c - q) <= 35 * n * U * q).
    { pose proof (spacing_twice (1 / t) s w c (5 * n * U) 5 ltac:(apply Rdiv_lt_0_compat; lra) Sp r_large r_small w_near ltac:(lia)) as G.
      replace q with (1 / t / s ^ 2) by (unfold q; apply regroup1; lra). replace (35 * n * U) with (7 * (5 * n * U)) by ring. apply G.
      replace (1 / t / w ^ 2) with (1 / (t * w ^ 2)) by (field; lra). apply (quotient_close 0 1 1 t); [lra | split; rewrite grow_0; lra | lia | lra | nra]. }
    assert (Q0 : 0 <= q) by (apply Rlt_le, Rdiv_lt_0_compat; [lra|]; apply Rmult_lt_0_compat; [nra | lra]).
    replace (fmul (sq w) t) with (fl (t * sq w)) by (unfold fmul; f_equal; ring).
    destruct (sign_pow z) as [E|E]; rewrite E.
    - fold c. fold q. rewrite (Rabs_right q) by lra. exact B.
    - assert (E1 : fdiv (-1) (fl (t * sq w)) = - c) by (unfold c, fdiv; rewrite <- fl_opp; f_equal; unfold Rdiv; ring). assert (E2 : -1 / (s ^ 2 * t) = - q) by (unfold q, Rdiv; ring).
      rewrite E1, E2, Rabs_Ropp, (Rabs_right q) by lra. replace (- c - - q) with (- (c - q)) by ring. rewrite Rabs_Ropp. exact B.
  Qed.
  Lemma on_diagonal i : within (35 * n * U) (PI ^ 2 / (6 * s ^ 2)) (fkinetic sq l L i i).
  Proof.
    unfold fkinetic, within. rewrite Nat.eqb_refl. unfold fmul. pose proof n_ge. pose proof w_positive as W. pose proof s_positive as Sp. assert (Pi3 : 2 < PI) by (pose proof PI2_3_2; lra).
    assert (P1 : 0 < PI ^ 2 / 6) by nra.
    assert (Cp : close 5 (PI ^ 2) (sq (fl PI))).
    { assert (C1 : close 1 PI (fl PI)) by (apply fl_close; apply Rle_trans with 1; [change 1 with (bpow radix2 0); apply bpow_le; lia | lra]). pose proof (close_pos 1 PI (fl PI) ltac:(lra) C1) as Pf.
      assert (C2 : close 2 (PI ^ 2) (fl PI ^ 2)) by (replace (PI ^ 2) with (PI * PI) by ring; replace (fl PI ^ 2) with (fl PI * fl PI) by ring; apply (close_mul 1 1); try lra; assumption).
      apply (close_trans 2 3 _ (fl PI ^ 2) _ C2). destruct (Hsq (fl PI) (fl_float _)) as [_ Q]; [|apply within_close; [apply pow2_ge_0 | exact Q]].
      pose proof (close_lower 2 (PI ^ 2) (fl PI ^ 2) 2 ltac:(lia) ltac:(nra) C2 ltac:(nra)). apply Rle_trans with 1; [change 1 with (bpow radix2 0); apply bpow_le; lia | lra]. }
    pose proof (spacing_twice (PI ^ 2 / 6) s w (fdiv (sq (fl PI)) (fl (6 * sq w))) (5 * n * U) 10 P1 Sp r_large r_small w_near ltac:(lia)) as G.
    replace (PI ^ 2 / (6 * s ^ 2)) with (PI ^ 2 / 6 / s ^ 2) by (apply regroup2; lra). rewrite (Rabs_right (PI ^ 2 / 6 / s ^ 2)) by (apply Rle_ge, Rlt_le, Rdiv_lt_0_compat; [exact P1 | nra]).
    replace (35 * n * U) with (7 * (5 * n * U)) by ring. apply G. replace (PI ^ 2 / 6 / w ^ 2) with (PI ^ 2 / (6 * w ^ 2)) by (field; lra).
    apply (quotient_close 5); [nra | exact Cp | lia | lra | nra].
  Qed.
  Lemma kinetic_float i j : float (fkinetic sq l L i j).
  Proof. unfold fkinetic. destruct (i =? j)%nat; apply fl_float. Qed.
  Lemma diagonal_error fv V i : float (fv i) ->
    Rabs (fdvr_h sq l L fv i i - dvr_h l L V i i) <= 38 * n * U * (PI ^ 2 / (6 * s ^ 2)) + U * Rabs (V (linspace L l i)) + 2 * Rabs (fv i - V (linspace L l i)).
  Proof.
    intros Fv. pose proof (on_diagonal i) as D. unfold within in D. unfold fdvr_h, dvr_h. rewrite Nat.eqb_refl, dx_value. set (K := PI ^ 2 / (6 * s ^ 2)) in *. set (k := fkinetic sq l L i i) in *. set (x := V (linspace L l i)).
    assert (K0 : 0 < K) by (unfold K; pose proof PI_RGT_0; pose proof s_positive; apply Rdiv_lt_0_compat; nra). rewrite (Rabs_right K) in D by lra.
    pose proof (fl_add_err k (fv i) (kinetic_float i i) Fv) as A. change (fl (k + fv i)) with (fadd k (fv i)) in A. pose proof U_pos. pose proof U_tiny. pose proof r_small. pose proof n_ge.
    set (e := Rabs (fv i - x)). assert (E : Rabs (k + fv i) <= K + Rabs x + 35 * n * U * K + e).
    { replace (k + fv i) with ((K + (k - K)) + (x + (fv i - x))) by ring. eapply Rle_trans; [apply Rabs_triang|]. pose proof (Rabs_triang K (k - K)). pose proof (Rabs_triang x (fv i - x)). rewrite (Rabs_right K) in * by lra. unfold e. lra. }
    assert (e0 : 0 <= e) by apply Rabs_pos. assert (x0 : 0 <= Rabs x) by apply Rabs_pos.
    replace (fadd k (fv i) - (K + x)) with ((fadd k (fv i) - (k + fv i)) + ((k - K) + (fv i - x))) by ring. eapply Rle_trans; [apply Rabs_triang|]. pose proof (Rabs_triang (k - K) (fv i - x)) as T2. fold e in T2.
    assert (U * Rabs (k + fv i) <= U * (K + Rabs x + 35 * n * U * K + e)) by (apply Rmult_le_compat_l; lra).
    assert (U * (35 * n * U * K) <= 1 * (U * K)) by (replace (U * (35 * n * U * K)) with ((35 * n * U) * (U * K)) by ring; apply Rmult_le_compat_r; nra).
    assert (U * K <= n * U * K) by nra. assert (U * e <= e) by nra. assert (0 <= U * K) by nra. lra.
  Qed.
End Dvr.
Lemma kinetic_symmetric sq l L i j : fkinetic sq l L i j = fkinetic sq l L j i.
Proof.
  unfold fkinetic. rewrite (Nat.eqb_sym j i). destruct (i =? j)%nat; [reflexivity|]. replace (diff_grid j i) with (- diff_grid i j)%Z by (unfold diff_grid; lia). rewrite sign_opp. replace ((- diff_grid i j) ^ 2)%Z with (diff_grid i j ^ 2)%Z by ring. reflexivity.
Qed.
Lemma kinetic_shift sq l L i j k : fkinetic sq l L (i + k) (j + k) = fkinetic sq l L i j.
Proof.
  unfold fkinetic. replace (diff_grid (i + k) (j + k)) with (diff_grid i j) by (unfold diff_grid; lia). destruct (Nat.eqb_spec i j) as [->|N]; [rewrite Nat.eqb_refl; reflexivity|]. rewrite (proj2 (Nat.eqb_neq (i + k) (j + k))) by lia. reflexivity.
Qed.
Lemma dvr_symmetric sq l L fv i j : fdvr_h sq l L fv i j = fdvr_h sq l L fv j i.
Proof. unfold fdvr_h. rewrite (Nat.eqb_sym j i), (kinetic_symmetric sq l L j i). destruct (Nat.eqb_spec i j) as [->|]; reflexivity. Qed.
Lemma data_symmetric l L a alpha p q : fdvr_data l L a alpha p q = fdvr_data l L a alpha q p.
Proof. apply coulomb_sym. Qed.
Lemma rounded_square : good_square (fun x => fmul x x).
Proof.
  intros x Fx H. split; [apply fl_float|]. unfold fmul. replace (x * x) with (x ^ 2) by ring. unfold within. rewrite (Rabs_right (x ^ 2)) by (apply Rle_ge, pow2_ge_0).
  pose proof (fl_close (x ^ 2) ltac:(eapply Rle_trans; [|exact H]; apply bpow_le; lia)) as C. pose proof (close_rel 1 _ _ (pow2_ge_0 x) C) as E. rewrite grow_S, grow_0 in E. pose proof U_pos. pose proof (pow2_ge_0 x). eapply Rle_trans; [exact E|]. apply Rmult_le_compat_r; lra.
Qed.
(** The two-body elements *)
Lemma kernel_lipschitz x y alpha a : 0 <= alpha -> a <> 0 -> Rabs (alpha / sqrt (x ^ 2 + a ^ 2) - alpha / sqrt (y ^ 2 + a ^ 2)) <= alpha / a ^ 2 * Rabs (x - y).
Proof.
  intros Ha Hn. assert (A2 : 0 < a ^ 2) by (rewrite <- Rsqr_pow2; apply Rsqr_pos_lt; exact Hn). pose proof (pow2_ge_0 x). pose proof (pow2_ge_0 y).
  set (X := sqrt (x ^ 2 + a ^ 2)). set (Y := sqrt (y ^ 2 + a ^ 2)). assert (X0 : 0 < X) by (apply sqrt_lt_R0; lra). assert (Y0 : 0 < Y) by (apply sqrt_lt_R0; lra).
  assert (EX : X * X = x ^ 2 + a ^ 2) by (apply sqrt_sqrt; lra). assert (EY : Y * Y = y ^ 2 + a ^ 2) by (apply sqrt_sqrt; lra).
  assert (BX : Rabs x <= X) by (rewrite <- (sqrt_Rsqr_abs x), Rsqr_pow2; apply sqrt_le_1_alt; lra). assert (BY : Rabs y <= Y) by (rewrite <- (sqrt_Rsqr_abs y), Rsqr_pow2; apply sqrt_le_1_alt; lra).
  assert (AX : Rabs a <= X) by (rewrite <- (sqrt_Rsqr_abs a), Rsqr_pow2; apply sqrt_le_1_alt; lra). assert (AY : Rabs a <= Y) by (rewrite <- (sqrt_Rsqr_abs a), Rsqr_pow2; apply sqrt_le_1_alt; lra).
  replace (alpha / X - alpha / Y) with (alpha * ((y - x) * ((y + x) / (X + Y))) / (X * Y)).
  - unfold Rdiv at 1. rewrite !Rabs_mult, (Rabs_right alpha) by lra. rewrite (Rabs_minus_sym y x). rewrite (Rabs_right (/ (X * Y))) by (apply Rle_ge, Rlt_le, Rinv_0_lt_compat; nra).
    assert (Q : Rabs ((y + x) / (X + Y)) <= 1). { unfold Rdiv. rewrite Rabs_mult, (Rabs_right (/ (X + Y))) by (apply Rle_ge, Rlt_le, Rinv_0_lt_compat; lra). apply Rle_div_l; [lra|]. pose proof (Rabs_triang y x). lra. }
    assert (I : / (X * Y) <= / a ^ 2). { apply Rinv_le_contravar; [exact A2|]. replace (a ^ 2) with (Rabs a * Rabs a) by (rewrite <- Rabs_mult, Rabs_right; [ring | nra]). pose proof (Rabs_pos a). apply Rmult_le_compat; assumption. }
    assert (0 < / (X * Y)) by (apply Rinv_0_lt_compat; nra). pose proof (Rabs_pos (x - y)) as P. set (D := Rabs (x - y)) in *. set (q := Rabs ((y + x) / (X + Y))) in *. assert (0 <= q) by apply Rabs_pos.
    replace (alpha / a ^ 2 * D) with (alpha * (D * 1) * / a ^ 2) by (field; lra). apply Rmult_le_compat; [apply Rmult_le_pos; [exact Ha | apply Rmult_le_pos; assumption] | lra | | exact I].
    apply Rmult_le_compat_l; [exact Ha|]. apply Rmult_le_compat_l; assumption.
  - assert (E : (y - x) * (y + x) = (Y - X) * (Y + X)) by lra. transitivity (alpha * ((y - x) * (y + x)) / ((X + Y) * (X * Y))); [field; split; lra|]. rewrite E. field. split; lra.
Qed.
