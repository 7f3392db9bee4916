(** The two-body elements of the sinc-DVR system and a concrete grid. *)
From Coq Require Import List Arith ZArith Reals Lra Lia Bool.
From Flocq Require Import Core.
From Coquelicot Require Import Coquelicot.
From Verif Require Import OneDim SincDvr FloatModel FloatSpec FloatProofs FloatCode FloatGrid FloatTheorems FloatDvr FloatDvrSpec FloatDvrProofs.
Open Scope R_scope.
Local Notation U := unit_roundoff.

Lemma range_weaker L : bpow radix2 (-400) <= L -> bpow radix2 (-900) <= L.
Proof. intros H. eapply Rle_trans; [|exact H]. apply bpow_le. lia. Qed.
Lemma count_weaker (l : nat) : (Z.of_nat l <= 2 ^ 26)%Z -> (Z.of_nat l <= 2 ^ 50)%Z.
Proof. intros H. eapply Z.le_trans; [exact H|]. vm_compute. discriminate. Qed.
Lemma point_inside L l i : float L -> bpow radix2 (-900) <= L -> (2 <= l)%nat -> (Z.of_nat l <= 2 ^ 50)%Z -> (i < l)%nat -> - L <= flinspace L l i <= L.
Proof.
  intros F H1 H2 H3 Hi. destruct (grid_facts L l F H1 H2 H3) as [A [B [_ [M _]]]]. split.
  - destruct (Nat.eq_dec i 0) as [->|N]; [rewrite A; lra|]. rewrite <- A. apply Rlt_le, M; lia.
  - destruct (Nat.eq_dec i (l - 1)) as [->|N]; [rewrite B; lra|]. rewrite <- B at 2. apply Rlt_le, M; lia.
Qed.
Lemma within_size e x y : 0 <= x -> within e x y -> Rabs (y - x) <= e * x.
Proof. unfold within. intros H W. rewrite (Rabs_right x) in W by lra. exact W. Qed.
(** The exact kernel between the two ends of the grid is the smallest element. *)
Lemma data_error l L alpha a p q : float L -> bpow radix2 (-400) <= L -> (2 <= l)%nat -> (Z.of_nat l <= 2 ^ 26)%Z ->
  0 < alpha -> bpow radix2 (-450) <= Rabs a -> bpow radix2 (-1021) <= shielded_coulomb (- L) L alpha a -> (p < l)%nat -> (q < l)%nat ->
  0 < fdvr_data l L a alpha p q /\
  Rabs (fdvr_data l L a alpha p q - dvr_data l L a alpha p q) <= 8 * U * dvr_data l L a alpha p q + 13 * U * L * (alpha / a ^ 2).
Proof.
  intros F HL Hl Hl' Ha Hb Hs Hp Hq. pose proof (range_weaker _ HL) as HL2. pose proof (count_weaker _ Hl') as Hl2.
  destruct (grid_facts L l F HL2 Hl Hl2) as [_ [_ [P _]]].
  destruct (P p Hp) as [Fp Ep]. destruct (P q Hq) as [Fq Eq]. pose proof (point_inside L l p F HL2 Hl Hl2 Hp) as Ip. pose proof (point_inside L l q F HL2 Hl Hl2 Hq) as Iq.
  unfold fdvr_data, dvr_data. set (x := flinspace L l p) in *. set (y := flinspace L l q) in *. set (x' := linspace L l p) in *. set (y' := linspace L l q) in *.
  assert (L0 : 0 < L) by (eapply Rlt_le_trans; [apply bpow_gt_0 | exact HL]). assert (A0 : a <> 0). { intros ->. rewrite Rabs_R0 in Hb. pose proof (bpow_gt_0 radix2 (-450)). lra. }
  assert (A2 : 0 < a ^ 2) by (rewrite <- Rsqr_pow2; apply Rsqr_pos_lt; exact A0).
  destruct (kernel_facts x y alpha a Fp Fq Ha Hb) as [_ [_ K]].
  assert (Big : bpow radix2 (-1021) <= shielded_coulomb x y alpha a).
  { eapply Rle_trans; [exact Hs|]. unfold shielded_coulomb, Rdiv. apply Rmult_le_compat_l; [lra|]. pose proof (pow2_ge_0 (x - y)). apply Rinv_le_contravar; [apply sqrt_lt_R0; lra|]. apply sqrt_le_1_alt. nra. }
  destruct (K Big) as [K1 K2]. split; [exact K1|].
  assert (S0 : 0 < shielded_coulomb x y alpha a) by (eapply Rlt_le_trans; [apply (bpow_gt_0 radix2 (-1021)) | exact Big]).
  apply within_size in K2; [|lra]. pose proof (growth 4 ltac:(vm_compute; discriminate)) as [_ G]. replace (2 * INR 4 * U) with (8 * U) in G by (cbn; ring).
  pose proof (kernel_lipschitz (x - y) (x' - y') alpha a ltac:(lra) A0) as Lp. change (alpha / sqrt ((x - y) ^ 2 + a ^ 2)) with (shielded_coulomb x y alpha a) in Lp. change (alpha / sqrt ((x' - y') ^ 2 + a ^ 2)) with (shielded_coulomb x' y' alpha a) in Lp.
  assert (D : Rabs (x - y - (x' - y')) <= 12 * U * L). { replace (x - y - (x' - y')) with ((x - x') - (y - y')) by ring. pose proof (Rabs_triang (x - x') (- (y - y'))) as T. rewrite Rabs_Ropp in T. unfold Rminus at 1. lra. }
  set (k := alpha / a ^ 2) in *. assert (k0 : 0 < k) by (unfold k; apply Rdiv_lt_0_compat; assumption).
  set (f := fcoulomb x y alpha a) in *. set (s := shielded_coulomb x y alpha a) in *. set (t := shielded_coulomb x' y' alpha a) in *.
  assert (B : Rabs (s - t) <= 12 * U * (k * L)). { eapply Rle_trans; [exact Lp|]. eapply Rle_trans; [apply Rmult_le_compat_l; [lra | exact D]|]. apply Req_le. ring. }
  assert (U0 : 0 < U) by apply U_pos. pose proof U_tiny as Ut.
  assert (C1 : Rabs (f - s) <= 8 * U * s) by (eapply Rle_trans; [exact K2 | apply Rmult_le_compat_r; lra]).
  assert (st : s <= t + 12 * U * (k * L)). { apply Rabs_le_between in B. lra. }
  assert (kL : 0 < k * L) by (apply Rmult_lt_0_compat; assumption).
  assert (Z : 8 * U * s <= 8 * U * t + U * (k * L)). { eapply Rle_trans; [apply Rmult_le_compat_l; [lra | exact st]|]. rewrite Rmult_plus_distr_l. apply Rplus_le_compat_l. replace (8 * U * (12 * U * (k * L))) with (96 * U * (U * (k * L))) by ring. assert (0 < U * (k * L)) by (apply Rmult_lt_0_compat; assumption). nra. }
  replace (13 * U * L * k) with (13 * U * (k * L)) by ring. replace (f - t) with ((f - s) + (s - t)) by ring. pose proof (Rabs_triang (f - s) (s - t)). lra.
Qed.
Lemma dvr_instance : good_square (fun x => fmul x x) /\ float 10 /\ bpow radix2 (-400) <= 10 <= bpow radix2 400 /\ (2 <= 401)%nat /\ (Z.of_nat 401 <= 2 ^ 26)%Z /\
  0 < 1 /\ bpow radix2 (-450) <= Rabs (1 / 4) /\ bpow radix2 (-1021) <= shielded_coulomb (- 10) 10 1 (1 / 4).
Proof.
  split; [exact rounded_square|]. split; [apply float_IZR; lia|]. pose proof (bpow_le_1 (-400) ltac:(lia)) as B1.
  assert (B2 : bpow radix2 4 <= bpow radix2 400) by (apply bpow_le; lia). change (bpow radix2 4) with 16 in B2. generalize dependent (bpow radix2 400). generalize dependent (bpow radix2 (-400)). intros b B1 c B2.
  split; [lra|]. split; [lia|]. split; [lia|]. split; [lra|]. split.
  - rewrite Rabs_right by lra. apply Rle_trans with (bpow radix2 (-2)); [apply bpow_le; lia | cbn; lra].
  - apply Rle_trans with (bpow radix2 (-5)); [apply bpow_le; lia|]. unfold shielded_coulomb. set (z := (- (10) - 10) ^ 2 + (1 / 4) ^ 2). assert (Z : 0 < z <= 32 * 32) by (unfold z; lra). unfold Rdiv.
    assert (S : sqrt z <= 32) by (rewrite <- (sqrt_square 32) by lra; apply sqrt_le_1_alt; lra). assert (P : 0 < sqrt z) by (apply sqrt_lt_R0; lra).
    rewrite Rmult_1_l. change (bpow radix2 (-5)) with (/ 32). apply Rinv_le_contravar; assumption.
Qed.
Lemma h_offdiagonal sq l L : good_square sq -> float L -> bpow radix2 (-400) <= L -> L <= bpow radix2 400 -> (2 <= l)%nat -> (Z.of_nat l <= 2 ^ 26)%Z ->
  forall V fv i j, (i < l)%nat -> (j < l)%nat -> i <> j -> within (35 * INR (l - 1) * U) (dvr_h l L V i j) (fdvr_h sq l L fv i j).
Proof. intros A B C D E F V fv i j Hi Hj N. unfold fdvr_h. rewrite (proj2 (Nat.eqb_neq i j) N). apply off_diagonal; assumption. Qed.
Lemma exact_symmetry sq l L a alpha fv : (forall i j, fdvr_h sq l L fv i j = fdvr_h sq l L fv j i) /\
  (forall p q, fdvr_data l L a alpha p q = fdvr_data l L a alpha q p) /\
  (forall i j k, i <> j -> fdvr_h sq l L fv (i + k) (j + k) = fdvr_h sq l L fv i j).
Proof.
  split; [apply dvr_symmetric|]. split; [apply data_symmetric|]. intros i j k N. unfold fdvr_h. rewrite (proj2 (Nat.eqb_neq i j) N), (proj2 (Nat.eqb_neq (i + k) (j + k))) by lia. apply kinetic_shift.
Qed.
