(** The statements of Prop_Float.v, put together. *)
From Coq Require Import List Arith ZArith Reals Bool Lra Lia.
From Flocq Require Import Core.
From Coquelicot Require Import Coquelicot.
From Verif Require Import Scalar ScalarC Spec EnergySpec GridSpec DensitySpec OneDim FloatModel FloatSpec FloatProofs FloatCode FloatGrid FloatExamples.
Import ListNotations.
Open Scope R_scope.

Lemma antisymmetry : forall u : nat -> nat -> nat -> nat -> C,
  (forall p q r s, anti_symmetrize u p q r s = Copp (anti_symmetrize u p q s r)) /\
  (forall n, particle_sym (K := CC) n u -> antisym_bra (K := CC) n (anti_symmetrize u)) /\
  (forall p q r s, cfloat (u p q r s) -> cfloat (u p q s r) ->
    (anti_symmetrize u p q r s = RtoC 0 <-> u p q r s = u p q s r) /\
    size (Cminus (anti_symmetrize u p q r s) (exch (K := CC) u p q r s)) <= unit_roundoff * size (exch (K := CC) u p q r s)).
Proof.
  intros u. split; [intros; apply anti_ket|]. split.
  - intros n H p q r s Hp Hq Hr Hs. apply (anti_bra u q p r s); apply H; assumption.
  - intros p q r s F F'. split; [apply csub_eq_0; assumption | apply anti_exch; assumption].
Qed.
Lemma spin_exact : forall (h : nat -> nat -> C) (u : nat -> nat -> nat -> nat -> C),
  (forall p q, cfloat (h p q)) -> (forall p q r s, cfloat (u p q r s)) ->
  (forall p q, add_spin1 h p q = dbl1 (K := CC) h p q) /\ (forall p q r s, add_spin2 u p q r s = dbl2 (K := CC) u p q r s).
Proof. intros h u Fh Fu. split; intros; [apply spin1_exact, Fh | apply spin2_exact, Fu]. Qed.
Lemma antisymmetry_instance : (forall p q r s, cfloat (ex_u p q r s)) /\ particle_sym (K := CC) 2 ex_u /\
  anti_symmetrize ex_u 0 1 0 1 = RtoC 1 /\ exch (K := CC) ex_u 0 1 0 1 = RtoC (1 + tiny) /\ 0 < tiny.
Proof.
  split; [exact ex_u_float|]. split; [|split; [apply ex_u_anti | split; [apply ex_u_anti | apply tiny_bounds]]].
  intros p q r s Hp Hq Hr Hs.
  destruct p as [|[|p]]; [| |lia]; (destruct q as [|[|q]]; [| |lia]); (destruct r as [|[|r]]; [| |lia]); (destruct s as [|[|s]]; [| |lia]); reflexivity.
Qed.
Lemma cgood_accurate n t s a v : cgood n t s a v -> accurate n t a s v.
Proof. intros (_ & _ & H). exact H. Qed.
Lemma one_body_accurate : forall l k h c d t, transform1 l k h c d t -> forall p q, (p < k)%nat -> (q < k)%nat ->
  accurate (4 * l) (4 * INR l * underflow * (1 + total l (d p))) (T1_size l h c d p q) (T1 (K := CC) l h c d p q) (t p q).
Proof. intros. apply cgood_accurate. eapply transform1_good; eassumption. Qed.
Lemma two_body_accurate : forall l k u c d t, transform2 l k u c d t ->
  forall p q r s, (p < k)%nat -> (q < k)%nat -> (r < k)%nat -> (s < k)%nat ->
  accurate (8 * l) (4 * INR l * underflow * (1 + total l (d p) * (1 + total l (d q) * (1 + total l (fun g => c g r)))))
    (T2_size l u c d p q r s) (T2 (K := CC) l u c d p q r s) (t p q r s).
Proof. intros. apply cgood_accurate. eapply transform2_good; eassumption. Qed.
Lemma functions_accurate : forall l k f c d,
  (forall t, transform_spf l k f c t -> forall p, (p < k)%nat ->
    accurate (2 * l) (4 * INR l * underflow) (rsum l (fun a => size (c a p) * size (f a)))
      (sumn (K := CC) l (fun a => Cmult (c a p) (f a))) (t p)) /\
  (forall t, transform_bra l k f d t -> forall p, (p < k)%nat ->
    accurate (2 * l) (4 * INR l * underflow) (rsum l (fun a => size (d p a) * size (f a)))
      (sumn (K := CC) l (fun a => Cmult (d p a) (f a))) (t p)).
Proof. intros. split; intros; apply cgood_accurate; [eapply transform_spf_good | eapply transform_bra_good]; eassumption. Qed.
Lemma growth : forall k, (Z.of_nat k <= 2 ^ 53)%Z -> 0 <= grow k - 1 <= 2 * INR k * unit_roundoff.
Proof.
  intros k Hk. pose proof (grow_ge_1 k). split; [lra|]. apply grow_small.
  assert (K : INR k <= 9007199254740992) by (rewrite INR_IZR_INZ; apply IZR_le; lia).
  assert (US : unit_roundoff = / 9007199254740992) by (unfold unit_roundoff; f_equal; lra).
  rewrite US. lra.
Qed.
Lemma change_instance :
  transform1 2 1 ex_h ex_c ex_c (fun _ _ => RtoC 1) /\ T1 (K := CC) 2 ex_h ex_c ex_c 0 0 = RtoC (1 + tiny) /\ 0 < tiny /\
  (forall l k h c d, exists t, transform1 l k h c d t) /\ (forall l k u c d, exists t, transform2 l k u c d t).
Proof.
  split; [apply ex_transform|]. split; [apply ex_transform|]. split; [apply tiny_bounds|].
  split; [exact transform1_exists | exact transform2_exists].
Qed.
Lemma energies_accurate : forall n h u,
  (forall p q, cfloat (h p q)) -> (forall p q r s, cfloat (u p q r s)) ->
  (forall e, reference_energy n h u e ->
    accurate (2 * n + 2) (2 * underflow) (E_size n h u) (E_general (K := CC) n h u) e) /\
  (forall e, reference_energy_restricted n h u e ->
    accurate (2 * n + 3) (4 * underflow) (E_size_restricted n h u) (E_restricted (K := CC) n h u) e).
Proof. intros n h u Fh Fu. split; intros e H; apply cgood_accurate; [apply energy_good | apply energy_restricted_good]; auto. Qed.
Lemma focks_accurate : forall l n h u,
  (forall p q, cfloat (h p q)) -> (forall p q r s, cfloat (u p q r s)) ->
  (forall f, fock_matrix l n h u f -> forall p q, (p < l)%nat -> (q < l)%nat ->
    accurate (n + 1) 0 (size (h p q) + rsum n (fun i => size (u p i q i))) (F_general (K := CC) n h u p q) (f p q)) /\
  (forall f, fock_matrix_restricted l n h u f -> forall p q, (p < l)%nat -> (q < l)%nat ->
    accurate (n + 3) (2 * underflow) (size (h p q) + rsum n (fun i => 2 * size (u p i q i) + size (u p i i q)))
      (F_restricted (K := CC) n h u p q) (f p q)).
Proof. intros l n h u Fh Fu. split; intros f H p q Hp Hq; apply cgood_accurate; [eapply fock_good | eapply fock_restricted_good]; eauto. Qed.
Lemma energy_instance : (forall p q, cfloat (ex_h p q)) /\ reference_energy 2 ex_h (fun _ _ _ _ => RtoC 0) (RtoC 1) /\
  E_general (K := CC) 2 ex_h (fun _ _ _ _ => RtoC 0) = RtoC (1 + tiny) /\
  (forall n h u, exists e, reference_energy n h u e) /\ (forall l n h u, exists f, fock_matrix l n h u f).
Proof.
  split.
  { intros p q. unfold ex_h. destruct (p =? q)%nat; [destruct (p =? 0)%nat|]; [apply cfloat_R, float_1 | apply cfloat_R, float_tiny | apply cfloat_0]. }
  split; [|split; [|split; [exact energy_exists | exact fock_exists]]].
  - exists (RtoC 1), (RtoC 0).
    assert (Z : forall l, summed (map fst (map (fun _ : nat => RtoC 0) l)) 0 /\ summed (map snd (map (fun _ : nat => RtoC 0) l)) 0).
    { intros l. assert (Q : left_sum (map (fun _ : nat => 0) l) = 0).
      { induction l; [reflexivity|]. cbn [map left_sum fold_right]. fold (left_sum (map (fun _ : nat => 0) l)). rewrite IHl. apply fadd_0_r, float_0. }
      rewrite !map_map. cbn. pose proof (summed_exists (map (fun _ : nat => 0) l)) as W. rewrite Q in W. split; exact W. }
    split; [|split].
    + split.
      * cbn. replace 1 with (fadd 1 tiny) at 2 by (unfold fadd; apply one_minus_tiny).
        apply (summed_add _ [1] [tiny]); [reflexivity | constructor | constructor].
      * cbn. replace 0 with (fadd 0 0) at 3 by (apply fadd_0_r, float_0).
        apply (summed_add _ [0] [0]); [reflexivity | constructor | constructor].
    + exists (fun _ => RtoC 0). split; [intros i _|]; apply (Z (seq 0 2)).
    + unfold rscale, cadd, fmul. cbn. rewrite !Rmult_0_r, fl_0, !fadd_0_r by (apply float_1 || apply float_0). reflexivity.
  - unfold E_general, ex_h. cbn [sumn Nat.eqb]. cc. change (@shalf CC) with (RtoC (/ 2)).
    unfold Cplus, Cmult, RtoC. cbn. f_equal; ring.
Qed.
Lemma grid_facts : forall L N, float L -> bpow radix2 (-900) <= L -> (2 <= N)%nat -> (Z.of_nat N <= 2 ^ 50)%Z ->
  flinspace L N 0 = - L /\ flinspace L N (N - 1) = L /\
  (forall i, (i < N)%nat -> float (flinspace L N i) /\ Rabs (flinspace L N i - linspace L N i) <= 6 * unit_roundoff * L) /\
  (forall i j, (i < j)%nat -> (j < N)%nat -> flinspace L N i < flinspace L N j) /\
  within (5 * INR (N - 1) * unit_roundoff) (2 * L / INR (N - 1)) (fsub (flinspace L N 1) (flinspace L N 0)).
Proof.
  intros L N F H1 H2 H3. split; [apply point_first; assumption|]. split; [apply point_last; assumption|].
  split; [intros i Hi; split; [apply point_float; assumption | apply point_error; assumption]|].
  split; [intros; apply point_increasing; assumption | apply spacing_error; assumption].
Qed.
Lemma bpow_le_1 e : (e <= 0)%Z -> bpow radix2 e <= 1.
Proof. intros H. change 1 with (bpow radix2 0). apply bpow_le. exact H. Qed.
Lemma grid_instance : float 10 /\ bpow radix2 (-900) <= 10 /\ (2 <= 401)%nat /\ (Z.of_nat 401 <= 2 ^ 50)%Z.
Proof.
  split; [apply float_IZR; lia|]. split; [|split; lia]. pose proof (bpow_le_1 (-900) ltac:(lia)). lra.
Qed.
Lemma kernel_facts : forall x1 x2 alpha a, float x1 -> float x2 -> 0 < alpha -> bpow radix2 (-450) <= Rabs a ->
  fcoulomb x1 x2 alpha a = fcoulomb x2 x1 alpha a /\
  fcoulomb x1 x2 alpha a <= fcoulomb x1 x1 alpha a /\
  (bpow radix2 (-1021) <= shielded_coulomb x1 x2 alpha a ->
    0 < fcoulomb x1 x2 alpha a /\ within (grow 4 - 1) (shielded_coulomb x1 x2 alpha a) (fcoulomb x1 x2 alpha a)).
Proof.
  intros x1 x2 alpha a F1 F2 A Ha. split; [apply coulomb_sym|]. split; [apply coulomb_diagonal; assumption|].
  intros HV. pose proof (coulomb_close x1 x2 alpha a F1 F2 A Ha HV) as Cl. pose proof (bpow_gt_0 radix2 (-1021)).
  split.
  - destruct Cl as (C1 & _). pose proof (grow_ge_1 4). destruct (Rle_dec (fcoulomb x1 x2 alpha a) 0); [nra | lra].
  - unfold within. rewrite (Rabs_right (shielded_coulomb _ _ _ _)) by lra. apply close_rel; [lra | exact Cl].
Qed.
Lemma kernel_value x1 x2 : Rabs (x1 - x2) <= 5 -> bpow radix2 (-1021) <= shielded_coulomb x1 x2 1 (1 / 4).
Proof.
  intros H. unfold shielded_coulomb. apply Rle_trans with (/ 8).
  - apply Rle_trans with (bpow radix2 (-3)); [apply bpow_le; lia | cbn; lra].
  - unfold Rdiv. rewrite Rmult_1_l. assert (S8 : sqrt ((x1 - x2) ^ 2 + (1 * / 4) ^ 2) <= 8).
    { replace 8 with (sqrt (8 * 8)) by (apply sqrt_square; lra). apply sqrt_le_1_alt.
      apply Rabs_le_inv in H. nra. }
    apply Rinv_le_contravar; [|exact S8]. apply sqrt_lt_R0. pose proof (pow2_ge_0 (x1 - x2)). lra.
Qed.
Lemma kernel_instance : float 3 /\ float (-2) /\ 0 < 1 /\ bpow radix2 (-450) <= Rabs (1 / 4) /\
  bpow radix2 (-1021) <= shielded_coulomb 3 (-2) 1 (1 / 4).
Proof.
  split; [apply float_IZR; lia|]. split; [apply float_IZR; lia|]. split; [lra|]. split.
  - rewrite Rabs_right by lra. apply Rle_trans with (bpow radix2 (-2)); [apply bpow_le; lia | cbn; lra].
  - apply kernel_value. apply Rabs_le. lra.
Qed.
Lemma trapezoidal_accurate : forall n f x, float (x 0%nat) -> float (x 1%nat) -> (forall k, (k < n)%nat -> cfloat (f k)) ->
  let w := Rabs (x 1%nat - x 0%nat) in
  accurate (n + 4) (2 * underflow * (w + 1)) (trap n w (fun k => size (f k))) (trapz n f x) (ftrapz n f x).
Proof.
  intros n f x F0 F1 F w. apply cgood_accurate.
  pose proof (trapz_good n 0 f f (fun _ => 0) (fun k => size (f k)) x F0 F1 F (fun k _ => cgood_self (f k))) as G.
  cbv zeta in G. fold w in G. eapply cgood_eq; [| | | |exact G]; [reflexivity | | reflexivity | reflexivity].
  unfold trap. rewrite (rsum_ext _ _ (fun _ => 0)) by (intros; ring). rewrite rsum_const. ring.
Qed.
Lemma integrals_accurate : forall l spf N grid alpha a u, (2 <= N)%nat -> (forall i, (i < N)%nat -> float (grid i)) ->
  0 < alpha -> bpow radix2 (-450) <= Rabs a ->
  (forall i j, (i < N)%nat -> (j < N)%nat -> bpow radix2 (-1021) <= shielded_coulomb (grid i) (grid j) alpha a) ->
  fintegrals l spf N grid alpha a u ->
  forall p q r s, (p < l)%nat -> (q < l)%nat -> (r < l)%nat -> (s < l)%nat ->
  let w := Rabs (grid 1%nat - grid 0%nat) in
  accurate (2 * N + 20) (integral_underflow N w (spf p) (spf r) (spf s))
    (integral_size N w (fun i j => shielded_coulomb (grid i) (grid j) alpha a) (spf p) (spf q) (spf r) (spf s))
    (orbital_integral spf N grid alpha a p q r s) (u p q r s).
Proof.
  intros l spf N grid alpha a u HN Fg A Ha HV Hu p q r s Hp Hq Hr Hs w. apply cgood_accurate.
  eapply integrals_good; eassumption.
Qed.
Lemma integrals_instance : (forall l spf, exists u, fintegrals l spf 3 (fun i => INR i - 1) 1 (1 / 4) u) /\
  (forall i, (i < 3)%nat -> float (INR i - 1)) /\ bpow radix2 (-450) <= Rabs (1 / 4) /\
  (forall i j, (i < 3)%nat -> (j < 3)%nat -> bpow radix2 (-1021) <= shielded_coulomb (INR i - 1) (INR j - 1) 1 (1 / 4)).
Proof.
  split; [intros; apply integrals_exist|]. split; [|split; [apply kernel_instance|]].
  - intros i Hi. rewrite INR_IZR_INZ, <- minus_IZR. apply float_IZR. lia.
  - assert (B : forall i, (i < 3)%nat -> 0 <= INR i <= 2).
    { intros i Hi. split; [apply pos_INR|]. change 2 with (INR 2). apply le_INR. lia. }
    intros i j Hi Hj. apply kernel_value. pose proof (B i Hi). pose proof (B j Hj). apply Rabs_le. lra.
Qed.
Lemma levels : forall omega, bpow radix2 (-1000) <= omega ->
  (forall p, (Z.of_nat p < 2 ^ 51)%Z -> within unit_roundoff (odho_energy omega p) (fenergy omega p)) /\
  (forall p q, (p < q)%nat -> (Z.of_nat q < 2 ^ 51)%Z -> fenergy omega p < fenergy omega q).
Proof. intros w H. split; intros; [apply level_error; assumption | apply level_increasing; assumption]. Qed.
Lemma levels_instance : bpow radix2 (-1000) <= 1 / 4.
Proof. apply Rle_trans with (bpow radix2 (-2)); [apply bpow_le; lia | cbn; lra]. Qed.
Lemma density_accurate : forall l bra ket rho z, fdensity l bra ket rho z ->
  accurate (l * l + 4) (rsum2 l l (fun p q => 4 * underflow * (size (ket q) + 1)))
    (rsum2 l l (fun p q => size (bra p) * size (rho q p) * size (ket q))) (density_at (K := CC) l rho bra ket) z.
Proof. intros. apply cgood_accurate. apply density_good. assumption. Qed.
