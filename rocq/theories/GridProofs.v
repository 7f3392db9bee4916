(** Densities, energies and interaction elements on the grid of a one-dimensional quantum dot. *)
From Coq Require Import List Arith ZArith Reals Lra Lia Bool.
From Coquelicot Require Import Coquelicot.
From Verif Require Import Scalar ScalarC Py Numpy BasisSet Spec BasisSpec BasisFacts OneDim OneDimSpec OneDimProofs DotProofs LineProofs.
From Verif Require Import DensitySpec DensityProofs GridSpec.
Import ListNotations.
Open Scope R_scope.

(** ** Real sums *)
Lemma rsum_ext n f g : (forall k, (k < n)%nat -> f k = g k) -> rsum n f = rsum n g.
Proof. induction n as [|n IH]; intros H; [reflexivity|]. cbn. rewrite IH by (intros; apply H; lia). rewrite H by lia. reflexivity. Qed.
Lemma rsum_add n f g : rsum n (fun k => f k + g k) = rsum n f + rsum n g.
Proof. induction n as [|n IH]; cbn; [ring|]. rewrite IH. ring. Qed.
Lemma rsum_scal n c f : rsum n (fun k => c * f k) = c * rsum n f.
Proof. induction n as [|n IH]; cbn; [ring|]. rewrite IH. ring. Qed.
Lemma rsum_le n f g : (forall k, (k < n)%nat -> f k <= g k) -> rsum n f <= rsum n g.
Proof. induction n as [|n IH]; intros H; cbn; [lra|]. apply Rplus_le_compat; [apply IH; intros; apply H; lia | apply H; lia]. Qed.
Lemma rsum_const n c : rsum n (fun _ => c) = INR n * c.
Proof. induction n as [|n IH]; [cbn; ring|]. cbn [rsum]. rewrite IH, S_INR. ring. Qed.
Lemma rsum_nonneg n f : (forall k, (k < n)%nat -> 0 <= f k) -> 0 <= rsum n f.
Proof. intros H. replace 0 with (rsum n (fun _ => 0)); [apply rsum_le; exact H|]. rewrite rsum_const. ring. Qed.
Lemma rsum_zero n f : (forall k, (k < n)%nat -> f k = 0) -> rsum n f = 0.
Proof. intros H. rewrite (rsum_ext n f (fun _ => 0)) by exact H. rewrite rsum_const. ring. Qed.
Lemma rsum_null n f : (forall k, (k < n)%nat -> 0 <= f k) -> rsum n f = 0 -> forall k, (k < n)%nat -> f k = 0.
Proof.
  induction n as [|n IH]; intros H E k Hk; [lia|]. cbn in E. pose proof (rsum_nonneg n f ltac:(intros; apply H; lia)) as A. pose proof (H n ltac:(lia)) as B.
  destruct (Nat.eq_dec k n) as [->|Hn]; [lra|]. apply IH; [intros; apply H; lia | lra | lia].
Qed.
Lemma rsum_first n f : rsum (S n) f = f 0%nat + rsum n (fun i => f (S i)).
Proof. induction n as [|n IH]; [cbn; ring|]. cbn [rsum] in *. rewrite IH. ring. Qed.
Lemma rsum_swap n m f : rsum n (fun i => rsum m (fun j => f i j)) = rsum m (fun j => rsum n (fun i => f i j)).
Proof.
  induction n as [|n IH]; [symmetry; cbn; apply rsum_zero; reflexivity|]. cbn [rsum]. rewrite IH, <- rsum_add. apply rsum_ext. intros k _. reflexivity.
Qed.
Lemma rsum_pick n j f : (j < n)%nat -> (forall k, (k < n)%nat -> k <> j -> f k = 0) -> rsum n f = f j.
Proof.
  induction n as [|n IH]; intros Hj H; [lia|]. cbn. destruct (Nat.eq_dec j n) as [->|Hn].
  - rewrite rsum_zero by (intros k Hk; apply H; lia). ring.
  - rewrite IH by (try lia; intros; apply H; lia). rewrite (H n) by lia. ring.
Qed.
Lemma csum_rsum n f : csum n (fun k => RtoC (f k)) = RtoC (rsum n f).
Proof. induction n as [|n IH]; [reflexivity|]. cbn [sumn rsum]. change (@sadd CC) with Cplus. rewrite IH, RtoC_plus. reflexivity. Qed.
Lemma Re_csum n (f : nat -> C) : Re (csum n f) = rsum n (fun k => Re (f k)).
Proof. induction n as [|n IH]; [reflexivity|]. cbn [rsum]. rewrite <- IH. reflexivity. Qed.
Lemma Im_csum n (f : nat -> C) : Im (csum n f) = rsum n (fun k => Im (f k)).
Proof. induction n as [|n IH]; [reflexivity|]. cbn [rsum]. rewrite <- IH. reflexivity. Qed.

(** ** Non-negative numbers *)
Lemma nonneg_sum n (f : nat -> C) : (forall k, (k < n)%nat -> nonneg (f k)) -> nonneg (csum n f).
Proof.
  intros H. split; [rewrite Im_csum; apply rsum_zero; intros k Hk; apply H, Hk | rewrite Re_csum; apply rsum_nonneg; intros k Hk; apply H, Hk].
Qed.
Lemma nonneg_real r : 0 <= r -> nonneg (RtoC r).
Proof. intros H. split; [reflexivity | exact H]. Qed.
Lemma nonneg_scal r (z : C) : 0 <= r -> nonneg z -> nonneg (RtoC r * z)%C.
Proof. intros Hr [A B]. destruct z as [x y]. cbn in *. subst y. split; cbn; [ring|]. rewrite Rmult_0_l, Rminus_0_r. apply Rmult_le_pos; assumption. Qed.
Lemma nonneg_square (z : C) : nonneg (Cconj z * z)%C.
Proof. destruct z as [x y]. split; cbn; [ring|]. pose proof (Rle_0_sqr x). pose proof (Rle_0_sqr y). unfold Rsqr in *. lra. Qed.

(** ** Number of particles *)
Lemma trapezoid_csum N x n (f : nat -> nat -> C) : trapezoid N (fun i => csum n (fun p => f p i)) x = csum n (fun p => trapezoid N (f p) x).
Proof.
  rewrite trapezoid_sum. rewrite (csum_ext n _ (fun p => csum (N - 1) (fun i => (RtoC ((x (S i) - x i) / 2) * (f p i + f p (S i)))%C))) by (intros; apply trapezoid_sum).
  rewrite <- (sumn_swap CC). apply csum_ext. intros i _. rewrite <- csum_add, csum_scal. reflexivity.
Qed.
Lemma trapezoid_scal N x (c : C) f : trapezoid N (fun i => (c * f i)%C) x = (c * trapezoid N f x)%C.
Proof. rewrite !trapezoid_sum, csum_scal. apply csum_ext. intros i _. cr. Qed.

Section Dot.
  Variables (npm : nat) (spin anti : bool) (l : nat) (L : R) (N : nat) (a alpha beta : R) (V : R -> R).
  Variable eigh : nat -> (nat -> nat -> R) -> (nat -> R) * (nat -> nat -> R).
  Notation grid := (linspace L N).
  Notation dot := (odqd npm spin anti l L N a alpha beta V eigh).
  Notation phi := (odqd_spf L N V eigh).
  Notation energy := (odqd_energy L N V eigh).
  Variable b : basis CC.
  Hypothesis Hb : dot = (Ok tt, b).
  Hypothesis HL : 0 < L.
  Hypothesis HE : eigenbasis (N - 2) (grid_hamiltonian L N V) (fst (eigh (N - 2)%nat (grid_hamiltonian L N V))) (snd (eigh (N - 2)%nat (grid_hamiltonian L N V))).

  Lemma dot_particles (rho : carr) : shape rho = [l; l] ->
    exists d b', compute_particle_density rho None None b = (Ok d, b') /\ same_values b' b /\ shape d = [N] /\
      trapezoid N (fun i => get d [i]) (point L N) = csum l (fun p => mat rho p p).
  Proof.
    intros Sr. destruct (dot_orthonormal _ _ _ _ _ _ _ _ _ _ _ _ Hb HL HE) as (spf & h & s & E & _ & _ & Sh & _ & _ & _ & O & _).
    destruct (dot_result _ _ _ _ _ _ _ _ _ _ _ _ Hb) as (Eb & H3 & Hl).
    assert (D : dt spf = Complex128) by (rewrite Eb in E; injection E as <-; reflexivity).
    destruct (density_formula CC b rho spf (aconj spf) l [N]) as (d & b' & Ed & Sv & Sd & F); try assumption.
    - rewrite Eb. cbn. eauto.
    - unfold bra_view. rewrite E. rewrite Eb. reflexivity.
    - reflexivity.
    - rewrite D. destruct (dt rho); reflexivity.
    - exists d, b'. split; [exact Ed|]. split; [exact Sv|]. split; [exact Sd|].
      rewrite (trapezoid_sum N). 
      rewrite (csum_ext _ _ (fun i => (RtoC ((point L N (S i) - point L N i) / 2) * ((fun i => density_at l (mat rho) (orb (aconj spf) [i]) (orb spf [i])) i + (fun i => density_at l (mat rho) (orb (aconj spf) [i]) (orb spf [i])) (S i)))%C)).
      2: { intros i Hi. rewrite !F by (constructor; [lia|constructor]). reflexivity. }
      rewrite <- trapezoid_sum. unfold density_at. rewrite trapezoid_csum. apply csum_ext. intros p Hp.
      rewrite trapezoid_csum. rewrite (csum_ext _ _ (fun q => (mat rho q p * kronecker p q)%C)).
      + rewrite (csum_pick l p); [|exact Hp|intros q _ Hq; unfold kronecker; destruct (Nat.eqb_spec p q); [congruence|cr]].
        unfold kronecker. rewrite Nat.eqb_refl. cr.
      + intros q Hq. rewrite <- (proj1 (O p q Hp Hq)), <- trapezoid_scal. apply trapezoid_ext; [|reflexivity]. intros i.
        unfold orb, aconj. cbn [get]. change (@smul CC) with Cmult. change (@sconj CC) with Cconj. cr.
  Qed.

  (** ** Energies *)
  Lemma parts n (g : nat -> R) : g 0%nat = 0 -> g (S n) = 0 ->
    rsum n (fun i => g (S i) * (2 * g (S i) - g (S (S i)) - g i)) = rsum (S n) (fun i => (g (S i) - g i) ^ 2).
  Proof.
    intros G0 Gn. assert (A : forall k, rsum (S k) (fun i => (g (S i) - g i) ^ 2) = rsum k (fun i => g (S i) * (2 * g (S i) - g (S (S i)) - g i)) + g (S k) * (g (S k) - g k)).
    { induction k as [|k IH]; [cbn [rsum]; rewrite G0; ring|]. change (rsum (S (S k)) ?f) with (rsum (S k) f + f (S k)). rewrite IH. cbn [rsum]. ring. }
    rewrite A, Gn. ring.
  Qed.
  Lemma squares n (g : nat -> R) : g 0%nat = 0 -> g (S n) = 0 ->
    0 <= rsum (S n) (fun i => (g (S i) - g i) ^ 2) <= 4 * rsum n (fun i => g (S i) ^ 2).
  Proof.
    intros G0 Gn. split; [apply rsum_nonneg; intros; apply pow2_ge_0|].
    assert (E : 4 * rsum n (fun i => g (S i) ^ 2) = rsum (S n) (fun i => 2 * g (S i) ^ 2 + 2 * g i ^ 2)).
    { rewrite rsum_add, !rsum_scal, (rsum_first n (fun i => g i ^ 2)). cbn [rsum]. rewrite G0, Gn. ring. }
    rewrite E. apply rsum_le. intros k _. pose proof (pow2_ge_0 (g (S k) + g k)). lra.
  Qed.
  Definition gp (p i : nat) : R := Re (phi p i).
  Lemma gp_phi p i : phi p i = RtoC (gp p i).
  Proof. unfold gp, odqd_spf. destruct (_ || _); reflexivity. Qed.
  Lemma energy_form p : (p < l)%nat -> let dx := grid 1%nat - grid 0%nat in
    energy p = / (2 * dx) * rsum (S (N - 2)) (fun i => (gp p (S i) - gp p i) ^ 2) + dx * rsum (N - 2) (fun i => V (grid (S i)) * gp p (S i) ^ 2) /\
    1 = dx * rsum (N - 2) (fun i => gp p (S i) ^ 2).
  Proof.
    intros Hp dx. destruct (dot_result _ _ _ _ _ _ _ _ _ _ _ _ Hb) as (Eb & H3 & Hl). pose proof (step_pos L N HL H3) as Hd. fold dx in Hd.
    assert (G0 : gp p 0 = 0) by reflexivity.
    assert (Gn : gp p (S (N - 2)) = 0) by (replace (S (N - 2)) with (N - 1)%nat by lia; unfold gp; rewrite phi_last; reflexivity).
    split; apply RtoC_inj.
    - pose proof (phi_matrix L N V eigh HL H3 HE p p ltac:(lia) ltac:(lia)) as E. rewrite Nat.eqb_refl in E. rewrite <- E. clear E.
      rewrite trapezoid_interior; [|exact H3|cbv beta; rewrite phi_real, phi_first; cr|cbv beta; rewrite phi_real, phi_last; cr]. fold dx.
      rewrite (csum_ext _ _ (fun i => RtoC (/ (2 * dx ^ 2) * (gp p (S i) * (2 * gp p (S i) - gp p (S (S i)) - gp p i)) + V (grid (S i)) * gp p (S i) ^ 2))).
      + rewrite csum_rsum, <- RtoC_mult. f_equal. rewrite rsum_add, rsum_scal, parts by assumption. field. lra.
      + intros i _. rewrite phi_real. unfold difference_hamiltonian. rewrite !gp_phi. replace (S i + 1)%nat with (S (S i)) by lia. replace (S i - 1)%nat with i by lia.
        rewrite <- !RtoC_mult, <- RtoC_minus, <- !RtoC_plus, <- !RtoC_mult, <- RtoC_plus, <- RtoC_mult. f_equal. field. lra.
    - pose proof (DotProofs.phi_overlap L N V eigh HL H3 HE p p ltac:(lia) ltac:(lia)) as E. unfold kronecker in E. rewrite Nat.eqb_refl in E. rewrite <- E. clear E.
      rewrite trapezoid_interior; [|exact H3|cbv beta; rewrite phi_real, phi_first; cr|cbv beta; rewrite phi_real, phi_last; cr]. fold dx.
      rewrite (csum_ext _ _ (fun i => RtoC (gp p (S i) ^ 2))).
      + rewrite csum_rsum, <- RtoC_mult. reflexivity.
      + intros i _. rewrite phi_real, !gp_phi, <- RtoC_mult. f_equal. ring.
  Qed.
  Lemma energy_bounds m M p : (p < l)%nat -> (forall i, (0 < i < N - 1)%nat -> m <= V (grid i) <= M) ->
    m <= energy p <= M + 2 / (grid 1%nat - grid 0%nat) ^ 2.
  Proof.
    intros Hp H. destruct (dot_result _ _ _ _ _ _ _ _ _ _ _ _ Hb) as (Eb & H3 & Hl). pose proof (step_pos L N HL H3) as Hd.
    destruct (energy_form p Hp) as (E & O). cbv zeta in E, O. set (dx := grid 1%nat - grid 0%nat) in *.
    assert (G0 : gp p 0 = 0) by reflexivity.
    assert (Gn : gp p (S (N - 2)) = 0) by (replace (S (N - 2)) with (N - 1)%nat by lia; unfold gp; rewrite phi_last; reflexivity).
    pose proof (squares (N - 2) (gp p) G0 Gn) as Q. set (T := rsum (S (N - 2)) _) in *. set (n2 := rsum (N - 2) (fun i => gp p (S i) ^ 2)) in *.
    assert (P : m * n2 <= rsum (N - 2) (fun i => V (grid (S i)) * gp p (S i) ^ 2) <= M * n2).
    { unfold n2. rewrite <- !rsum_scal. split; apply rsum_le; intros i Hi; apply Rmult_le_compat_r; try apply pow2_ge_0; apply H; lia. }
    set (U := rsum (N - 2) _) in *. rewrite E. assert (n2 = / dx) as En by (field_simplify_eq; lra).
    assert (A : m <= dx * U <= M). { rewrite En in P. split; [apply Rle_trans with (dx * (m * / dx)) | apply Rle_trans with (dx * (M * / dx))]; try (apply Rmult_le_compat_l; lra); right; field; lra. }
    assert (B : 0 <= / (2 * dx) * T <= 2 / dx ^ 2).
    { assert (0 < / (2 * dx)) by (apply Rinv_0_lt_compat; lra). split; [apply Rmult_le_pos; lra|]. apply Rle_trans with (/ (2 * dx) * (4 * n2)); [apply Rmult_le_compat_l; lra|]. rewrite En. right. field. lra. }
    lra.
  Qed.
  Lemma dot_energy_bounds m M : (forall i, (0 < i < N - 1)%nat -> m <= V (point L N i) <= M) ->
    exists h, b_arr b F_h = Some h /\ forall p, (p < l)%nat -> Im (mat h p p) = 0 /\ m <= Re (mat h p p) <= M + 2 / spacing L N ^ 2.
  Proof.
    intros H. destruct (dot_result _ _ _ _ _ _ _ _ _ _ _ _ Hb) as (Eb & H3 & Hl). eexists. split; [rewrite Eb; reflexivity|]. intros p Hp.
    change (mat _ p p) with (if (p =? p)%nat then RtoC (energy p) else RtoC 0). rewrite Nat.eqb_refl. split; [reflexivity|]. rewrite <- linspace_spacing.
    apply energy_bounds; [exact Hp|]. intros i Hi. rewrite linspace_point. apply H, Hi.
  Qed.
End Dot.

(** ** Repulsion *)
Section Repulsion.
  Variables (spf : nat -> nat -> C) (N : nat) (grid : nat -> R) (alpha a : R).
  Hypothesis Halpha : 0 <= alpha.
  Hypothesis Hstep : 0 <= grid 1%nat - grid 0%nat.
  Notation u := (orbital_integral spf N grid alpha a).
  Notation w i := ((grid 1%nat - grid 0%nat) * wt N i).
  Notation v i j := (shielded_coulomb (grid i) (grid j) alpha a).
  Lemma w_nonneg i : 0 <= w i.
  Proof. apply Rmult_le_pos; [exact Hstep|]. unfold wt. destruct (_ =? _)%nat, (_ =? _)%nat; lra. Qed.
  Hypothesis Ha : a <> 0.
  Lemma v_nonneg i j : 0 <= v i j.
  Proof. unfold shielded_coulomb. apply Rmult_le_pos; [exact Halpha|]. left. apply Rinv_0_lt_compat, sqrt_lt_R0. pose proof (pow2_ge_0 (grid i - grid j)). assert (0 < a ^ 2) by (apply pow2_gt_0; exact Ha). lra. Qed.
  Lemma weight_nonneg i j : 0 <= w i * w j * v i j.
  Proof. apply Rmult_le_pos; [apply Rmult_le_pos; apply w_nonneg | apply v_nonneg]. Qed.
  Lemma direct_nonneg p q : nonneg (u p q p q).
  Proof.
    rewrite u_sums. apply nonneg_sum. intros i _. apply nonneg_sum. intros j _.
    replace (_ * spf q j)%C with (RtoC (w i * w j * v i j) * (Cconj (spf p i * spf q j) * (spf p i * spf q j)))%C by (rewrite !RtoC_mult, C_conj_mul; cr).
    apply nonneg_scal; [apply weight_nonneg | apply nonneg_square].
  Qed.
  Lemma exchange_below p q : nonneg (u p q p q - u p q q p)%C.
  Proof.
    assert (E : (u p q p q - u p q q p)%C = (RtoC (1 / 2) * ((u p q p q + u q p q p) - (u p q q p + u q p p q)))%C).
    { rewrite (u_swap spf N grid alpha a q p q p), (u_swap spf N grid alpha a q p p q). generalize (u p q p q), (u p q q p). intros [x y] [z t]. apply injective_projections; cbn; field. }
    rewrite E. apply nonneg_scal; [lra|]. rewrite !u_sums.
    set (f1 := fun i => csum N _) at 1. set (f2 := fun i => csum N _) at 1. set (f3 := fun i => csum N _) at 1. set (f4 := fun i => csum N _) at 1.
    rewrite <- !csum_add. replace (csum N (fun k => (f1 k + f2 k)%C) - csum N (fun k => (f3 k + f4 k)%C))%C with (csum N (fun k => ((f1 k + f2 k) + RtoC (-1) * (f3 k + f4 k))%C)) by (rewrite csum_add, <- csum_scal; replace (RtoC (-1)) with (- RtoC 1)%C by (rewrite <- RtoC_opp; reflexivity); cr).
    apply nonneg_sum. intros i _. unfold f1, f2, f3, f4. rewrite <- !csum_add, csum_scal, <- csum_add. apply nonneg_sum. intros j _.
    set (A := (spf p i * spf q j)%C). set (B := (spf q i * spf p j)%C).
    match goal with |- nonneg ?z => replace z with (RtoC (w i * w j * v i j) * (Cconj (A - B) * (A - B)))%C end; [apply nonneg_scal; [apply weight_nonneg | apply nonneg_square]|].
    rewrite !RtoC_mult. unfold A, B, Cminus. rewrite C_conj_add. replace (Cconj (- (spf q i * spf p j)))%C with (- (Cconj (spf q i) * Cconj (spf p j)))%C by (destruct (spf q i), (spf p j); cring).
    rewrite C_conj_mul. replace (RtoC (-1)) with (- RtoC 1)%C by (rewrite <- RtoC_opp; reflexivity). cr.
  Qed.
End Repulsion.
