(** The stored energies of a one-dimensional quantum dot as eigenvalues: minimum principle and accuracy. *)
From Coq Require Import List Arith ZArith Reals Lra Lia Bool.
From Coquelicot Require Import Coquelicot.
From Verif Require Import Scalar ScalarC Py Numpy BasisSet Spec OneDim OneDimSpec OneDimProofs DotProofs GridSpec GridProofs QuadProofs.
Import ListNotations.
Open Scope R_scope.

Notation dotp n f g := (rsum n (fun i => f i * g i)).
Definition rdelta (p q : nat) : R := if (p =? q)%nat then 1 else 0.
Lemma rdelta_same p : rdelta p p = 1.
Proof. unfold rdelta. rewrite Nat.eqb_refl. reflexivity. Qed.
Lemma rdelta_sym p q : rdelta p q = rdelta q p.
Proof. unfold rdelta. rewrite Nat.eqb_sym. reflexivity. Qed.
Lemma rsum_delta n p f : (p < n)%nat -> rsum n (fun q => rdelta p q * f q) = f p.
Proof.
  intros H. rewrite (rsum_pick n p); [rewrite rdelta_same; ring | exact H|]. intros k _ Hk. unfold rdelta. destruct (Nat.eqb_spec p k); [congruence|ring].
Qed.
Lemma rsum_mul n m f g : rsum n f * rsum m g = rsum n (fun i => rsum m (fun j => f i * g j)).
Proof. rewrite Rmult_comm, <- rsum_scal. apply rsum_ext. intros i _. rewrite Rmult_comm. symmetry. apply rsum_scal. Qed.

(** ** n orthonormal columns of length n have orthonormal rows *)
Section Complete.
  Variables (n : nat) (v : nat -> nat -> R).
  Hypothesis O : forall p q, (p < n)%nat -> (q < n)%nat -> rsum n (fun i => v i p * v i q) = rdelta p q.
  Let P i j := rsum n (fun p => v i p * v j p).
  Lemma P_square i j : rsum n (fun k => P i k * P k j) = P i j.
  Proof.
    unfold P. rewrite (rsum_ext n _ (fun k => rsum n (fun p => rsum n (fun q => v i p * v j q * (v k p * v k q))))).
    2: { intros k _. rewrite rsum_mul. apply rsum_ext. intros p _. apply rsum_ext. intros q _. ring. }
    rewrite rsum_swap. apply rsum_ext. intros p Hp. rewrite rsum_swap.
    rewrite (rsum_ext n _ (fun q => rdelta p q * (v i p * v j q))); [apply (rsum_delta n p (fun q => v i p * v j q)), Hp|].
    intros q Hq. rewrite rsum_scal, O by assumption. ring.
  Qed.
  Lemma rows i j : (i < n)%nat -> (j < n)%nat -> P i j = rdelta i j.
  Proof.
    set (Q := fun i j => rdelta i j - P i j).
    assert (Z : rsum n (fun i => rsum n (fun j => Q i j ^ 2)) = 0).
    { rewrite (rsum_ext n _ (fun i => 1 - P i i)).
      - rewrite (rsum_ext n _ (fun i => 1 + (-1) * P i i)) by (intros; ring). rewrite rsum_add, rsum_const, rsum_scal. unfold P. rewrite rsum_swap.
        rewrite (rsum_ext n _ (fun _ => 1)) by (intros p Hp; rewrite O by assumption; apply rdelta_same). rewrite rsum_const. ring.
      - intros k Hk. rewrite (rsum_ext n _ (fun j => (rdelta k j * (rdelta k j - 2 * P k j)) + P k j * P j k)).
        + rewrite rsum_add, rsum_delta, P_square, rdelta_same by exact Hk. ring.
        + intros m _. unfold Q. replace (P m k) with (P k m) by (unfold P; apply rsum_ext; intros; ring). ring. }
    intros Hi Hj. assert (A : Q i j ^ 2 = 0).
    { apply (rsum_null n (fun j => Q i j ^ 2)); [intros; apply pow2_ge_0| |exact Hj]. apply (rsum_null n (fun i => rsum n (fun j => Q i j ^ 2))); [|exact Z|exact Hi].
      intros; apply rsum_nonneg; intros; apply pow2_ge_0. }
    assert (B : Q i j = 0) by (destruct (Req_dec (Q i j) 0) as [E|E]; [exact E | pose proof (pow2_gt_0 _ E); lra]). unfold Q in B. lra.
  Qed.
  (** Parseval *)
  Definition coef (c : nat -> R) (p : nat) : R := rsum n (fun i => v i p * c i).
  Lemma parseval c d : rsum n (fun p => coef c p * coef d p) = dotp n c d.
  Proof.
    unfold coef. rewrite (rsum_ext n _ (fun p => rsum n (fun i => rsum n (fun j => c i * d j * (v i p * v j p))))).
    2: { intros p _. rewrite rsum_mul. apply rsum_ext. intros i _. apply rsum_ext. intros j _. ring. }
    rewrite rsum_swap. apply rsum_ext. intros i Hi. rewrite rsum_swap. rewrite (rsum_ext n _ (fun j => rdelta i j * (c i * d j))).
    - apply (rsum_delta n i (fun j => c i * d j)), Hi.
    - intros j Hj. rewrite rsum_scal. change (rsum n (fun k => v i k * v j k)) with (P i j). rewrite rows by assumption. ring.
  Qed.
End Complete.

(** ** Bessel's inequality *)
Lemma bessel n m (c : nat -> nat -> R) (e : nat -> R) : (forall k k', (k < m)%nat -> (k' < m)%nat -> dotp n (c k) (c k') = rdelta k k') ->
  rsum m (fun k => (dotp n (c k) e) ^ 2) <= dotp n e e.
Proof.
  intros O. set (s := fun k => dotp n (c k) e). set (r := fun i => e i - rsum m (fun k => s k * c k i)).
  assert (A : 0 <= dotp n r r) by (apply rsum_nonneg; intros; apply Rle_0_sqr). enough (dotp n r r = dotp n e e - rsum m (fun k => s k ^ 2)) by (unfold s in *; lra).
  assert (X : rsum n (fun i => e i * rsum m (fun k => s k * c k i)) = rsum m (fun k => s k ^ 2)).
  { rewrite (rsum_ext n _ (fun i => rsum m (fun k => s k * (c k i * e i)))) by (intros; rewrite <- rsum_scal; apply rsum_ext; intros; ring).
    rewrite rsum_swap. apply rsum_ext. intros k _. rewrite rsum_scal. change (rsum n (fun i => c k i * e i)) with (s k). ring. }
  assert (Y : rsum n (fun i => rsum m (fun k => s k * c k i) * rsum m (fun k => s k * c k i)) = rsum m (fun k => s k ^ 2)).
  { rewrite (rsum_ext n _ (fun i => rsum m (fun k => rsum m (fun k' => s k * s k' * (c k i * c k' i))))).
    2: { intros i _. rewrite rsum_mul. apply rsum_ext. intros k _. apply rsum_ext. intros k' _. ring. }
    rewrite rsum_swap. apply rsum_ext. intros k Hk. rewrite rsum_swap. rewrite (rsum_ext m _ (fun k' => rdelta k k' * (s k * s k'))).
    - rewrite (rsum_delta m k (fun k' => s k * s k') Hk). ring.
    - intros k' Hk'. rewrite rsum_scal, O by assumption. ring. }
  unfold r. rewrite (rsum_ext n _ (fun i => e i * e i + ((-2) * (e i * rsum m (fun k => s k * c k i)) + rsum m (fun k => s k * c k i) * rsum m (fun k => s k * c k i)))) by (intros; ring).
  rewrite !rsum_add, rsum_scal, X, Y. ring.
Qed.

(** ** Eigenvalues of a symmetric matrix *)
Section Symmetric.
  Variables (n : nat) (h : nat -> nat -> R) (w : nat -> R) (v : nat -> nat -> R).
  Hypothesis H : eigenbasis n h w v.
  Hypothesis Sy : forall i j, h i j = h j i.
  Lemma eb_o p q : (p < n)%nat -> (q < n)%nat -> rsum n (fun i => v i p * v i q) = rdelta p q.
  Proof.
    intros Hp Hq. apply RtoC_inj. rewrite <- csum_rsum. rewrite (csum_ext n _ (fun i => (RtoC (v i p) * RtoC (v i q))%C)) by (intros; apply RtoC_mult).
    rewrite (eb_orthonormal _ _ _ _ H p q Hp Hq). unfold kronecker, rdelta. destruct (p =? q)%nat; reflexivity.
  Qed.
  Lemma eb_e i p : (i < n)%nat -> (p < n)%nat -> rsum n (fun j => h i j * v j p) = w p * v i p.
  Proof.
    intros Hi Hp. apply RtoC_inj. rewrite <- csum_rsum. rewrite (csum_ext n _ (fun j => (RtoC (h i j) * RtoC (v j p))%C)) by (intros; apply RtoC_mult).
    rewrite (eb_eigen _ _ _ _ H i p Hi Hp). rewrite RtoC_mult. reflexivity.
  Qed.
  Definition apply_h (c : nat -> R) (i : nat) : R := rsum n (fun j => h i j * c j).
  Lemma coef_h c p : (p < n)%nat -> coef n v (apply_h c) p = w p * coef n v c p.
  Proof.
    intros Hp. unfold coef, apply_h. rewrite (rsum_ext n _ (fun i => rsum n (fun j => c j * (h j i * v i p)))).
    2: { intros i _. rewrite <- rsum_scal. apply rsum_ext. intros j _. rewrite (Sy i j). ring. }
    rewrite rsum_swap, <- rsum_scal. apply rsum_ext. intros j Hj. rewrite rsum_scal, eb_e by assumption. ring.
  Qed.
  Lemma expectation c : dotp n c (apply_h c) = rsum n (fun p => w p * coef n v c p ^ 2).
  Proof.
    rewrite <- (parseval n v eb_o c (apply_h c)). apply rsum_ext. intros p Hp. rewrite coef_h by exact Hp. ring.
  Qed.
  (** The sum of the m lowest eigenvalues is the least energy of m orthonormal vectors. *)
  Lemma ky_fan m (c : nat -> nat -> R) : (m <= n)%nat -> (forall k k', (k < m)%nat -> (k' < m)%nat -> dotp n (c k) (c k') = rdelta k k') ->
    rsum m w <= rsum m (fun k => dotp n (c k) (apply_h (c k))).
  Proof.
    intros Hm O. destruct m as [|m]; [cbn; lra|]. rewrite (rsum_ext (S m) (fun k => dotp n (c k) (apply_h (c k))) (fun k => rsum n (fun p => w p * coef n v (c k) p ^ 2))) by (intros; apply expectation).
    rewrite rsum_swap. set (s := fun p => rsum (S m) (fun k => coef n v (c k) p ^ 2)).
    rewrite (rsum_ext n _ (fun p => w p * s p)) by (intros; apply rsum_scal).
    assert (S0 : forall p, 0 <= s p) by (intros; apply rsum_nonneg; intros; apply pow2_ge_0).
    assert (S1 : forall p, (p < n)%nat -> s p <= 1).
    { intros p Hp. unfold s. rewrite (rsum_ext (S m) _ (fun k => (dotp n (c k) (fun i => v i p)) ^ 2)).
      - eapply Rle_trans; [apply (bessel n (S m) c (fun i => v i p) O)|]. rewrite eb_o by exact Hp. rewrite rdelta_same. lra.
      - intros k _. unfold coef. f_equal. apply rsum_ext. intros i _. ring. }
    assert (Sm : rsum n s = INR (S m)).
    { unfold s. rewrite rsum_swap. rewrite (rsum_ext (S m) _ (fun _ => 1)); [rewrite rsum_const; ring|]. intros k Hk.
      rewrite (rsum_ext n _ (fun p => coef n v (c k) p * coef n v (c k) p)) by (intros; ring). rewrite (parseval n v eb_o), O by exact Hk. apply rdelta_same. }
    (* compare with the value w m *)
    set (W := w m). assert (C0 : forall k, (S m <= k <= n)%nat -> rsum k (fun p => (w p - W) * s p) >= rsum (S m) (fun p => w p - W)).
    { induction k as [|k IH]; intros Hk; [lia|]. destruct (Nat.eq_dec k m) as [->|Hn].
      - apply Rle_ge, rsum_le. intros p Hp. assert (w p <= W) by (apply (eb_ascending _ _ _ _ H); lia). pose proof (S1 p ltac:(lia)). pose proof (S0 p).
        assert (0 <= (W - w p) * (1 - s p)) by (apply Rmult_le_pos; lra). lra.
      - change (rsum (S k) (fun p => (w p - W) * s p)) with (rsum k (fun p => (w p - W) * s p) + (w k - W) * s k). specialize (IH ltac:(lia)).
        assert (0 <= (w k - W) * s k) by (apply Rmult_le_pos; [assert (W <= w k) by (apply (eb_ascending _ _ _ _ H); lia); lra | apply S0]). lra. }
    specialize (C0 n ltac:(lia)). rewrite (rsum_ext n _ (fun p => w p * s p + (- W) * s p)) in C0 by (intros; ring). rewrite rsum_add, rsum_scal, Sm in C0.
    rewrite (rsum_ext (S m) (fun p => w p - W) (fun p => w p + - W)) in C0 by (intros; ring). rewrite rsum_add, rsum_const in C0. lra.
  Qed.
  (** A vector that is nearly an eigenvector has an eigenvalue nearby. *)
  Lemma residual c E : (0 < n)%nat -> exists p, (p < n)%nat /\ (w p - E) ^ 2 * dotp n c c <= rsum n (fun i => (apply_h c i - E * c i) ^ 2).
  Proof.
    intros Hn. set (r := fun i => apply_h c i - E * c i).
    assert (R : forall p, (p < n)%nat -> coef n v r p = (w p - E) * coef n v c p).
    { intros p Hp. unfold r. transitivity (coef n v (apply_h c) p - E * coef n v c p); [|rewrite coef_h by exact Hp; ring].
      unfold coef at 1. rewrite (rsum_ext n _ (fun i => v i p * apply_h c i + (- E) * (v i p * c i))) by (intros; ring). rewrite rsum_add, rsum_scal. unfold coef. ring. }
    assert (Mi : exists p, (p < n)%nat /\ forall q, (q < n)%nat -> (w p - E) ^ 2 <= (w q - E) ^ 2).
    { clear -Hn. induction n as [|[|k] IH]; [lia| |].
      - exists 0%nat. split; [lia|]. intros q Hq. replace q with 0%nat by lia. lra.
      - destruct IH as (p & Hp & M); [lia|]. destruct (Rle_dec ((w p - E) ^ 2) ((w (S k) - E) ^ 2)) as [A|A].
        + exists p. split; [lia|]. intros q Hq. destruct (Nat.eq_dec q (S k)) as [->|]; [exact A | apply M; lia].
        + exists (S k). split; [lia|]. intros q Hq. destruct (Nat.eq_dec q (S k)) as [->|]; [lra|]. specialize (M q ltac:(lia)). lra. }
    destruct Mi as (p & Hp & M). exists p. split; [exact Hp|].
    change (fun i => (apply_h c i - E * c i) ^ 2) with (fun i => r i ^ 2). rewrite (rsum_ext n (fun i => r i ^ 2) (fun i => r i * r i)) by (intros; ring).
    rewrite <- (parseval n v eb_o c c), <- (parseval n v eb_o r r), <- rsum_scal. apply rsum_le. intros q Hq. rewrite R by exact Hq.
    replace ((w q - E) * coef n v c q * ((w q - E) * coef n v c q)) with ((w q - E) ^ 2 * (coef n v c q * coef n v c q)) by ring.
    apply Rmult_le_compat_r; [apply Rle_0_sqr | apply M, Hq].
  Qed.
End Symmetric.

(** ** The matrix of the quantum dot *)
Lemma grid_hamiltonian_sym L N V i j : grid_hamiltonian L N V i j = grid_hamiltonian L N V j i.
Proof.
  unfold grid_hamiltonian. rewrite (Nat.eqb_sym j i). destruct (Nat.eqb_spec i j) as [->|_]; [reflexivity|]. destruct (j + 1 =? i)%nat, (i + 1 =? j)%nat; reflexivity.
Qed.
Section Dot.
  Variables (npm : nat) (spin anti : bool) (l : nat) (L : R) (N : nat) (a alpha beta : R) (V : R -> R).
  Variable eigh : nat -> (nat -> nat -> R) -> (nat -> R) * (nat -> nat -> R).
  Notation grid := (linspace L N).
  Notation dot := (odqd npm spin anti l L N a alpha beta V eigh).
  Notation energy := (odqd_energy L N V eigh).
  Notation hg := (grid_hamiltonian L N V).
  Variable b : basis CC.
  Hypothesis Hb : dot = (Ok tt, b).
  Hypothesis HL : 0 < L.
  Hypothesis HE : eigenbasis (N - 2) hg (fst (eigh (N - 2)%nat hg)) (snd (eigh (N - 2)%nat hg)).
  Notation dx := (spacing L N).

  Lemma matrix_difference (g : nat -> R) i : (3 <= N)%nat -> (i < N - 2)%nat -> g 0%nat = 0 -> g (N - 1)%nat = 0 ->
    apply_h (N - 2) hg (fun j => g (S j)) i = - / (2 * dx ^ 2) * (g (S (S i)) - 2 * g (S i) + g i) + V (point L N (S i)) * g (S i).
  Proof.
    intros H3 Hi G0 Gn. apply RtoC_inj. unfold apply_h. rewrite <- csum_rsum.
    pose proof (spacing_pos L N HL ltac:(lia)) as Hd.
    rewrite (csum_ext _ _ (fun j => (RtoC (hg i j) * RtoC (g (S j)))%C)) by (intros; apply RtoC_mult). unfold grid_hamiltonian.
    rewrite (tri_sum N H3 (N - 2) _ _ (fun i => RtoC (g i)) i Hi); [|rewrite G0; reflexivity|replace (S (N - 2)) with (N - 1)%nat by lia; rewrite Gn; reflexivity].
    rewrite linspace_spacing, linspace_point, <- !RtoC_mult, <- !RtoC_plus. f_equal. field. lra.
  Qed.
  Lemma trapezoid_dot (g : nat -> R) : (3 <= N)%nat -> g 0%nat = 0 -> g (N - 1)%nat = 0 -> trapezoid N (fun i => RtoC (g i)) (point L N) = RtoC (dx * rsum (N - 2) (fun i => g (S i))).
  Proof.
    intros H3 G0 Gn. rewrite (trapezoid_ext N _ (fun i => RtoC (g i)) (point L N) (linspace L N)); [|reflexivity|intros; symmetry; apply linspace_point].
    rewrite (trapezoid_interior L N); [|exact H3|rewrite G0; reflexivity|rewrite Gn; reflexivity]. rewrite csum_rsum, <- RtoC_mult, linspace_spacing. reflexivity.
  Qed.
  Lemma dot_minimum m (F : nat -> nat -> R) : (m <= l)%nat ->
    (forall k, (k < m)%nat -> F k 0%nat = 0 /\ F k (N - 1)%nat = 0) ->
    (forall k k', (k < m)%nat -> (k' < m)%nat -> trapezoid N (fun i => (RtoC (F k i) * RtoC (F k' i))%C) (point L N) = kronecker k k') ->
    exists h, b_arr b F_h = Some h /\ rsum m (fun p => Re (mat h p p)) <=
      rsum m (fun k => Re (trapezoid N (fun i => (RtoC (F k i) * difference_hamiltonian dx V (point L N) (fun i => RtoC (F k i)) i)%C) (point L N))).
  Proof.
    intros Hm Z O. destruct (dot_result _ _ _ _ _ _ _ _ _ _ _ _ Hb) as (Eb & H3 & Hl). pose proof (spacing_pos L N HL ltac:(lia)) as Hd.
    eexists. split; [rewrite Eb; reflexivity|]. rewrite (rsum_ext m _ energy).
    2: { intros p _. change (mat _ p p) with (if (p =? p)%nat then RtoC (energy p) else RtoC 0). rewrite Nat.eqb_refl. reflexivity. }
    assert (Sq : sqrt dx * sqrt dx = dx) by (apply sqrt_sqrt; lra).
    eapply Rle_trans; [apply (ky_fan (N - 2) hg (fst (eigh (N - 2)%nat hg)) (snd (eigh (N - 2)%nat hg)) HE (grid_hamiltonian_sym L N V) m (fun k i => sqrt dx * F k (S i)))|].
    - lia.
    - intros k k' Hk Hk'. destruct (Z k Hk) as [Z0 Zn]. apply RtoC_inj. pose proof (O k k' Hk Hk') as E.
      rewrite (trapezoid_ext N _ (fun i => RtoC (F k i * F k' i)) (point L N) (point L N)) in E; [|intros; symmetry; apply RtoC_mult|reflexivity].
      rewrite trapezoid_dot in E; [|exact H3|rewrite Z0; ring|rewrite Zn; ring].
      transitivity (kronecker k k'); [rewrite <- E; f_equal; transitivity ((sqrt dx * sqrt dx) * rsum (N - 2) (fun i => F k (S i) * F k' (S i))); [rewrite <- rsum_scal; apply rsum_ext; intros i _; ring | rewrite Sq; reflexivity]|]. unfold kronecker, rdelta. destruct (k =? k')%nat; reflexivity.
    - right. apply rsum_ext. intros k Hk. destruct (Z k Hk) as [Z0 Zn].
      rewrite (trapezoid_ext N _ (fun i => RtoC (F k i * (- / (2 * dx ^ 2) * (F k (i + 1)%nat - 2 * F k i + F k (i - 1)%nat) + V (point L N i) * F k i))) (point L N) (point L N)); [|intros i|reflexivity].
      2: { unfold difference_hamiltonian. rewrite <- !RtoC_mult, <- RtoC_minus, <- !RtoC_plus, <- !RtoC_mult, <- RtoC_plus, <- RtoC_mult. reflexivity. }
      rewrite trapezoid_dot; [|exact H3|rewrite Z0; ring|rewrite Zn; ring]. change (Re (RtoC ?r)) with r. rewrite <- rsum_scal. apply rsum_ext. intros i Hi.
      replace (S i + 1)%nat with (S (S i)) by lia. replace (S i - 1)%nat with i by lia. rewrite <- (matrix_difference (F k) i H3 Hi Z0 Zn).
      transitivity (sqrt dx * F k (S i) * (sqrt dx * apply_h (N - 2) hg (fun j => F k (S j)) i)).
      + f_equal. unfold apply_h. rewrite <- rsum_scal. apply rsum_ext. intros j _. ring.
      + transitivity ((sqrt dx * sqrt dx) * (F k (S i) * apply_h (N - 2) hg (fun j => F k (S j)) i)); [ring | rewrite Sq; reflexivity].
  Qed.
  Lemma dot_accuracy (f f1 f2 f3 f4 : R -> R) (E M : R) : l = (N - 2)%nat ->
    (forall y, - L <= y <= L -> is_derive f y (f1 y)) -> (forall y, - L <= y <= L -> is_derive f1 y (f2 y)) ->
    (forall y, - L <= y <= L -> is_derive f2 y (f3 y)) -> (forall y, - L <= y <= L -> is_derive f3 y (f4 y)) ->
    (forall y, - L <= y <= L -> Rabs (f4 y) <= M) ->
    f (- L) = 0 -> f L = 0 -> (forall y, - L < y < L -> - f2 y / 2 + V y * f y = E * f y) ->
    exists h, b_arr b F_h = Some h /\ exists p, (p < l)%nat /\
      (Re (mat h p p) - E) ^ 2 * rsum N (fun i => f (point L N i) ^ 2) <= INR (N - 2) * (M * dx ^ 2 / 24) ^ 2.
  Proof.
    intros El D0 D1 D2 D3 B F0 Fn Sch. destruct (dot_result _ _ _ _ _ _ _ _ _ _ _ _ Hb) as (Eb & H3 & Hl). pose proof (spacing_pos L N HL ltac:(lia)) as Hd.
    assert (G0 : f (point L N 0) = 0) by (rewrite point_first; exact F0). assert (Gn : f (point L N (N - 1)) = 0) by (rewrite point_last by lia; exact Fn).
    destruct (residual (N - 2) hg (fst (eigh (N - 2)%nat hg)) (snd (eigh (N - 2)%nat hg)) HE (grid_hamiltonian_sym L N V) (fun i => f (point L N (S i))) E ltac:(lia)) as (p & Hp & A).
    eexists. split; [rewrite Eb; reflexivity|]. exists p. split; [lia|].
    change (mat _ p p) with (if (p =? p)%nat then RtoC (energy p) else RtoC 0). rewrite Nat.eqb_refl. change (Re (RtoC ?r)) with r. unfold odqd_energy.
    assert (Nm : rsum N (fun i => f (point L N i) ^ 2) = rsum (N - 2) (fun i => f (point L N (S i)) * f (point L N (S i)))).
    { replace N with (S (S (N - 2))) at 1 by lia. rewrite rsum_first. cbn [rsum]. rewrite G0. replace (point L N (S (N - 2))) with (point L N (N - 1)) by (f_equal; lia). rewrite Gn.
      rewrite (rsum_ext (N - 2) _ (fun i => f (point L N (S i)) * f (point L N (S i)))) by (intros; ring). ring. }
    rewrite Nm. eapply Rle_trans; [exact A|]. rewrite <- rsum_const. apply rsum_le. intros i Hi.
    pose proof (matrix_difference (fun i => f (point L N i)) i H3 Hi G0 Gn) as E1. cbv beta in E1. rewrite E1.
    pose proof (point_step L N i) as P1. pose proof (point_step L N (S i)) as P2. set (x := point L N (S i)) in *.
    assert (Bx : - L <= x - dx /\ x + dx <= L).
    { assert (Mon : forall k j, point L N j <= point L N (k + j)).
      { induction k as [|k IH]; intros j; [cbn; lra|]. pose proof (point_step L N (k + j)). specialize (IH j). cbn [Nat.add]. lra. }
      split; [rewrite <- (point_first L N); pose proof (Mon i 0%nat) as Q; rewrite Nat.add_0_r in Q; lra|].
      rewrite <- (point_last L N ltac:(lia)) at 2. pose proof (Mon (N - 1 - S (S i))%nat (S (S i))) as Q. replace (N - 1 - S (S i) + S (S i))%nat with (N - 1)%nat in Q by lia. lra. }
    replace (point L N (S (S i))) with (x + dx) by lra. replace (point L N i) with (x - dx) by lra.
    pose proof (second_difference f f1 f2 f3 f4 x dx M ltac:(intros; apply D0; lra) ltac:(intros; apply D1; lra) ltac:(intros; apply D2; lra) ltac:(intros; apply D3; lra) ltac:(intros; apply B; lra) ltac:(lra)) as Er.
    set (z := f (x + dx) - 2 * f x + f (x - dx) - dx ^ 2 * f2 x) in *.
    replace (- / (2 * dx ^ 2) * (f (x + dx) - 2 * f x + f (x - dx)) + V x * f x - E * f x) with (- / (2 * dx ^ 2) * z) by (rewrite <- (Sch x) by lra; unfold z; field; lra).
    assert (P : 0 < / (2 * dx ^ 2)) by (apply Rinv_0_lt_compat; apply Rmult_lt_0_compat; [lra | apply pow_lt; exact Hd]).
    replace ((- / (2 * dx ^ 2) * z) ^ 2) with ((/ (2 * dx ^ 2) * Rabs z) ^ 2) by (rewrite !Rpow_mult_distr, pow2_abs; ring).
    apply pow_incr. split; [apply Rmult_le_pos; [lra | apply Rabs_pos]|]. eapply Rle_trans; [apply Rmult_le_compat_l; [lra | exact Er]|]. right. field. lra.
  Qed.
End Dot.
