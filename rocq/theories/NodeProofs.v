(** Eigenvectors of a symmetric tridiagonal matrix: simple eigenvalues, and as many nodes as
    there are smaller eigenvalues. *)
From Coq Require Import List Arith Reals Lra Lia.
From Coquelicot Require Import Coquelicot.
From Verif Require Import GridSpec GridProofs SpectrumProofs NodeSpec.
Import ListNotations.
Open Scope R_scope.

Lemma rsum_sub n f g : rsum n (fun k => f k - g k) = rsum n f - rsum n g.
Proof. induction n as [|n IH]; cbn [rsum]; [ring|]. rewrite IH. ring. Qed.
(** ** More unknowns than equations *)
Lemma null_vector d : forall forms : list (nat -> R), (length forms < d)%nat ->
  exists x, (exists q, (q < d)%nat /\ x q <> 0) /\ forall f, In f forms -> rsum d (fun q => f q * x q) = 0.
Proof.
  induction d as [|d IH]; intros forms H; [lia|].
  destruct (List.Forall_Exists_dec (fun f : nat -> R => f d = 0) (fun f => Req_EM_T (f d) 0) forms) as [Z|Z].
  - exists (fun q => rdelta d q). split; [exists d; split; [lia|]; rewrite rdelta_same; lra|].
    intros f Hf. rewrite Forall_forall in Z. cbn [rsum]. rewrite (Z f Hf). rewrite rsum_zero; [ring|].
    intros k Hk. unfold rdelta. destruct (Nat.eqb_spec d k); [lia|ring].
  - apply Exists_exists in Z. destruct Z as (g & Hg & Ng). apply in_split in Hg. destruct Hg as (l1 & l2 & ->).
    rewrite app_length in H. cbn [length] in H.
    set (red := fun f : nat -> R => fun q => f q - f d / g d * g q).
    destruct (IH (map red (l1 ++ l2))) as (x & (q & Hq & Nq) & Hx); [rewrite map_length, app_length; lia|].
    set (xd := - rsum d (fun q => g q * x q) / g d).
    set (y := fun q => if (q =? d)%nat then xd else x q).
    assert (Y : forall f, rsum (S d) (fun q => f q * y q) = rsum d (fun q => f q * x q) + f d * xd).
    { intros f. cbn [rsum]. f_equal; [apply rsum_ext; intros k Hk; unfold y; destruct (Nat.eqb_spec k d); [lia|reflexivity]|]. unfold y. rewrite Nat.eqb_refl. reflexivity. }
    exists y. split; [exists q; split; [lia|]; unfold y; destruct (Nat.eqb_spec q d); [lia|exact Nq]|].
    intros f Hf. rewrite Y. apply in_app_or in Hf. cbn [In] in Hf.
    assert (C : f = g \/ In f (l1 ++ l2)) by (rewrite in_app_iff; intuition). destruct C as [->|C].
    + unfold xd. field. exact Ng.
    + pose proof (Hx (red f) (in_map red _ _ C)) as E. unfold red in E.
      assert (E' : rsum d (fun q => f q * x q) = f d / g d * rsum d (fun q => g q * x q)).
      { rewrite <- rsum_scal. apply Rminus_diag_uniq. rewrite <- rsum_sub, <- E. apply rsum_ext. intros k _. ring. }
      rewrite E'. unfold xd. field. exact Ng.
Qed.

Section Jacobi.
  (** Vectors are indexed from 1 to n and vanish at 0 and n + 1. *)
  Variables (n : nat) (t : R) (a w : nat -> R) (y : nat -> nat -> R).
  Hypothesis Ht : 0 < t.
  Hypothesis Y0 : forall p, y p 0%nat = 0.
  Hypothesis Yn : forall p, y p (S n) = 0.
  Hypothesis Rec : forall p k, (p < n)%nat -> (k < n)%nat -> (a k - w p) * y p (S k) = t * (y p k + y p (S (S k))).
  Hypothesis Orth : forall p q, (p < n)%nat -> (q < n)%nat -> rsum n (fun k => y p (S k) * y q (S k)) = rdelta p q.
  Hypothesis Asc : forall p q, (p <= q)%nat -> (q < n)%nat -> w p <= w q.

  (** A solution of the recursion is determined by two neighbouring values. *)
  Lemma up (z : nat -> R) (lam : R) : (forall k, (k < n)%nat -> (a k - lam) * z (S k) = t * (z k + z (S (S k)))) ->
    forall k, z k = 0 -> z (S k) = 0 -> forall j, (k <= j <= S n)%nat -> z j = 0.
  Proof.
    intros H k Zk Zk'. assert (A : forall m, (k + S m <= S n)%nat -> z (k + m)%nat = 0 /\ z (k + S m)%nat = 0).
    { induction m as [|m IH]; intros Hm; [rewrite Nat.add_0_r, Nat.add_1_r; auto|]. destruct (IH ltac:(lia)) as [A1 A2]. split; [exact A2|].
      pose proof (H (k + m)%nat ltac:(lia)) as E. replace (S (k + m)) with (k + S m)%nat in E by lia. replace (S (k + S m)) with (k + S (S m))%nat in E by lia. rewrite A1, A2 in E.
      apply Rmult_eq_reg_l with t; lra. }
    intros j Hj. destruct (Nat.eq_dec j k) as [->|]; [exact Zk|]. replace j with (k + S (j - k - 1))%nat by lia. apply A. lia.
  Qed.
  Lemma down (z : nat -> R) (lam : R) : (forall k, (k < n)%nat -> (a k - lam) * z (S k) = t * (z k + z (S (S k)))) ->
    forall k, (k <= n)%nat -> z k = 0 -> z (S k) = 0 -> forall j, (j <= k)%nat -> z j = 0.
  Proof.
    intros H k. induction k as [|k IH]; intros Hk Zk Zk' j Hj; [replace j with 0%nat by lia; exact Zk|].
    destruct (Nat.eq_dec j (S k)) as [->|]; [exact Zk|]. apply IH; [lia| |exact Zk|lia].
    pose proof (H k ltac:(lia)) as E. rewrite Zk, Zk' in E. apply Rmult_eq_reg_l with t; lra.
  Qed.
  Lemma not_null p : (p < n)%nat -> ~ forall j, (1 <= j <= n)%nat -> y p j = 0.
  Proof.
    intros Hp H. pose proof (Orth p p Hp Hp) as E. rewrite rdelta_same, rsum_zero in E; [lra|]. intros k Hk. rewrite (H (S k)) by lia. ring.
  Qed.
  Lemma no_pair p k : (p < n)%nat -> (k <= n)%nat -> y p k = 0 -> y p (S k) = 0 -> False.
  Proof.
    intros Hp Hk Z Z'. apply (not_null p Hp). intros j Hj. destruct (le_lt_dec j k) as [H|H].
    - exact (down (y p) (w p) (fun k Hk => Rec p k Hp Hk) k Hk Z Z' j H).
    - apply (up (y p) (w p) (fun k Hk => Rec p k Hp Hk) k Z Z'). lia.
  Qed.
  Lemma first_nonzero p : (p < n)%nat -> y p 1%nat <> 0.
  Proof. intros Hp Z. apply (no_pair p 0 Hp); [lia|apply Y0|exact Z]. Qed.
  Lemma last_nonzero p : (p < n)%nat -> y p n <> 0.
  Proof. intros Hp Z. apply (no_pair p n Hp); [lia|exact Z|apply Yn]. Qed.

  (** ** Simple eigenvalues *)
  Lemma strict p q : (p < q)%nat -> (q < n)%nat -> w p < w q.
  Proof.
    intros Hpq Hq. destruct (Rle_lt_or_eq_dec _ _ (Asc p q ltac:(lia) Hq)) as [H|E]; [exact H|exfalso].
    set (al := y q 1%nat). set (be := y p 1%nat). set (z := fun k => al * y p k - be * y q k).
    assert (Rz : forall k, (k < n)%nat -> (a k - w p) * z (S k) = t * (z k + z (S (S k)))).
    { intros k Hk. unfold z. pose proof (Rec p k ltac:(lia) Hk) as E1. pose proof (Rec q k Hq Hk) as E2. rewrite <- E in E2.
      transitivity (al * ((a k - w p) * y p (S k)) - be * ((a k - w p) * y q (S k))); [ring|]. rewrite E1, E2. ring. }
    assert (Z0 : forall j, (0 <= j <= S n)%nat -> z j = 0) by (apply (up z (w p) Rz 0%nat); unfold z; rewrite ?Y0; unfold al, be; ring).
    assert (S0 : rsum n (fun k => z (S k) * z (S k)) = 0) by (apply rsum_zero; intros k Hk; rewrite Z0 by lia; ring).
    assert (S1 : rsum n (fun k => z (S k) * z (S k)) = al * al * rdelta p p - 2 * (al * be) * rdelta p q + be * be * rdelta q q).
    { rewrite <- !Orth by lia. rewrite <- !rsum_scal, <- rsum_sub, <- rsum_add. apply rsum_ext. intros k _. unfold z. ring. }
    rewrite S0, !rdelta_same in S1. unfold rdelta in S1. destruct (Nat.eqb_spec p q); [lia|].
    pose proof (first_nonzero p ltac:(lia)) as Np. fold be in Np. assert (0 < be * be) by (apply Rsqr_pos_lt in Np; exact Np). assert (0 <= al * al) by apply Rle_0_sqr. lra.
  Qed.

  (** ** The quadratic form of the matrix minus an eigenvalue *)
  Definition form (lam : R) (c : nat -> R) : R := rsum n (fun k => c (S k) * ((a k - lam) * c (S k) - t * (c k + c (S (S k))))).
  Lemma form_spectral s0 d (x : nat -> R) lam : (s0 + d <= n)%nat ->
    form lam (fun k => rsum d (fun j => x j * y (s0 + j) k)) = rsum d (fun j => (w (s0 + j)%nat - lam) * x j ^ 2).
  Proof.
    intros Hd. unfold form. set (c := fun k => rsum d (fun j => x j * y (s0 + j) k)).
    rewrite (rsum_ext n _ (fun k => rsum d (fun i => rsum d (fun j => x i * x j * (w (s0 + j)%nat - lam) * (y (s0 + i) (S k) * y (s0 + j) (S k)))))).
    2: { intros k Hk. match goal with |- _ = ?rhs => change (c (S k) * ((a k - lam) * c (S k) - t * (c k + c (S (S k)))) = rhs) end. replace ((a k - lam) * c (S k) - t * (c k + c (S (S k)))) with (rsum d (fun j => x j * ((w (s0 + j)%nat - lam) * y (s0 + j) (S k)))).
      - unfold c. cbv beta. rewrite rsum_mul. apply rsum_ext. intros i _. apply rsum_ext. intros j _. ring.
      - unfold c. rewrite <- rsum_add, <- !rsum_scal, <- rsum_sub. apply rsum_ext. intros j Hj. pose proof (Rec (s0 + j) k ltac:(lia) Hk) as E. transitivity (x j * ((a k - lam) * y (s0 + j) (S k) - t * (y (s0 + j) k + y (s0 + j) (S (S k))))); [rewrite <- E; ring | ring]. }
    rewrite rsum_swap. rewrite (rsum_ext d _ (fun i => (w (s0 + i)%nat - lam) * x i ^ 2)); [reflexivity|]. intros i Hi.
    rewrite rsum_swap. rewrite (rsum_pick d i); [|exact Hi|].
    - rewrite rsum_scal, Orth by lia. rewrite rdelta_same. ring.
    - intros j Hj Nj. rewrite rsum_scal, Orth by lia. unfold rdelta. destruct (Nat.eqb_spec (s0 + i) (s0 + j)); [lia|ring].
  Qed.
  (** In terms of the ratio to the eigenvector *)
  Lemma form_ratio p (r : nat -> R) : (p < n)%nat ->
    form (w p) (fun k => r k * y p k) = t * rsum n (fun k => y p k * y p (S k) * (r k - r (S k)) ^ 2).
  Proof.
    intros Hp. unfold form.
    assert (A : forall m, (m <= n)%nat -> rsum m (fun k => r (S k) * y p (S k) * ((a k - w p) * (r (S k) * y p (S k)) - t * (r k * y p k + r (S (S k)) * y p (S (S k)))))
      = t * rsum m (fun k => y p k * y p (S k) * (r k - r (S k)) ^ 2) + t * (y p m * y p (S m) * r m * (r m - r (S m)))).
    { induction m as [|m IH]; intros Hm; [cbn [rsum]; rewrite Y0; ring|]. cbn [rsum]. rewrite IH by lia. pose proof (Rec p m Hp ltac:(lia)) as E.
      replace ((a m - w p) * (r (S m) * y p (S m))) with (r (S m) * ((a m - w p) * y p (S m))) by ring. rewrite E. ring. }
    rewrite A by lia. rewrite Yn. ring.
  Qed.

  (** ** Counting sign changes *)
  Lemma flips_end l : forall x, flips x (l ++ [0]) = flips x l.
  Proof.
    induction l as [|z l IH]; intros x; cbn [app flips]; [|rewrite IH; reflexivity].
    destruct (Rlt_dec (x * 0) 0) as [H|_]; [rewrite Rmult_0_r in H; lra | reflexivity].
  Qed.
  Section Orbital.
    Variable p : nat.
    Hypothesis Hp : (p < n)%nat.
    Notation v := (y p).
    Definition isneg k : bool := if Rlt_dec (v k * v (S k)) 0 then true else false.
    Definition ispos k : bool := if Rlt_dec 0 (v k * v (S k)) then true else false.
    Definition iszero k : bool := if Req_EM_T (v k) 0 then true else false.
    Notation num f k m := (length (filter f (seq k m))).
    Lemma opposite k : (k < n)%nat -> v (S k) = 0 -> v (S (S k)) = - v k.
    Proof. intros Hk Z. pose proof (Rec p k Hp Hk) as E. rewrite Z in E. apply Rmult_eq_reg_l with t; lra. Qed.
    Lemma zero_edge k : v k * v (S k) = 0 -> isneg k = false /\ ispos k = false.
    Proof. intros E. unfold isneg, ispos. rewrite E. destruct (Rlt_dec 0 0); [lra|auto]. Qed.
    Lemma count m : forall k, (1 <= k)%nat -> (k + m = n)%nat -> v k <> 0 ->
      flips (v k) (map v (seq (S k) m)) = (num isneg k m + num iszero (S k) m)%nat /\ (num isneg k m + num ispos k m + 2 * num iszero (S k) m = m)%nat.
    Proof.
      induction m as [m IH] using lt_wf_ind. intros k H1 Hk Nk. destruct m as [|m]; [cbn; auto|].
      destruct (Req_EM_T (v (S k)) 0) as [Z|Nz].
      - destruct m as [|m]; [exfalso; apply (last_nonzero p Hp); replace n with (S k) by lia; exact Z|].
        pose proof (opposite k ltac:(lia) Z) as O2. assert (N2 : v (S (S k)) <> 0) by lra.
        destruct (IH m ltac:(lia) (S (S k)) ltac:(lia) ltac:(lia) N2) as [E1 E2].
        assert (F1 : flips (v k) (map v (seq (S k) (S (S m)))) = S (flips (v (S (S k))) (map v (seq (S (S (S k))) m)))).
        { cbn [seq map flips]. rewrite Z, Rmult_0_r. destruct (Rlt_dec 0 0); [lra|]. destruct (Req_EM_T 0 0); [|lra].
          rewrite O2. destruct (Rlt_dec (v k * - v k) 0) as [_|B]; [|exfalso; apply B; apply Rsqr_pos_lt in Nk; unfold Rsqr in Nk; lra].
          destruct (Req_EM_T (- v k) 0); [lra|]. reflexivity. }
        destruct (zero_edge k ltac:(rewrite Z; ring)) as [G1 G2]. destruct (zero_edge (S k) ltac:(rewrite Z; ring)) as [G3 G4].
        assert (G5 : iszero (S k) = true) by (unfold iszero; destruct (Req_EM_T (v (S k)) 0); [reflexivity|contradiction]).
        assert (G6 : iszero (S (S k)) = false) by (unfold iszero; destruct (Req_EM_T (v (S (S k))) 0); [contradiction|reflexivity]).
        rewrite F1. cbn [seq filter]. rewrite G1, G2, G3, G4, G5, G6. cbn [length]. lia.
      - destruct (IH m ltac:(lia) (S k) ltac:(lia) ltac:(lia) Nz) as [E1 E2].
        assert (G5 : iszero (S k) = false) by (unfold iszero; destruct (Req_EM_T (v (S k)) 0); [contradiction|reflexivity]).
        cbn [seq map flips filter]. rewrite G5. destruct (Req_EM_T (v (S k)) 0) as [?|_]; [contradiction|]. rewrite E1.
        assert (Ne : v k * v (S k) <> 0) by (apply Rmult_integral_contrapositive; auto).
        assert (G : (isneg k = true /\ ispos k = false /\ v k * v (S k) < 0) \/ (isneg k = false /\ ispos k = true /\ ~ v k * v (S k) < 0)).
        { unfold isneg, ispos. destruct (Rlt_dec (v k * v (S k)) 0), (Rlt_dec 0 (v k * v (S k))); auto; lra. }
        destruct G as [(-> & -> & G)|(-> & -> & G)]; (destruct (Rlt_dec (v k * v (S k)) 0); [|]; try contradiction); cbn [length]; lia.
    Qed.
    Lemma nodes_count : nodes (S (S n)) v = (num isneg 1 (n - 1) + num iszero 2 (n - 1))%nat /\ (num ispos 1 (n - 1) + num iszero 2 (n - 1) + nodes (S (S n)) v = n - 1)%nat.
    Proof.
      destruct (count (n - 1) 1 ltac:(lia) ltac:(lia) (first_nonzero p Hp)) as [E1 E2].
      assert (E : nodes (S (S n)) v = flips (v 1%nat) (map v (seq 2 (n - 1)))).
      { unfold nodes. replace (S (S n)) with (2 + (n - 1) + 1)%nat by lia. rewrite seq_app, map_app. cbn [Nat.add seq map]. replace (S (S (n - 1))) with (S n) by lia. rewrite Yn, flips_end.
        cbn [flips]. rewrite Rmult_0_l. destruct (Rlt_dec 0 0); [lra|]. rewrite Y0. destruct (Req_EM_T 0 0); [|lra]. rewrite Rmult_0_l. destruct (Rlt_dec 0 0); [lra|].
        destruct (Req_EM_T (v 1%nat) 0) as [Z|_]; [destruct (first_nonzero p Hp Z)|]. reflexivity. }
      rewrite E, E1. split; [reflexivity|]. lia.
    Qed.
    (** A combination of d eigenvectors that is proportional to v across the chosen edges *)
    Lemma combination s0 d (chosen : nat -> bool) : (s0 + d <= n)%nat -> (num chosen 1 (n - 1) + num iszero 2 (n - 1) < d)%nat ->
      exists x r, (exists q, (q < d)%nat /\ x q <> 0) /\
        rsum d (fun j => (w (s0 + j)%nat - w p) * x j ^ 2) = t * rsum n (fun k => v k * v (S k) * (r k - r (S k)) ^ 2) /\
        forall k, (1 <= k < n)%nat -> v k * v (S k) <> 0 -> chosen k = true -> r k = r (S k).
    Proof.
      intros Hd Hl. set (edge := fun k q => y (s0 + q) k * v (S k) - y (s0 + q) (S k) * v k). set (zero := fun k q => y (s0 + q)%nat k).
      destruct (null_vector d (map edge (filter chosen (seq 1 (n - 1))) ++ map zero (filter iszero (seq 2 (n - 1))))) as (x & Nx & Hx); [rewrite app_length, !map_length; exact Hl|].
      set (c := fun k => rsum d (fun j => x j * y (s0 + j) k)). set (r := fun k => c k / v k).
      assert (Cz : forall k, (k <= S n)%nat -> v k = 0 -> c k = 0).
      { intros k Hk Z. destruct (Nat.eq_dec k 0) as [->|]; [apply rsum_zero; intros; rewrite Y0; ring|]. destruct (Nat.eq_dec k (S n)) as [->|]; [apply rsum_zero; intros; rewrite Yn; ring|].
        destruct (Nat.eq_dec k 1) as [->|]; [destruct (first_nonzero p Hp Z)|].
        rewrite <- (Hx (zero k)); [unfold c, zero; apply rsum_ext; intros; ring|]. apply in_or_app. right. apply in_map, filter_In. split; [apply in_seq; lia|].
        unfold iszero. destruct (Req_EM_T (v k) 0); [reflexivity|contradiction]. }
      assert (Cr : forall k, (k <= S n)%nat -> c k = r k * v k).
      { intros k Hk. unfold r. destruct (Req_EM_T (v k) 0) as [Z|Z]; [rewrite (Cz k Hk Z), Z; ring | field; exact Z]. }
      exists x, r. split; [exact Nx|]. split.
      - rewrite <- (form_spectral s0 d x (w p) Hd), <- form_ratio by exact Hp. fold c. unfold form. apply rsum_ext. intros k Hk. rewrite !Cr by lia. reflexivity.
      - intros k Hk Ne Ck. assert (N1 : v k <> 0) by (intros Z; apply Ne; rewrite Z; ring). assert (N2 : v (S k) <> 0) by (intros Z; apply Ne; rewrite Z; ring).
        assert (E : c k * v (S k) - c (S k) * v k = 0).
        { rewrite <- (Hx (edge k)); [|apply in_or_app; left; apply in_map, filter_In; split; [apply in_seq; lia|exact Ck]].
          unfold c, edge. rewrite (Rmult_comm _ (v (S k))), (Rmult_comm _ (v k)), <- !rsum_scal, <- rsum_sub. apply rsum_ext. intros; ring. }
        unfold r. apply Rmult_eq_reg_r with (v k * v (S k)); [|exact Ne]. transitivity (c k * v (S k)); [field; auto|]. transitivity (c (S k) * v k); [lra|field; auto].
    Qed.
    Lemma sum_definite d (x f : nat -> R) : (forall j, (j < d)%nat -> 0 < f j) -> (exists q, (q < d)%nat /\ x q <> 0) -> 0 < rsum d (fun j => f j * x j ^ 2).
    Proof.
      intros Hf (q & Hq & Nq). destruct (Rle_lt_or_eq_dec 0 (rsum d (fun j => f j * x j ^ 2))) as [H|H]; [|exact H|].
      - apply rsum_nonneg. intros k Hk. pose proof (Hf k Hk). pose proof (pow2_ge_0 (x k)). apply Rmult_le_pos; lra.
      - exfalso. assert (Z : f q * x q ^ 2 = 0).
        { apply (rsum_null d (fun j => f j * x j ^ 2)); [|symmetry; exact H|exact Hq]. intros k Hk. pose proof (Hf k Hk). pose proof (pow2_ge_0 (x k)). apply Rmult_le_pos; lra. }
        apply Rmult_integral in Z. destruct Z as [Z|Z]; [pose proof (Hf q Hq); lra|]. apply Nq. apply Rsqr_eq_0. unfold Rsqr. rewrite <- Z. ring.
    Qed.
    Theorem nodes_right : nodes (S (S n)) v = p.
    Proof.
      destruct nodes_count as [E1 E2]. set (s := nodes (S (S n)) v) in *. destruct (lt_eq_lt_dec s p) as [[H|H]|H]; [exfalso|exact H|exfalso].
      - destruct (combination 0 p isneg ltac:(lia) ltac:(lia)) as (x & r & Nx & E & C). cbn [Nat.add] in E.
        assert (A : 0 < rsum p (fun j => (w p - w j) * x j ^ 2)) by (apply sum_definite; [intros j Hj; pose proof (strict j p Hj Hp); lra | exact Nx]).
        assert (B : 0 <= rsum n (fun k => v k * v (S k) * (r k - r (S k)) ^ 2)).
        { apply rsum_nonneg. intros k Hk. destruct (Rlt_le_dec (v k * v (S k)) 0) as [Ne|Po]; [|apply Rmult_le_pos; [exact Po|apply pow2_ge_0]].
          destruct (Nat.eq_dec k 0) as [->|]; [rewrite Y0 in Ne; lra|]. rewrite (C k); [right; ring|lia|lra|]. unfold isneg. destruct (Rlt_dec (v k * v (S k)) 0); [reflexivity|lra]. }
        assert (D : rsum p (fun j => (w p - w j) * x j ^ 2) = - rsum p (fun j => (w j - w p) * x j ^ 2)).
        { replace (- rsum p (fun j => (w j - w p) * x j ^ 2)) with (-1 * rsum p (fun j => (w j - w p) * x j ^ 2)) by ring. rewrite <- rsum_scal. apply rsum_ext. intros; ring. }
        rewrite D, E in A. pose proof (Rmult_le_pos t _ ltac:(lra) B). lra.
      - destruct (combination (S p) (n - 1 - p) ispos ltac:(lia) ltac:(lia)) as (x & r & Nx & E & C).
        assert (A : 0 < rsum (n - 1 - p) (fun j => (w (S p + j)%nat - w p) * x j ^ 2)) by (apply (sum_definite _ x (fun j => w (S p + j)%nat - w p)); [intros j Hj; pose proof (strict p (S p + j) ltac:(lia) ltac:(lia)); lra | exact Nx]).
        assert (B : 0 <= rsum n (fun k => - (v k * v (S k)) * (r k - r (S k)) ^ 2)).
        { apply rsum_nonneg. intros k Hk. destruct (Rlt_le_dec 0 (v k * v (S k))) as [Po|Ne]; [|apply Rmult_le_pos; [lra|apply pow2_ge_0]].
          destruct (Nat.eq_dec k 0) as [->|]; [rewrite Y0 in Po; lra|]. rewrite (C k); [right; ring|lia|lra|]. unfold ispos. destruct (Rlt_dec 0 (v k * v (S k))); [reflexivity|lra]. }
        assert (D : rsum n (fun k => - (v k * v (S k)) * (r k - r (S k)) ^ 2) = - rsum n (fun k => v k * v (S k) * (r k - r (S k)) ^ 2)).
        { replace (- rsum n (fun k => v k * v (S k) * (r k - r (S k)) ^ 2)) with (-1 * rsum n (fun k => v k * v (S k) * (r k - r (S k)) ^ 2)) by ring. rewrite <- rsum_scal. apply rsum_ext. intros; ring. }
        rewrite D in B. rewrite E in A. pose proof (Rmult_le_pos t _ ltac:(lra) B). lra.
    Qed.
  End Orbital.
End Jacobi.
