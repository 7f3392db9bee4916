(** One-dimensional systems: simple levels, nodes, parity and what follows from it. *)
From Coq Require Import List Arith Reals Lra Lia Bool.
From Coquelicot Require Import Coquelicot.
From Verif Require Import Scalar ScalarC Py Numpy BasisSet Spec BasisSpec OneDim OneDimSpec OneDimProofs DotProofs GridSpec GridProofs QuadProofs SpectrumProofs NodeSpec NodeProofs.
Import ListNotations.
Open Scope R_scope.

Lemma sign_sq p : sign p * sign p = 1.
Proof. unfold sign. rewrite <- Rpow_mult_distr. replace (-1 * -1) with 1 by ring. apply pow1. Qed.
Lemma sign_add p q : sign (p + q) = sign p * sign q.
Proof. apply pow_add. Qed.
Lemma sign_S p : sign (S p) = - sign p.
Proof. unfold sign. cbn [pow]. ring. Qed.
Lemma sign_cases p : sign p = 1 \/ sign p = -1.
Proof. induction p as [|p IH]; [left; reflexivity|]. rewrite sign_S. destruct IH as [->| ->]; [right|left]; ring. Qed.
Lemma sign_odd p : Nat.odd p = true -> sign p = -1.
Proof. intros H. apply Nat.odd_spec in H. destruct H as [k ->]. rewrite sign_add. unfold sign. rewrite pow_mult. replace ((-1) ^ 2) with 1 by ring. rewrite pow1. ring. Qed.
Lemma sign_even p : Nat.odd p = false -> sign p = 1.
Proof. intros H. rewrite <- Nat.negb_even in H. apply negb_false_iff, Nat.even_spec in H. destruct H as [k ->]. unfold sign. rewrite pow_mult. replace ((-1) ^ 2) with 1 by ring. apply pow1. Qed.

(** The sign at the end of a list *)
Fixpoint final (x : R) (l : list R) : R := match l with [] => x | z :: rest => final (if Req_EM_T z 0 then x else z) rest end.
Lemma final_sign l : forall x, x <> 0 -> 0 < sign (flips x l) * x * final x l.
Proof.
  induction l as [|z l IH]; intros x Nx; cbn [flips final].
  - unfold sign. cbn [pow]. apply Rsqr_pos_lt in Nx. unfold Rsqr in Nx. lra.
  - destruct (Req_EM_T z 0) as [->|Nz].
    + rewrite Rmult_0_r. destruct (Rlt_dec 0 0); [lra|]. apply IH. exact Nx.
    + specialize (IH z Nz). set (f := final z l) in *. set (s := sign (flips z l)) in *.
      assert (P : 0 < (x * z) * (x * z)) by (apply Rsqr_pos_lt, Rmult_integral_contrapositive; auto).
      destruct (Rlt_dec (x * z) 0) as [H|H]; cbn [Nat.add]; rewrite ?sign_S; fold s.
      * apply Rmult_lt_reg_r with (z * z); [apply Rsqr_pos_lt; exact Nz|]. replace (- s * x * f * (z * z)) with ((- (x * z)) * (s * z * f)) by ring. rewrite Rmult_0_l. apply Rmult_lt_0_compat; lra.
      * assert (x * z <> 0) by (apply Rmult_integral_contrapositive; auto). apply Rmult_lt_reg_r with (z * z); [apply Rsqr_pos_lt; exact Nz|]. replace (s * x * f * (z * z)) with ((x * z) * (s * z * f)) by ring. rewrite Rmult_0_l. apply Rmult_lt_0_compat; lra.
Qed.
Lemma final_last l z : forall x, z <> 0 -> final x (l ++ [z]) = z.
Proof. induction l as [|y l IH]; intros x Nz; cbn [app final]; [destruct (Req_EM_T z 0); [contradiction|reflexivity] | apply IH; exact Nz]. Qed.

Section Mirror.
  Variables (n : nat) (t : R) (a w : nat -> R) (y : nat -> nat -> R).
  Hypothesis Ht : 0 < t.
  Hypothesis Y0 : forall p, y p 0%nat = 0.
  Hypothesis Yn : forall p, y p (S n) = 0.
  Hypothesis Rec : forall p k, (p < n)%nat -> (k < n)%nat -> (a k - w p) * y p (S k) = t * (y p k + y p (S (S k))).
  Hypothesis Orth : forall p q, (p < n)%nat -> (q < n)%nat -> rsum n (fun k => y p (S k) * y q (S k)) = rdelta p q.
  Hypothesis Asc : forall p q, (p <= q)%nat -> (q < n)%nat -> w p <= w q.
  Hypothesis Even : forall k, (k < n)%nat -> a (n - 1 - k)%nat = a k.
  Lemma alternate p k : (p < n)%nat -> (k <= S n)%nat -> y p (S n - k)%nat = sign p * y p k.
  Proof.
    intros Hp Hk. set (z := fun k => y p (S n - k)%nat).
    assert (N1 : y p 1%nat <> 0) by (apply (first_nonzero n t a w y); assumption). assert (Nn : y p n <> 0) by (apply (last_nonzero n t a w y); assumption).
    assert (Rz : forall k, (k < n)%nat -> (a k - w p) * z (S k) = t * (z k + z (S (S k)))).
    { intros j Hj. unfold z. pose proof (Rec p (n - 1 - j)%nat Hp ltac:(lia)) as E. rewrite Even in E by exact Hj.
      replace (S n - S j)%nat with (S (n - 1 - j)) by lia. rewrite E. replace (S n - j)%nat with (S (S (n - 1 - j))) by lia. replace (S n - S (S j))%nat with (n - 1 - j)%nat by lia. ring. }
    set (r := fun k => y p 1%nat * z k - z 1%nat * y p k).
    assert (Rr : forall k, (k < n)%nat -> (a k - w p) * r (S k) = t * (r k + r (S (S k)))).
    { intros j Hj. unfold r. pose proof (Rz j Hj) as E1. pose proof (Rec p j Hp Hj) as E2.
      transitivity (y p 1%nat * ((a j - w p) * z (S j)) - z 1%nat * ((a j - w p) * y p (S j))); [ring|]. rewrite E1, E2. ring. }
    assert (Z : forall j, (0 <= j <= S n)%nat -> r j = 0).
    { apply (up n t a Ht r (w p) Rr 0%nat); unfold r; [|ring]. rewrite Y0. unfold z. rewrite Nat.sub_0_r, Yn. ring. }
    assert (Zn : z 1%nat = y p n) by (unfold z; f_equal; lia).
    set (c := y p n / y p 1%nat). assert (C : forall j, (j <= S n)%nat -> z j = c * y p j).
    { intros j Hj. pose proof (Z j ltac:(lia)) as E. unfold r in E. rewrite Zn in E. unfold c. apply Rmult_eq_reg_l with (y p 1%nat); [|exact N1]. transitivity (y p n * y p j); [lra | field; exact N1]. }
    assert (C2 : c * c = 1).
    { pose proof (C n ltac:(lia)) as E. unfold z in E. replace (S n - n)%nat with 1%nat in E by lia. apply Rmult_eq_reg_r with (y p 1%nat); [|exact N1].
      rewrite Rmult_assoc. replace (c * y p 1%nat) with (y p n) by (unfold c; field; exact N1). rewrite Rmult_1_l. symmetry. exact E. }
    assert (Cs : c = sign p).
    { assert (F : nodes (S (S n)) (y p) = p) by (apply (nodes_right n t a w y); assumption).
      assert (E : nodes (S (S n)) (y p) = flips (y p 1%nat) (map (y p) (seq 2 (n - 1)))).
      { unfold nodes. replace (S (S n)) with (2 + (n - 1) + 1)%nat by lia. rewrite seq_app, map_app. cbn [Nat.add seq map]. replace (S (S (n - 1))) with (S n) by lia. rewrite Yn, flips_end.
        cbn [flips]. rewrite Rmult_0_l. destruct (Rlt_dec 0 0); [lra|]. rewrite Y0. destruct (Req_EM_T 0 0); [|lra]. rewrite Rmult_0_l. destruct (Rlt_dec 0 0); [lra|].
        destruct (Req_EM_T (y p 1%nat) 0); [contradiction|]. reflexivity. }
      assert (Fi : final (y p 1%nat) (map (y p) (seq 2 (n - 1))) = y p n).
      { destruct (Nat.eq_dec n 1) as [->|]; [reflexivity|]. replace (n - 1)%nat with (n - 2 + 1)%nat by lia. rewrite seq_app, map_app. cbn [seq map]. replace (2 + (n - 2))%nat with n by lia. apply final_last. exact Nn. }
      pose proof (final_sign (map (y p) (seq 2 (n - 1))) (y p 1%nat) N1) as P. rewrite Fi, <- E, F in P.
      assert (Yc : y p n = c * y p 1%nat) by (unfold c; field; exact N1). rewrite Yc in P.
      assert (Q : 0 < y p 1%nat * y p 1%nat) by (apply Rsqr_pos_lt; exact N1).
      assert (P' : 0 < (sign p * c) * (y p 1%nat * y p 1%nat)) by (replace (sign p * c * (y p 1%nat * y p 1%nat)) with (sign p * y p 1%nat * (c * y p 1%nat)) by ring; exact P).
      assert (Sc : 0 < sign p * c) by (apply Rmult_lt_reg_r with (y p 1%nat * y p 1%nat); [exact Q | rewrite Rmult_0_l; exact P']).
      assert (D : (c - 1) * (c + 1) = 0) by (replace ((c - 1) * (c + 1)) with (c * c - 1) by ring; lra). apply Rmult_integral in D.
      destruct (sign_cases p) as [X|X]; rewrite X in Sc |- *; destruct D; lra. }
    rewrite <- Cs. apply (C k Hk).
  Qed.
End Mirror.

Lemma odd_sum f : forall N, (forall i, (i < N)%nat -> f (N - 1 - i)%nat = (- f i)%C) -> csum N f = RtoC 0.
Proof.
  intros N. revert f. induction N as [N IH] using lt_wf_ind. intros f H. destruct N as [|[|N]]; [reflexivity| |].
  - pose proof (H 0%nat ltac:(lia)) as E. cbn [Nat.sub] in E. cbn [sumn]. cbn [sadd CC s0].
    assert (f 0%nat = RtoC 0). { destruct (f 0%nat) as [x z]. unfold Copp in E. cbn in E. injection E as E1 E2. unfold RtoC. f_equal; lra. } rewrite H0. cr.
  - rewrite csum_first. change (csum (S N) ?g) with (csum N g + g N)%C. cbv beta. rewrite (IH N ltac:(lia) (fun i => f (S i))).
    + pose proof (H 0%nat ltac:(lia)) as E. replace (S (S N) - 1 - 0)%nat with (S N) in E by lia. rewrite E. cr.
    + intros i Hi. pose proof (H (S i) ltac:(lia)) as E. replace (S (S N) - 1 - S i)%nat with (S (N - 1 - i)) in E by lia. exact E.
Qed.
Lemma reverse_sum f : forall N, csum N (fun i => f (N - 1 - i)%nat) = csum N f.
Proof.
  induction N as [|N IH]; [reflexivity|]. rewrite csum_first. replace (S N - 1 - 0)%nat with N by lia. change (csum (S N) f) with (csum N f + f N)%C.
  rewrite <- IH. rewrite (csum_ext N (fun i => f (S N - 1 - S i)%nat) (fun i => f (N - 1 - i)%nat)) by (intros; f_equal; lia). cr.
Qed.
Lemma wt_mirror N i : (i < N)%nat -> wt N (N - 1 - i) = wt N i.
Proof.
  intros H. unfold wt. destruct (Nat.eqb_spec (N - 1 - i) 0), (Nat.eqb_spec (N - 1 - i) (N - 1)), (Nat.eqb_spec i 0), (Nat.eqb_spec i (N - 1)); try lia; lra.
Qed.
Lemma linspace_mirror L N i : (2 <= N)%nat -> (i < N)%nat -> linspace L N (N - 1 - i) = - linspace L N i.
Proof. intros H2 Hi. unfold linspace. rewrite (minus_INR (N - 1) i) by lia. field. apply not_0_INR. lia. Qed.
Lemma shielded_mirror x z alpha a : shielded_coulomb (- x) (- z) alpha a = shielded_coulomb x z alpha a.
Proof. unfold shielded_coulomb. do 2 f_equal. ring. Qed.

(** ** Selection rules for orbitals of alternating parity *)
Section Rules.
  Variables (spf : nat -> nat -> C) (l N : nat) (L alpha a : R).
  Notation grid := (linspace L N).
  Hypothesis H2 : (2 <= N)%nat.
  Hypothesis Alt : forall p i, (p < l)%nat -> (i < N)%nat -> spf p (N - 1 - i)%nat = (RtoC (sign p) * spf p i)%C.
  Lemma u_rule p q r s : (p < l)%nat -> (q < l)%nat -> (r < l)%nat -> (s < l)%nat -> Nat.odd (p + q + r + s) = true ->
    orbital_integral spf N grid alpha a p q r s = RtoC 0.
  Proof.
    intros Hp Hq Hr Hs Od. rewrite u_sums. apply odd_sum. intros i Hi.
    rewrite <- (reverse_sum (fun j => _)). rewrite (csum_ext N _ (fun j => (RtoC (sign (p + q + r + s)) * (RtoC ((grid 1%nat - grid 0%nat) * wt N i) * RtoC ((grid 1%nat - grid 0%nat) * wt N j) * Cconj (spf p i) * Cconj (spf q j) * RtoC (shielded_coulomb (grid i) (grid j) alpha a) * spf r i * spf s j))%C)).
    - rewrite <- csum_scal, sign_odd by exact Od. replace (RtoC (-1)) with (- RtoC 1)%C by (rewrite <- RtoC_opp; reflexivity). cr.
    - intros j Hj. rewrite !wt_mirror, !linspace_mirror, shielded_mirror, !Alt by assumption. rewrite !sign_add, !RtoC_mult, !C_conj_mul, !RtoC_conj. cr.
  Qed.
  Lemma trapezoid_rule (g : R -> R) sg p q : (p < l)%nat -> (q < l)%nat -> (forall x, g (- x) = sg * g x) -> sign (p + q) * sg = -1 ->
    trapezoid N (fun i => (Cconj (spf p i) * RtoC (g (grid i)) * spf q i)%C) grid = RtoC 0.
  Proof.
    intros Hp Hq G E. rewrite <- (trapz_uniform N _ grid (linspace_uniform L N)), trapz_weights. apply odd_sum. intros i Hi.
    rewrite wt_mirror, linspace_mirror, !Alt, G by assumption. rewrite C_conj_mul, RtoC_conj.
    transitivity (RtoC (sign (p + q) * sg) * (RtoC ((grid 1%nat - grid 0%nat) * wt N i) * (Cconj (spf p i) * RtoC (g (grid i)) * spf q i)))%C; [rewrite sign_add, !RtoC_mult; cr|].
    rewrite E. replace (RtoC (-1)) with (- RtoC 1)%C by (rewrite <- RtoC_opp; reflexivity). cr.
  Qed.
End Rules.
