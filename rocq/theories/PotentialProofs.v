From Coq Require Import Reals Lra.
From Coquelicot Require Import Coquelicot.
From Verif Require Import Py Potentials.
Open Scope R_scope.

(** Where the value is a differentiable function of x, for admissible parameters *)
Definition smooth_at (p : potential) (x : R) : Prop :=
  match p with
  | DW _ _ => x <> 0
  | DWSmooth a => a <> 0
  | Gaussian _ _ d => d <> 0
  | Atomic _ c => 0 < x ^ 2 + c
  | _ => True
  end.
Lemma power_three_halves y : 0 < y -> Rpower y (3 / 2) = y * sqrt y.
Proof. intros H. replace (3 / 2) with (1 + / 2) by field. rewrite Rpower_plus, Rpower_1, Rpower_sqrt by exact H. reflexivity. Qed.
Lemma call_derivable p (x : R) : smooth_at p x ->
  match derivative p x with
  | Ok v => is_derive (call p) x (v + match p with SymmetricDW _ b _ => b * x ^ 3 | _ => 0 end)
  | Err e => e = NotImplementedError /\ exists w c d wall, p = GaussianHardWall w c d wall
  end.
Proof.
  intros S. destruct p as [omega|omega l|a|a b c|a b c|w c d|w c d wall|Za c]; unfold derivative, call, smooth_at in *; cbv beta iota in *.
  - auto_derive; [trivial | field].
  - assert (A : is_derive Rabs x (2 * (heaviside x - 1 / 2))).
    { unfold heaviside. destruct (Rlt_dec x 0) as [L|L]; [|destruct (Rlt_dec 0 x) as [G|G]; [|lra]].
      - apply (is_derive_ext_loc (fun y => - y)); [|auto_derive; [trivial | field]]. assert (L' : locally x (fun y => y < 0)) by (apply (open_lt 0); exact L). eapply filter_imp; [|exact L']. intros y Hy. cbv beta in Hy. rewrite Rabs_left by exact Hy. reflexivity.
      - apply (is_derive_ext_loc (fun y => y)); [|auto_derive; [trivial | field]]. assert (L' : locally x (fun y => 0 < y)) by (apply (open_gt 0); exact G). eapply filter_imp; [|exact L']. intros y Hy. cbv beta in Hy. rewrite Rabs_right by lra. reflexivity. }
    assert (B : is_derive (fun y : R => 1 / 2 * omega ^ 2 * y ^ 2) x (omega ^ 2 * x)) by (auto_derive; [trivial | field]).
    pose proof (is_derive_scal Rabs x (- (1 / 2 * omega ^ 2 * l)) _ A) as C. pose proof (is_derive_plus (V := R_NormedModule) _ _ _ _ _ B C) as D.
    assert (E : is_derive (fun _ : R => 1 / 2 * omega ^ 2 * (1 / 4 * l ^ 2)) x 0) by (auto_derive; trivial).
    pose proof (is_derive_plus (V := R_NormedModule) _ _ _ _ _ D E) as F. change (@plus R_NormedModule) with Rplus in F. cbn in F.
    match type of F with is_derive ?f _ ?v => apply (is_derive_ext f); [intros t; cbn; match goal with |- ?a = ?b => change (@eq R a b) end; field|]; match goal with |- is_derive _ _ ?w => replace w with v; [exact F|field] end end.
  - auto_derive; [exact I|]. field. exact S.
  - auto_derive; [trivial | ring].
  - auto_derive; [trivial | ring].
  - auto_derive; [trivial|]. replace (- ((x + - c) * ((x + - c) * 1)) * / (2 * (d * (d * 1)))) with (- (x - c) ^ 2 / (2 * d ^ 2)) by (field; exact S). set (e := exp _). field. exact S.
  - split; [reflexivity|]. exists w, c, d, wall. reflexivity.
  - assert (R : 0 < sqrt (x ^ 2 + c)) by (apply sqrt_lt_R0; exact S). rewrite power_three_halves by exact S. auto_derive.
    + split; [exact S|]. split; [|trivial]. change (x * (x * 1)) with (x ^ 2). apply Rgt_not_eq. exact R.
    + change (x * (x * 1)) with (x ^ 2). pose proof (sqrt_sqrt (x ^ 2 + c) (Rlt_le _ _ S)) as Q. set (q := sqrt (x ^ 2 + c)) in *. rewrite <- Q. field. lra.
Qed.
Lemma right_derivative p x v : smooth_at p x -> (forall a b c, p <> SymmetricDW a b c) -> derivative p x = Ok v -> is_derive (call p) x v.
Proof.
  intros S N E. pose proof (call_derivable p x S) as H. rewrite E in H. destruct p; try (rewrite Rplus_0_r in H; exact H). destruct (N a b c eq_refl).
Qed.
Lemma symmetric_derivative a b c x v : derivative (SymmetricDW a b c) x = Ok v -> (is_derive (call (SymmetricDW a b c)) x v <-> b = 0 \/ x = 0).
Proof.
  intros E. pose proof (call_derivable (SymmetricDW a b c) x I) as H. rewrite E in H. cbv iota in H. split.
  - intros D. apply is_derive_unique in D, H. assert (Z : b * x ^ 3 = 0) by lra. apply Rmult_integral in Z. destruct Z as [Z|Z]; [left; exact Z|]. right.
    destruct (Req_dec x 0) as [X|X]; [exact X|]. destruct (pow_nonzero x 3 X Z).
  - intros D. replace v with (v + b * x ^ 3); [exact H|]. destruct D as [-> | ->]; ring.
Qed.
Lemma symmetric_default : ~ (forall p x v, smooth_at p x -> derivative p x = Ok v -> is_derive (call p) x v).
Proof.
  intros H. pose proof (H (SymmetricDW (1 / 2) 1 (-7)) 1 _ I eq_refl) as D. apply (proj1 (symmetric_derivative (1 / 2) 1 (-7) 1 _ eq_refl)) in D. lra.
Qed.
