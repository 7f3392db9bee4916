From Coq Require Import Reals Lra.
From Coquelicot Require Import Coquelicot.
From Verif Require Import Py Potentials PotentialProofs.
Open Scope R_scope.

(** The slope of a function at a point as the limit of central difference quotients.  It is the
    derivative where there is one, and the mean of the two one-sided slopes at a kink. *)
Definition central_slope (f : R -> R) (x v : R) : Prop :=
  forall eps, 0 < eps -> exists delta, 0 < delta /\
    forall t, t <> 0 -> Rabs t < delta -> Rabs ((f (x + t) - f (x - t)) / (2 * t) - v) < eps.
(** The slope seen from the right and the slope seen from the left *)
Definition right_slope (f : R -> R) (x v : R) : Prop :=
  forall eps, 0 < eps -> exists delta, 0 < delta /\ forall t, 0 < t < delta -> Rabs ((f (x + t) - f x) / t - v) < eps.
Definition left_slope (f : R -> R) (x v : R) : Prop :=
  forall eps, 0 < eps -> exists delta, 0 < delta /\ forall t, 0 < t < delta -> Rabs ((f x - f (x - t)) / t - v) < eps.

Lemma derive_central (f : R -> R) (x v : R) : is_derive f x v -> central_slope f x v.
Proof.
  intros D eps He. apply is_derive_Reals in D. destruct (D eps He) as [d Hd].
  exists d. split; [apply cond_pos|]. intros t Ht Hb. pose proof (Hd t Ht Hb) as A.
  assert (B : Rabs ((f (x + - t) - f x) / - t - v) < eps) by (apply Hd; [lra | rewrite Rabs_Ropp; exact Hb]).
  replace ((f (x + t) - f (x - t)) / (2 * t) - v) with (1 / 2 * (((f (x + t) - f x) / t - v) + ((f (x + - t) - f x) / - t - v))) by (unfold Rminus; field; exact Ht).
  rewrite Rabs_mult. rewrite (Rabs_right (1 / 2)) by lra. pose proof (Rabs_triang ((f (x + t) - f x) / t - v) ((f (x + - t) - f x) / - t - v)) as T. lra.
Qed.
Lemma smooth_central p x v : smooth_at p x -> (forall a b c, p <> SymmetricDW a b c) -> derivative p x = Ok v -> central_slope (call p) x v.
Proof. intros S N E. apply derive_central. exact (right_derivative p x v S N E). Qed.
Lemma well_central omega l x v : derivative (DW omega l) x = Ok v -> central_slope (call (DW omega l)) x v.
Proof.
  intros E. destruct (Req_dec x 0) as [Z|Z].
  - subst x. injection E as <-. intros eps He. exists 1. split; [lra|]. intros t Ht _.
    unfold heaviside. destruct (Rlt_dec 0 0) as [L|L]; [lra|]. cbv [call].
    replace (Rabs (0 + t)) with (Rabs (0 - t)) by (rewrite <- Rabs_Ropp; f_equal; ring).
    match goal with |- Rabs ?z < _ => replace z with 0 by (field; exact Ht) end. rewrite Rabs_R0. exact He.
  - apply smooth_central; [exact Z | discriminate | exact E].
Qed.
Lemma well_kink omega l : right_slope (call (DW omega l)) 0 (- (l * omega ^ 2 / 2)) /\ left_slope (call (DW omega l)) 0 (l * omega ^ 2 / 2).
Proof.
  split; intros eps He.
  - exists (eps / (1 + omega ^ 2)). assert (P : 0 < 1 + omega ^ 2) by (pose proof (pow2_ge_0 omega); lra).
    split; [apply Rdiv_lt_0_compat; assumption|]. intros t [T0 T1]. cbv [call]. rewrite Rabs_R0. rewrite (Rabs_right (0 + t)) by lra.
    match goal with |- Rabs ?z < _ => replace z with (1 / 2 * omega ^ 2 * t) by (field; lra) end.
    rewrite Rabs_right by (apply Rle_ge; apply Rmult_le_pos; [pose proof (pow2_ge_0 omega); lra | lra]).
    apply (Rmult_lt_compat_r (1 + omega ^ 2)) in T1; [|exact P]. unfold Rdiv in T1. rewrite Rmult_assoc, Rinv_l, Rmult_1_r in T1 by lra.
    pose proof (pow2_ge_0 omega) as Q. assert (0 <= omega ^ 2 * t) by (apply Rmult_le_pos; lra). lra.
  - exists (eps / (1 + omega ^ 2)). assert (P : 0 < 1 + omega ^ 2) by (pose proof (pow2_ge_0 omega); lra).
    split; [apply Rdiv_lt_0_compat; assumption|]. intros t [T0 T1]. cbv [call]. rewrite Rabs_R0. rewrite (Rabs_left (0 - t)) by lra.
    match goal with |- Rabs ?z < _ => replace z with (- (1 / 2 * omega ^ 2 * t)) by (field; lra) end.
    rewrite Rabs_Ropp. rewrite Rabs_right by (apply Rle_ge; apply Rmult_le_pos; [pose proof (pow2_ge_0 omega); lra | lra]).
    apply (Rmult_lt_compat_r (1 + omega ^ 2)) in T1; [|exact P]. unfold Rdiv in T1. rewrite Rmult_assoc, Rinv_l, Rmult_1_r in T1 by lra.
    pose proof (pow2_ge_0 omega) as Q. assert (0 <= omega ^ 2 * t) by (apply Rmult_le_pos; lra). lra.
Qed.
