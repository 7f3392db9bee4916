(** A continuous function on a closed bounded set of vectors has a minimum there.  The limit
    point is found one coordinate after the other as a least upper bound, so no choice is used. *)
From Coq Require Import Arith Reals Lra Lia Classical.
Open Scope R_scope.

Lemma Rabs_le_inv x B : Rabs x <= B -> - B <= x <= B.
Proof. intros H. pose proof (Rle_abs x). pose proof (Rle_abs (- x)). rewrite Rabs_Ropp in *. lra. Qed.

(** y is within e of x in each of the first n coordinates. *)
Definition near (n : nat) (e : R) (x y : nat -> R) : Prop := forall i, (i < n)%nat -> Rabs (y i - x i) < e.
Definition steady (n : nat) (F : (nat -> R) -> R) : Prop :=
  forall x e, 0 < e -> exists d, 0 < d /\ forall y, near n d x y -> Rabs (F y - F x) < e.

Lemma near_le n d e x y : d <= e -> near n d x y -> near n e x y.
Proof. intros L H i Hi. specialize (H i Hi). lra. Qed.
Lemma cluster n (B : R) : forall P : R -> (nat -> R) -> Prop,
  (forall d e y, 0 < d -> d <= e -> P d y -> P e y) -> (forall e y, P e y -> forall i, (i < n)%nat -> Rabs (y i) <= B) ->
  (forall e, 0 < e -> exists y, P e y) ->
  exists x, forall e, 0 < e -> exists y, P e y /\ near n e x y.
Proof.
  induction n as [|n IH]; intros P Mono Bd Ne.
  - exists (fun _ => 0). intros e He. destruct (Ne e He) as [y Hy]. exists y. split; [exact Hy | intros i Hi; lia].
  - set (E := fun t => forall e, 0 < e -> exists y, P e y /\ t <= y n).
    assert (Bn : bound E). { exists B. intros t Ht. destruct (Ht 1 Rlt_0_1) as (y & Hy & L). specialize (Bd 1 y Hy n ltac:(lia)). apply Rabs_le_inv in Bd. lra. }
    assert (Nt : exists t, E t). { exists (- B). intros e He. destruct (Ne e He) as [y Hy]. exists y. split; [exact Hy|]. specialize (Bd e y Hy n ltac:(lia)). apply Rabs_le_inv in Bd. lra. }
    destruct (completeness E Bn Nt) as [t0 [Ub Least]].
    assert (Key : forall e, 0 < e -> exists y, P e y /\ Rabs (y n - t0) < e).
    { intros e He.
      assert (exists t, E t /\ t0 - e < t) as (t & Ht & Lt).
      { apply NNPP. intros No. assert (is_upper_bound E (t0 - e)). { intros t Ht. apply Rnot_lt_le. intros L. apply No. exists t. split; assumption. } specialize (Least _ H). lra. }
      assert (~ E (t0 + e)) as Ne'. { intros H. specialize (Ub _ H). lra. }
      apply not_all_ex_not in Ne'. destruct Ne' as [d Hd]. apply imply_to_and in Hd. destruct Hd as [Pd Hd].
      destruct (Ht (Rmin d e)) as (y & Hy & Ly); [apply Rmin_pos; assumption|].
      exists y. split; [apply (Mono (Rmin d e)); [apply Rmin_pos; assumption | apply Rmin_r | exact Hy]|].
      apply Rabs_def1; [|lra]. apply Rnot_le_lt. intros C. apply Hd. exists y. split; [apply (Mono (Rmin d e)); [apply Rmin_pos; assumption | apply Rmin_l | exact Hy] | lra]. }
    destruct (IH (fun e y => P e y /\ Rabs (y n - t0) < e)) as [x Hx].
    + intros d e y Pd L [Hy A]. split; [apply (Mono d); assumption | lra].
    + intros e y [Hy _] i Hi. apply (Bd e y Hy). lia.
    + exact Key.
    + exists (fun i => if (i =? n)%nat then t0 else x i). intros e He. destruct (Hx e He) as (y & [Hy A] & Nr).
      exists y. split; [exact Hy|]. intros i Hi. destruct (Nat.eqb_spec i n) as [->|D]; [exact A|]. apply Nr. lia.
Qed.
Lemma attains n B (A : (nat -> R) -> Prop) (F : (nat -> R) -> R) :
  (forall y, A y -> forall i, (i < n)%nat -> Rabs (y i) <= B) -> (exists y, A y) ->
  (forall x, (forall e, 0 < e -> exists y, A y /\ near n e x y) -> A x) -> steady n F ->
  exists x, A x /\ forall y, A y -> F x <= F y.
Proof.
  intros Bd [y0 H0] Closed Cont.
  (* a bounded function *)
  assert (Low : exists m, forall y, A y -> m <= F y).
  { apply NNPP. intros No. destruct (cluster n B (fun e y => A y /\ F y < - / e)) as [x Hx].
    - intros d e y Pd L [Hy Lt]. split; [exact Hy|]. assert (/ e <= / d) by (apply Rinv_le_contravar; lra). lra.
    - intros e y [Hy _]. apply Bd, Hy.
    - intros e He. apply NNPP. intros N2. apply No. exists (- / e). intros y Hy. apply Rnot_lt_le. intros L. apply N2. exists y. split; assumption.
    - destruct (Cont x 1 Rlt_0_1) as (d & Pd & Hd).
      set (e := Rmin d (/ (Rabs (F x) + 1))). assert (Pe : 0 < e). { apply Rmin_pos; [exact Pd|]. apply Rinv_0_lt_compat. pose proof (Rabs_pos (F x)). lra. }
      destruct (Hx e Pe) as (y & [Hy Lt] & Nr). specialize (Hd y (near_le _ _ _ _ _ (Rmin_l _ _) Nr)).
      assert (Rabs (F x) + 1 <= / e). { rewrite <- (Rinv_inv (Rabs (F x) + 1)). apply Rinv_le_contravar; [exact Pe | apply Rmin_r]. }
      apply Rabs_def2 in Hd. pose proof (Rle_abs (F x)). pose proof (Rle_abs (- F x)). rewrite Rabs_Ropp in *. lra. }
  destruct Low as [lo Hlo]. destruct (completeness (fun t => forall y, A y -> t <= F y)) as [m [Ub Least]].
  { exists (F y0). intros t Ht. apply Ht, H0. } { exists lo. exact Hlo. }
  assert (Hm : forall y, A y -> m <= F y). { intros y Hy. apply Least. intros t Ht. apply Ht, Hy. }
  destruct (cluster n B (fun e y => A y /\ F y < m + e)) as [x Hx].
  - intros d e y Pd L [Hy Lt]. split; [exact Hy | lra].
  - intros e y [Hy _]. apply Bd, Hy.
  - intros e He. apply NNPP. intros N2. assert (Z : forall y, A y -> m + e <= F y). { intros y Hy. apply Rnot_lt_le. intros L. apply N2. exists y. split; assumption. } specialize (Ub _ Z). lra.
  - exists x. split.
    + apply Closed. intros e He. destruct (Hx e He) as (y & [Hy _] & Nr). exists y. split; assumption.
    + assert (F x <= m). { apply le_epsilon. intros e He. destruct (Cont x (e / 2) ltac:(lra)) as (d & Pd & Hd).
        destruct (Hx (Rmin d (e / 2))) as (y & [Hy Lt] & Nr); [apply Rmin_pos; lra|]. specialize (Hd y (near_le _ _ _ _ _ (Rmin_l _ _) Nr)). apply Rabs_def2 in Hd. pose proof (Rmin_r d (e / 2)). lra. }
      intros y Hy. specialize (Hm y Hy). lra.
Qed.
(** ** Continuous functions, closed sets *)
Lemma steady_coord n i : (i < n)%nat -> steady n (fun x => x i).
Proof. intros Hi x e He. exists e. split; [exact He|]. intros y H. apply H, Hi. Qed.
Lemma steady_const n c : steady n (fun _ => c).
Proof. intros x e He. exists 1. split; [lra|]. intros y _. rewrite Rminus_diag_eq, Rabs_R0; [exact He | reflexivity]. Qed.
Lemma steady_add n F G : steady n F -> steady n G -> steady n (fun x => F x + G x).
Proof.
  intros HF HG x e He. destruct (HF x (e / 2) ltac:(lra)) as (d & Pd & Hd). destruct (HG x (e / 2) ltac:(lra)) as (d' & Pd' & Hd').
  exists (Rmin d d'). split; [apply Rmin_pos; assumption|]. intros y Nr. specialize (Hd y (near_le _ _ _ _ _ (Rmin_l _ _) Nr)). specialize (Hd' y (near_le _ _ _ _ _ (Rmin_r _ _) Nr)).
  apply Rabs_def2 in Hd, Hd'. apply Rabs_def1; lra.
Qed.
Lemma steady_mul n F G : steady n F -> steady n G -> steady n (fun x => F x * G x).
Proof.
  intros HF HG x e He. set (c := Rabs (F x) + Rabs (G x) + 1). assert (Pc : 1 <= c) by (unfold c; pose proof (Rabs_pos (F x)); pose proof (Rabs_pos (G x)); lra).
  assert (Pm : 0 < Rmin 1 (e / (2 * c))) by (apply Rmin_pos; [lra | apply Rdiv_lt_0_compat; lra]).
  destruct (HF x _ Pm) as (d & Pd & Hd). destruct (HG x _ Pm) as (d' & Pd' & Hd').
  exists (Rmin d d'). split; [apply Rmin_pos; assumption|]. intros y Nr. specialize (Hd y (near_le _ _ _ _ _ (Rmin_l _ _) Nr)). specialize (Hd' y (near_le _ _ _ _ _ (Rmin_r _ _) Nr)).
  set (t := Rmin 1 (e / (2 * c))) in *. assert (T1 : t <= 1) by apply Rmin_l. assert (T2 : t <= e / (2 * c)) by apply Rmin_r.
  replace (F y * G y - F x * G x) with ((F y - F x) * (G y - G x) + (F x * (G y - G x) + (F y - F x) * G x)) by ring.
  eapply Rle_lt_trans; [apply Rabs_triang|]. eapply Rle_lt_trans; [apply Rplus_le_compat_l, Rabs_triang|]. rewrite !Rabs_mult.
  assert (A1 : Rabs (F y - F x) * Rabs (G y - G x) <= 1 * t) by (apply Rmult_le_compat; try apply Rabs_pos; lra).
  assert (A2 : Rabs (F x) * Rabs (G y - G x) <= Rabs (F x) * t) by (apply Rmult_le_compat_l; [apply Rabs_pos | lra]).
  assert (A3 : Rabs (F y - F x) * Rabs (G x) <= t * Rabs (G x)) by (apply Rmult_le_compat_r; [apply Rabs_pos | lra]).
  assert (A4 : c * t <= c * (e / (2 * c))) by (apply Rmult_le_compat_l; lra). replace (c * (e / (2 * c))) with (e / 2) in A4 by (field; lra).
  assert (A5 : 1 * t + (Rabs (F x) * t + t * Rabs (G x)) = c * t) by (unfold c; ring). lra.
Qed.
Lemma steady_ext n F G : (forall x, F x = G x) -> steady n F -> steady n G.
Proof. intros E H x e He. destruct (H x e He) as (d & Pd & Hd). exists d. split; [exact Pd|]. intros y Ny. rewrite <- !E. apply Hd, Ny. Qed.
Lemma steady_opp n F : steady n F -> steady n (fun x => - F x).
Proof. intros H. apply (steady_ext n (fun x => (- 1) * F x)); [intros; ring|]. apply (steady_mul n (fun _ => -1)); [apply steady_const | exact H]. Qed.
(** The zeros of a continuous function form a closed set. *)
Lemma closed_zero n F x c : steady n F -> (forall e, 0 < e -> exists y, F y = c /\ near n e x y) -> F x = c.
Proof.
  intros H Cl. apply Rminus_diag_uniq. apply NNPP. intros N.
  destruct (H x (Rabs (F x - c))) as (d & Pd & Hd); [apply Rabs_pos_lt, N|]. destruct (Cl d Pd) as (y & Ey & Nr). specialize (Hd y Nr). rewrite Ey in Hd. rewrite Rabs_minus_sym in Hd. lra.
Qed.
