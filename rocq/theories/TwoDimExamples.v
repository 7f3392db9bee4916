(** Restatements and concrete cases for Prop_TwoDim.v. *)
From Coq Require Import List Arith ZArith Lia Bool Reals Lra.
From Verif Require Import Py TwoDim TwoDimProofs FieldProofs.
Import ListNotations.
Open Scope R_scope.

Lemma diagonal_energy p : (0 <= p -> exists n m, get_indices_nm p = Some (n, m) /\ one_body_diagonal p = Some (2 * n + Z.abs m + 1) /\ 1 <= 2 * n + Z.abs m + 1)%Z.
Proof.
  intros Hp. destruct (get_indices_ok p Hp) as (k & t & n & m & E & Hk & _ & _ & _ & En & _). exists n, m. split; [exact E|].
  unfold one_body_diagonal. rewrite E. split; [reflexivity | lia].
Qed.
Lemma field_lowest' l omega_0 omega_c rows : omega_0 <> 0 -> field_states l omega_0 omega_c = Ok rows ->
  length rows = l /\
  forall p s, nth_error rows p = Some s -> (0 <= fst s)%Z /\
    forall t : Z * Z, (0 <= fst t)%Z ->
    let e := fun s : Z * Z => sqrt (omega_0 ^ 2 + omega_c ^ 2 / 4) * (2 * IZR (fst s) + IZR (Z.abs (snd s)) + 1) - omega_c * IZR (snd s) / 2 in
    ((e t < e s \/ (e t = e s /\ (snd t < snd s)%Z)) <-> exists q, (q < p)%nat /\ nth_error rows q = Some t).
Proof.
  intros H0 E. destruct (field_lowest l omega_0 omega_c rows H0 E) as [A B]. split; [exact A|]. intros p s Hs.
  destruct (B p s Hs) as [Hn Hr]. split; [exact Hn|]. intros t Ht e. rewrite <- (Hr t Ht). unfold slt, shell_energy_B, e.
  rewrite !plus_IZR, !mult_IZR. reflexivity.
Qed.
Lemma field_refuted : ~ (forall l omega_0 omega_c, (1 <= l)%nat -> 0 < omega_0 -> exists rows, field_states l omega_0 omega_c = Ok rows).
Proof.
  intros H. destruct (H 1%nat (/ 10000000000) 0 ltac:(lia) ltac:(lra)) as (rows & E). rewrite field_fails in E; [discriminate E | lia | lra|].
  replace ((/ 10000000000) ^ 2 + 0 ^ 2 / 4) with ((/ 10000000000) ^ 2) by field. rewrite sqrt_pow2 by lra. cbn [INR]. lra.
Qed.
Lemma field_free_ok l omega_0 : (1 <= l)%nat -> 2 / 1000000 <= Rabs omega_0 * (INR l + 4) ->
  exists rows, field_states l omega_0 0 = Ok rows /\ length rows = l /\
  forall p, (p < l)%nat -> nth_error rows p = get_indices_nm (Z.of_nat p).
Proof.
  intros Hl Hr. assert (H0 : omega_0 <> 0) by (intros ->; rewrite Rabs_R0 in Hr; lra).
  destruct (frequency omega_0 0 H0) as (_ & _ & W). pose proof (pos_INR l).
  destruct (field_succeeds l omega_0 0 Hl H0) as (rows & E); [eapply Rle_trans; [exact Hr | apply Rmult_le_compat_r; lra]|].
  exists rows. split; [exact E|]. split; [apply (field_lowest l omega_0 0 rows H0 E)|]. intros p. apply (field_free l omega_0 rows p H0 E).
Qed.
Lemma field_instance : exists rows, field_states 6 1 (1 / 2) = Ok rows /\ length rows = 6%nat.
Proof.
  destruct (frequency 1 (1 / 2)) as (_ & _ & W); [lra|]. rewrite Rabs_R1 in W.
  destruct (field_succeeds 6 1 (1 / 2)) as (rows & E); [lia | lra | cbn [INR]; lra|]. exists rows. split; [exact E|].
  apply (field_lowest 6 1 (1 / 2) rows ltac:(lra) E).
Qed.
Lemma field_free_instance : exists rows, field_states 4 1 0 = Ok rows /\ nth_error rows 3 = Some (0, -2)%Z.
Proof.
  destruct (field_free_ok 4 1) as (rows & E & _ & H); [lia | rewrite Rabs_R1; cbn [INR]; lra|]. exists rows. split; [exact E|]. rewrite (H 3%nat) by lia. reflexivity.
Qed.
