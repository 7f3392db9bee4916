(** A dot with one inner point, and a particle in a box. *)
From Coq Require Import List Arith ZArith Reals Lra Lia Bool.
From Coquelicot Require Import Coquelicot.
From Verif Require Import Scalar ScalarC Py Numpy BasisSet Spec BasisSpec OneDim OneDimSpec OneDimProofs DotProofs LineProofs GridSpec GridProofs QuadProofs SpectrumProofs.
From Verif Require Import Systems SystemFacts.
Import ListNotations.
Open Scope R_scope.

Definition eigh1 (n : nat) (h : nat -> nat -> R) : (nat -> R) * (nat -> nat -> R) := (fun _ => h 0%nat 0%nat, fun _ _ => 1).
Lemma eigh1_right V : eigenbasis 1 (grid_hamiltonian 1 3 V) (fst (eigh1 1 (grid_hamiltonian 1 3 V))) (snd (eigh1 1 (grid_hamiltonian 1 3 V))).
Proof.
  split; cbn [fst snd eigh1].
  - intros p q Hp Hq. replace p with 0%nat by lia. replace q with 0%nat by lia. cbn [sumn]. change (@sadd CC) with Cplus. change (@s0 CC) with (RtoC 0). rewrite <- RtoC_mult, <- RtoC_plus. unfold kronecker. cbn [Nat.eqb]. f_equal. ring.
  - intros i p Hi Hp. replace i with 0%nat by lia. cbn [sumn]. change (@sadd CC) with Cplus. change (@s0 CC) with (RtoC 0). rewrite <- !RtoC_mult, <- RtoC_plus. f_equal. ring.
  - intros; lra.
Qed.
(** The ground state of a box of length 2 *)
Definition box (y : R) : R := cos (PI / 2 * y).
Definition box1 (y : R) : R := - (PI / 2) * sin (PI / 2 * y).
Definition box2 (y : R) : R := - (PI / 2) ^ 2 * cos (PI / 2 * y).
Definition box3 (y : R) : R := (PI / 2) ^ 3 * sin (PI / 2 * y).
Definition box4 (y : R) : R := (PI / 2) ^ 4 * cos (PI / 2 * y).
Lemma box_right :
  (forall y, is_derive box y (box1 y)) /\ (forall y, is_derive box1 y (box2 y)) /\ (forall y, is_derive box2 y (box3 y)) /\ (forall y, is_derive box3 y (box4 y)) /\
  (forall y, Rabs (box4 y) <= (PI / 2) ^ 4) /\ box (-1) = 0 /\ box 1 = 0 /\ (forall y, - box2 y / 2 + 0 * box y = PI ^ 2 / 8 * box y) /\ (forall y, continuous box2 y) /\ 0 < rsum 3 (fun i => box (point 1 3 i) ^ 2).
Proof.
  split; [|split; [|split; [|split; [|split; [|split; [|split; [|split; [|split]]]]]]]].
  - intros y. unfold box, box1. auto_derive; [exact I|]. ring.
  - intros y. unfold box1, box2. auto_derive; [exact I|]. ring.
  - intros y. unfold box2, box3. auto_derive; [exact I|]. ring.
  - intros y. unfold box3, box4. auto_derive; [exact I|]. ring.
  - intros y. unfold box4. rewrite Rabs_mult. rewrite <- (Rmult_1_r ((PI / 2) ^ 4)) at 2. pose proof PI_RGT_0 as P. assert (0 < (PI / 2) ^ 4) by (apply pow_lt; lra).
    rewrite (Rabs_right ((PI / 2) ^ 4)) by lra. apply Rmult_le_compat_l; [lra|]. apply Rabs_le. pose proof (COS_bound (PI / 2 * y)). lra.
  - unfold box. replace (PI / 2 * -1) with (- (PI / 2)) by ring. rewrite cos_neg. apply cos_PI2.
  - unfold box. rewrite Rmult_1_r. apply cos_PI2.
  - intros y. unfold box, box2. field.
  - intros y. apply (ex_derive_continuous box2). unfold box2. auto_derive. exact I.
  - cbn [rsum]. replace (point 1 3 0) with (-1) by (unfold point; cbn; field). replace (point 1 3 1) with 0 by (unfold point; cbn; field). replace (point 1 3 2) with 1 by (unfold point; cbn; field).
    unfold box. rewrite Rmult_0_r, cos_0. pose proof (pow2_ge_0 (cos (PI / 2 * -1))). pose proof (pow2_ge_0 (cos (PI / 2 * 1))). lra.
Qed.
(** One grid function with its weight on the inner point *)
Definition spike (k i : nat) : R := if (i =? 1)%nat then 1 else 0.
Lemma spike_right : (forall k, (k < 1)%nat -> spike k 0 = 0 /\ spike k (3 - 1) = 0) /\
  forall k k', (k < 1)%nat -> (k' < 1)%nat -> trapezoid 3 (fun i => (RtoC (spike k i) * RtoC (spike k' i))%C) (point 1 3) = kronecker k k'.
Proof.
  split; [intros; split; reflexivity|]. intros k k' Hk Hk'. replace k with 0%nat by lia. replace k' with 0%nat by lia.
  rewrite (trapezoid_ext 3 _ (fun i => RtoC (spike 0 i * spike 0 i)) (point 1 3) (point 1 3)); [|intros; symmetry; apply RtoC_mult|reflexivity].
  rewrite trapezoid_real. unfold kronecker. cbn [Nat.eqb]. f_equal. cbn [rsum Nat.sub]. unfold spike. cbn [Nat.eqb]. rewrite !point_step. unfold spacing. cbn. field.
Qed.
(** A system of two electrons on an oscillator basis *)
Definition line_w (b : basis CC) : world CC := World [b] [System Spatial 0 (Some 0%nat) 1 3 2 (PySlice 0 1) (PySlice 1 3) None] [].
Lemma line_sys b : odho 0 false false 3 10 401 1 1 1 0 = (Ok tt, b) -> sys_at (line_w b) 0 Spatial 1 3 (System Spatial 0 (Some 0%nat) 1 3 2 (PySlice 0 1) (PySlice 1 3) None) b.
Proof. intros H. constructor; try reflexivity; [exists 0%nat; reflexivity | lia | exact (line_is_ready _ _ _ _ _ _ _ _ _ _ _ H)]. Qed.
