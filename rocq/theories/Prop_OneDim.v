(** C53-C58, C76, C77: one-dimensional quantum dots. *)
From Coq Require Import List Arith Reals Lra Lia Bool.
From Coquelicot Require Import Coquelicot.
From Verif Require Import Scalar ScalarC Py Numpy BasisSet Spec BasisSpec OneDim OneDimSpec OneDimProofs DotProofs LineProofs Potentials PotentialProofs.
Import ListNotations.
Open Scope R_scope.

(** C53. Both constructors; no hypothesis on the orbitals. *)
Theorem C53_dot :
  forall npm spin anti l L N a alpha beta V eigh b,
  odqd npm spin anti l L N a alpha beta V eigh = (Ok tt, b) ->
  exists u, b_arr b F_u = Some u /\ shape u = [l; l; l; l] /\ particle_sym l (ten u) /\ hermitian2 l (ten u).
Proof. exact dot_two_body. Qed.
Print Assumptions C53_dot.
Theorem C53_oscillator :
  forall npm spin anti l L N omega a alpha beta b,
  odho npm spin anti l L N omega a alpha beta = (Ok tt, b) ->
  exists u, b_arr b F_u = Some u /\ shape u = [l; l; l; l] /\ particle_sym l (ten u) /\ hermitian2 l (ten u).
Proof. exact line_two_body. Qed.
Print Assumptions C53_oscillator.
(** The elements are the double trapezoidal sums of the shielded interaction. *)
Theorem C53_dot_values :
  forall npm spin anti l L N a alpha beta V eigh b,
  odqd npm spin anti l L N a alpha beta V eigh = (Ok tt, b) ->
  exists spf u, b_arr b F_spf = Some spf /\ b_arr b F_u = Some u /\
    forall p q r s, (p < l)%nat -> (q < l)%nat -> (r < l)%nat -> (s < l)%nat ->
    let x := point L N in let f p i := (get spf [p; i] : C) in
    ten u p q r s = trapezoid N (fun i => (Cconj (f p i) * trapezoid N (fun j => (Cconj (f q j) * RtoC (alpha / sqrt ((x i - x j) ^ 2 + a ^ 2)) * f s j)%C) x * f r i)%C) x.
Proof. exact dot_two_body_value. Qed.
Print Assumptions C53_dot_values.
Example C53_instance :
  (exists b, odqd 0 false false 2 (3 / 2) 4 1 1 0 small_well eigh2 = (Ok tt, b)) /\ exists b, odho 0 false false 3 10 401 1 1 1 0 = (Ok tt, b).
Proof. split; eexists; [apply dot_ok | apply odho_ok]; repeat constructor. Qed.

(** C54. [eigh] is numpy.linalg.eigh; it is assumed right for the one matrix it is given. *)
Theorem C54_orthonormal :
  forall npm spin anti l L N a alpha beta V eigh b,
  odqd npm spin anti l L N a alpha beta V eigh = (Ok tt, b) ->
  0 < L ->
  eigenbasis (N - 2) (grid_hamiltonian L N V) (fst (eigh (N - 2)%nat (grid_hamiltonian L N V))) (snd (eigh (N - 2)%nat (grid_hamiltonian L N V))) ->
  exists spf h s, b_arr b F_spf = Some spf /\ b_arr b F_h = Some h /\ b_arr b F_s = Some s /\
    shape spf = [l; N] /\ shape h = [l; l] /\ shape s = [l; l] /\
    (forall p, (p < l)%nat -> get spf [p; 0]%nat = RtoC 0 /\ get spf [p; N - 1]%nat = RtoC 0) /\
    (forall p q, (p < l)%nat -> (q < l)%nat ->
      trapezoid N (fun i => (Cconj (get spf [p; i]) * get spf [q; i])%C) (point L N) = kronecker p q /\ mat s p q = kronecker p q) /\
    (forall p i, (p < l)%nat -> (0 < i < N - 1)%nat ->
      difference_hamiltonian (spacing L N) V (point L N) (fun i => get spf [p; i]) i = (mat h p p * get spf [p; i])%C) /\
    (forall p q, (p < l)%nat -> (q < l)%nat ->
      mat h p q = trapezoid N (fun i => (Cconj (get spf [p; i]) * difference_hamiltonian (spacing L N) V (point L N) (fun i => get spf [q; i]) i)%C) (point L N)) /\
    (forall p q, (p < l)%nat -> (q < l)%nat -> p <> q -> mat h p q = RtoC 0) /\
    (forall p q, (p <= q)%nat -> (q < l)%nat -> Re (mat h p p) <= Re (mat h q q)).
Proof. exact dot_orthonormal. Qed.
Print Assumptions C54_orthonormal.
Theorem C54_dipole :
  forall npm spin anti l L N a alpha beta V eigh b,
  odqd npm spin anti l L N a alpha beta V eigh = (Ok tt, b) ->
  exists spf d, b_arr b F_spf = Some spf /\ b_arr b F_dip = Some d /\ shape d = [1; l; l]%nat /\
    (forall p q, (p < l)%nat -> (q < l)%nat -> let x := point L N in
      get d [0; p; q]%nat = trapezoid N (fun i => (Cconj (get spf [p; i]) * RtoC (x i + beta * x i ^ 2) * get spf [q; i])%C) x) /\
    hermitian l (fun p q => get d [0; p; q]%nat).
Proof. exact dot_dipole. Qed.
Print Assumptions C54_dipole.
Example C54_instance :
  (exists b, odqd 0 false false 2 (3 / 2) 4 1 1 0 small_well eigh2 = (Ok tt, b)) /\
  eigenbasis (4 - 2) (grid_hamiltonian (3 / 2) 4 small_well) (fst (eigh2 2 (grid_hamiltonian (3 / 2) 4 small_well))) (snd (eigh2 2 (grid_hamiltonian (3 / 2) 4 small_well))).
Proof. split; [eexists; apply dot_ok; repeat constructor | exact eigh2_right]. Qed.

(** C55. *)
Theorem C55_sizes :
  forall npm spin anti l L N a alpha beta V eigh,
  (exists e b, odqd npm spin anti l L N a alpha beta V eigh = (Err e, b)) <-> (N < 3 \/ N - 2 < l)%nat.
Proof. exact dot_raises_iff. Qed.
Print Assumptions C55_sizes.
(** Otherwise the object is complete, with all arrays of the announced sizes. *)
Theorem C55_ready :
  forall npm spin anti l L N a alpha beta V eigh b,
  odqd npm spin anti l L N a alpha beta V eigh = (Ok tt, b) -> ready b l.
Proof. exact dot_is_ready. Qed.
Print Assumptions C55_ready.
Theorem C55_oscillator_ready :
  forall npm spin anti l L N omega a alpha beta b,
  odho npm spin anti l L N omega a alpha beta = (Ok tt, b) -> ready b l.
Proof. exact line_is_ready. Qed.
Print Assumptions C55_oscillator_ready.

(** C56. *)
Theorem C56_dipole :
  forall npm spin anti l L N omega a alpha beta b,
  odho npm spin anti l L N omega a alpha beta = (Ok tt, b) -> 0 < omega ->
  exists d, b_arr b F_dip = Some d /\ shape d = [1; l; l]%nat /\
    forall p q, get d [0; p; q]%nat = RtoC (if (p + 1 =? q)%nat then sqrt ((INR p + 1) / (2 * omega)) else if (q + 1 =? p)%nat then sqrt ((INR q + 1) / (2 * omega)) else 0).
Proof. exact line_dipole. Qed.
Print Assumptions C56_dipole.
Theorem C56_energies :
  forall npm spin anti l L N omega a alpha beta b,
  odho npm spin anti l L N omega a alpha beta = (Ok tt, b) ->
  exists h, b_arr b F_h = Some h /\ shape h = [l; l] /\
    forall p q, mat h p q = if (p =? q)%nat then RtoC (omega * (INR p + 1 / 2)) else RtoC 0.
Proof. exact line_h. Qed.
Print Assumptions C56_energies.

(** C57. *)
Theorem C57_linear :
  forall n x c d f g, trapz n (fun i => (c * f i + d * g i)%C) x = (c * trapz n f x + d * trapz n g x)%C.
Proof. exact trapz_linear. Qed.
Print Assumptions C57_linear.
Theorem C57_rule :
  forall n f x, (forall i, (S i < n)%nat -> x (S i) - x i = x 1%nat - x 0%nat) -> trapz n f x = trapezoid n f x.
Proof. exact trapz_uniform. Qed.
Print Assumptions C57_rule.
Theorem C57_numpy :
  forall n f x, (forall i, (S i < n)%nat -> x (S i) - x i = x 1%nat - x 0%nat) -> trapz n f x = np_trapz n f x.
Proof. exact (fun n f x U => eq_trans (trapz_uniform n f x U) (eq_sym (np_trapz_right n f x))). Qed.
Print Assumptions C57_numpy.
Theorem C57_affine :
  forall n (c d : C) x, (1 <= n)%nat -> (forall i, (S i < n)%nat -> x (S i) - x i = x 1%nat - x 0%nat) ->
  is_RInt (fun z => Re (c + d * RtoC z)%C) (x 0%nat) (x (n - 1)%nat) (Re (trapz n (fun i => (c + d * RtoC (x i))%C) x)) /\
  is_RInt (fun z => Im (c + d * RtoC z)%C) (x 0%nat) (x (n - 1)%nat) (Im (trapz n (fun i => (c + d * RtoC (x i))%C) x)).
Proof. exact trapz_affine. Qed.
Print Assumptions C57_affine.
Example C57_instance : (forall i, (S i < 11)%nat -> linspace 5 11 (S i) - linspace 5 11 i = linspace 5 11 1 - linspace 5 11 0) /\ linspace 5 11 0 = -5 /\ linspace 5 11 10 = 5.
Proof. split; [exact (linspace_uniform 5 11)|]. unfold linspace. cbn. split; field. Qed.

(** C58. [smooth_at p x]: not at the kink of |x|, and no division by zero. *)
Definition C58_claim : Prop := forall p x v, smooth_at p x -> derivative p x = Ok v -> is_derive (call p) x v.
Theorem C58_refuted : ~ C58_claim.
Proof. exact symmetric_default. Qed.
Print Assumptions C58_refuted.
Theorem C58_derivative_partial :
  forall p x v, smooth_at p x -> (forall a b c, p <> SymmetricDW a b c) -> derivative p x = Ok v -> is_derive (call p) x v.
Proof. exact right_derivative. Qed.
Print Assumptions C58_derivative_partial.
Theorem C58_symmetric_double_well :
  forall a b c x v, derivative (SymmetricDW a b c) x = Ok v -> (is_derive (call (SymmetricDW a b c)) x v <-> b = 0 \/ x = 0).
Proof. exact symmetric_derivative. Qed.
Print Assumptions C58_symmetric_double_well.
Example C58_instance : smooth_at (DW 1 5) (-2) /\ derivative (DW 1 5) (-2) = Ok (1 / 2).
Proof. split; [cbn; lra|]. unfold derivative, heaviside. destruct (Rlt_dec (-2) 0); [|lra]. f_equal. field. Qed.

(** C76. The rows of spf sample functions of which s, h and the dipole are the matrices. *)
Theorem C76_oscillator_functions :
  forall npm spin anti l L N omega a alpha beta b,
  odho npm spin anti l L N omega a alpha beta = (Ok tt, b) -> 0 < omega ->
  exists spf h s d f, b_arr b F_spf = Some spf /\ b_arr b F_h = Some h /\ b_arr b F_s = Some s /\ b_arr b F_dip = Some d /\
    (forall p i, get spf [p; i] = RtoC (f p (point L N i))) /\
    (forall p q, exists o, whole_line (fun x => f p x * f q x) o /\ mat s p q = RtoC o) /\
    (forall p q, exists o, whole_line (fun x => f p x * x * f q x) o /\ get d [0; p; q]%nat = RtoC o) /\
    (forall p, exists e, line_hamiltonian (fun x => omega ^ 2 * x ^ 2 / 2) (f p) (fun x => e * f p x) /\ mat h p p = RtoC e) /\
    forall p q, p <> q -> mat h p q = RtoC 0 /\ mat s p q = RtoC 0.
Proof. exact line_functions. Qed.
Print Assumptions C76_oscillator_functions.

(** C77. *)
Definition C77_claim : Prop :=
  forall npm spin anti l L N omega a alpha beta b,
  odho npm spin anti l L N omega a alpha beta = (Ok tt, b) -> 0 < omega -> (0 < l)%nat ->
  exists d o, b_arr b F_dip = Some d /\ get d [0; 0; 0]%nat = RtoC o /\
    whole_line (fun x => ho_function omega x 0 * (x + beta * x ^ 2) * ho_function omega x 0) o.
Theorem C77_refuted : ~ C77_claim.
Proof. exact odho_lacks_beta. Qed.
Print Assumptions C77_refuted.
Theorem C77_beta_ignored :
  forall npm spin anti l L N omega a alpha beta b,
  odho npm spin anti l L N omega a alpha beta = (Ok tt, b) -> forall beta', odho npm spin anti l L N omega a alpha beta' = (Ok tt, b).
Proof. exact beta_ignored. Qed.
Print Assumptions C77_beta_ignored.
