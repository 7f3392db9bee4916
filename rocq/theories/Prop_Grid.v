(** C81-C87: densities, energies, interaction and accuracy on the grid. *)
From Coq Require Import List Arith ZArith Reals Lra Lia Bool.
From Coquelicot Require Import Coquelicot.
From Verif Require Import Scalar ScalarC Py Numpy BasisSet Spec BasisSpec Examples OneDim OneDimSpec DotProofs LineProofs DensitySpec.
From Verif Require Import Systems SystemFacts SystemProofs Worlds OperatorSpec OperatorProofs OperatorExamples SystemExamples.
From Verif Require Import GridSpec GridProofs QuadProofs SpectrumProofs RepulsionProofs GridExamples.
Import ListNotations.
Open Scope R_scope.

(** C81. *)
Theorem C81_particle_number :
  forall npm spin anti l L N a alpha beta V eigh b,
  odqd npm spin anti l L N a alpha beta V eigh = (Ok tt, b) -> 0 < L ->
  eigenbasis (N - 2) (grid_hamiltonian L N V) (fst (eigh (N - 2)%nat (grid_hamiltonian L N V))) (snd (eigh (N - 2)%nat (grid_hamiltonian L N V))) ->
  forall rho : arr CC, shape rho = [l; l] ->
  exists d b', compute_particle_density rho None None b = (Ok d, b') /\ same_values b' b /\ shape d = [N] /\
    trapezoid N (fun i => get d [i]) (point L N) = sumn (K := CC) l (fun p => mat rho p p).
Proof. exact dot_particles. Qed.
Print Assumptions C81_particle_number.
Example C81_instance : (exists b, odqd 0 false false 1 1 3 1 1 0 (fun _ => 0) eigh1 = (Ok tt, b)) /\
  eigenbasis (3 - 2) (grid_hamiltonian 1 3 (fun _ => 0)) (fst (eigh1 (3 - 2) (grid_hamiltonian 1 3 (fun _ => 0)))) (snd (eigh1 (3 - 2) (grid_hamiltonian 1 3 (fun _ => 0)))).
Proof. split; [eexists; apply dot_ok; lia | apply eigh1_right]. Qed.

(** C82. *)
Theorem C82_energy_bounds :
  forall npm spin anti l L N a alpha beta V eigh b,
  odqd npm spin anti l L N a alpha beta V eigh = (Ok tt, b) -> 0 < L ->
  eigenbasis (N - 2) (grid_hamiltonian L N V) (fst (eigh (N - 2)%nat (grid_hamiltonian L N V))) (snd (eigh (N - 2)%nat (grid_hamiltonian L N V))) ->
  forall m M, (forall i, (0 < i < N - 1)%nat -> m <= V (point L N i) <= M) ->
  exists h, b_arr b F_h = Some h /\
    forall p, (p < l)%nat -> Im (mat h p p) = 0 /\ m <= Re (mat h p p) <= M + 2 / spacing L N ^ 2.
Proof. exact dot_energy_bounds. Qed.
Print Assumptions C82_energy_bounds.
Example C82_instance : (exists b, odqd 0 false false 2 (3 / 2) 4 1 1 0 small_well eigh2 = (Ok tt, b)) /\
  eigenbasis (4 - 2) (grid_hamiltonian (3 / 2) 4 small_well) (fst (eigh2 2 (grid_hamiltonian (3 / 2) 4 small_well))) (snd (eigh2 2 (grid_hamiltonian (3 / 2) 4 small_well))) /\
  forall i, (0 < i < 4 - 1)%nat -> 1 / 8 <= small_well (point (3 / 2) 4 i) <= 1 / 8.
Proof.
  split; [eexists; apply dot_ok; repeat constructor|]. split; [exact eigh2_right|].
  intros i Hi. destruct i as [|[|[|i]]]; try lia; unfold small_well, point; cbn; lra.
Qed.

(** C83. *)
Theorem C83_dot :
  forall npm spin anti l L N a alpha beta V eigh b,
  odqd npm spin anti l L N a alpha beta V eigh = (Ok tt, b) -> 0 <= L -> 0 <= alpha -> a <> 0 ->
  exists u, b_arr b F_u = Some u /\ shape u = [l; l; l; l] /\ repulsive l (ten u).
Proof. exact dot_repulsive. Qed.
Print Assumptions C83_dot.
Theorem C83_oscillator :
  forall npm spin anti l L N omega a alpha beta b,
  odho npm spin anti l L N omega a alpha beta = (Ok tt, b) -> 0 <= L -> 0 <= alpha -> a <> 0 ->
  exists u, b_arr b F_u = Some u /\ shape u = [l; l; l; l] /\ repulsive l (ten u).
Proof. exact line_repulsive. Qed.
Print Assumptions C83_oscillator.
(** The reference energy of a system on any basis with such elements is at least the sum of
    its one-body energies ... *)
Theorem C83_energy :
  forall (w : world CC) s n l x (b : basis CC) (h u : arr CC), sys_at w s Spatial n l x b ->
  b_arr b F_h = Some h -> b_arr b F_u = Some u -> repulsive l (ten u) ->
  exists e, reference_energy s w = (Ok e, w) /\ nonneg (e - RtoC 2 * sumn (K := CC) n (fun i => mat h i i))%C.
Proof. exact spatial_energy. Qed.
Print Assumptions C83_energy.
(** ... and that of the spin-doubled system made from it. *)
Theorem C83_general_energy :
  forall (w : world CC) s n l x (b : basis CC) (h u ov : arr CC) (va vb : list CC), sys_at w s Spatial n l x b ->
  b_arr b F_h = Some h -> b_arr b F_u = Some u -> repulsive l (ten u) ->
  b_cls b = Base -> b_spin b = false -> b_asym b = false -> b_arr b F_s = Some ov -> (b_arr b F_spf = None -> b_arr b F_bra = None) ->
  sy_op x = None -> orthonormal_pair va vb ->
  exists w' g e, construct_general s va vb true w = (Ok g, w') /\ reference_energy g w' = (Ok e, w') /\
    nonneg (e - RtoC 2 * sumn (K := CC) n (fun i => mat h i i))%C.
Proof. exact general_energy. Qed.
Print Assumptions C83_general_energy.
Example C83_instance : exists b, odho 0 false false 3 10 401 1 1 1 0 = (Ok tt, b) /\
  sys_at (line_w b) 0 Spatial 1 3 (System Spatial 0 (Some 0%nat) 1 3 2 (PySlice 0 1) (PySlice 1 3) None) b /\
  b_cls b = Base /\ b_spin b = false /\ b_asym b = false /\ b_arr b F_s <> None /\ b_arr b F_spf <> None.
Proof.
  assert (E : odho 0 false false 3 10 401 1 1 1 0 = (Ok tt, line_basis 0 false false 3 10 401 1 1 1)) by (apply odho_ok; repeat constructor).
  eexists. split; [exact E|]. split; [apply line_sys, E|]. repeat split; discriminate.
Qed.

(** C84. [reads] are operations that only read. *)
Theorem C84_laser :
  forall (K : scalar) (w : world K) s o x b l (h u : arr K) y,
  nth_error (w_sy w) s = Some x -> sy_np x <> None -> nth_error (w_bs w) (sy_bs x) = Some b ->
  b_arr b F_h = Some h -> b_arr b F_u = Some u -> shape h = [l; l] -> shape u = [l; l; l; l] ->
  hermitian l (mat h) -> hermitian2 l (ten u) ->
  forall dim (d : arr K) pulse pol E eps, b_arr b F_dip = Some d -> shape d = [dim; l; l] -> (0 < dim)%nat ->
  nth_error (w_op w) o = Some (Tevo (laser_field pulse pol) y) -> number_of [] pulse E -> polarization_of [] pol dim eps ->
  (callable pulse = true \/ exists v, pol = Some v /\ callable v = true) ->
  (forall i, (i < dim)%nat -> hermitian l (fun p q => get d [i; p; q])) ->
  exists w1, set_time_evolution_operator s (Some o) w = (Ok tt, w1) /\
    forall t, sconj (E t) = E t -> (forall i, (i < dim)%nat -> sconj (eps t i) = eps t i) ->
    forall ops, List.Forall reads ops -> exists ht w2 ut,
      sys_h_t s t (wrun_any ops w1) = (Ok (Some ht), w2) /\ shape ht = [l; l] /\ hermitian l (mat ht) /\
      sys_u_t s t (wrun_any ops w1) = (Ok (Some ut), wrun_any ops w1) /\ shape ut = [l; l; l; l] /\ hermitian2 l (ten ut).
Proof. exact laser_hermitian. Qed.
Print Assumptions C84_laser.
Theorem C84_switching :
  forall (K : scalar) (w : world K) s o x b l (h u : arr K) y,
  nth_error (w_sy w) s = Some x -> sy_np x <> None -> nth_error (w_bs w) (sy_bs x) = Some b ->
  b_arr b F_h = Some h -> b_arr b F_u = Some u -> shape h = [l; l] -> shape u = [l; l; l; l] ->
  hermitian l (mat h) -> hermitian2 l (ten u) ->
  forall f E, nth_error (w_op w) o = Some (Tevo (adiabatic_switching f) y) -> number_of [] f E ->
  exists w1, set_time_evolution_operator s (Some o) w = (Ok tt, w1) /\
    forall t, sconj (E t) = E t -> forall ops, List.Forall reads ops -> exists ht w2 ut,
      sys_h_t s t (wrun_any ops w1) = (Ok (Some ht), w2) /\ shape ht = [l; l] /\ hermitian l (mat ht) /\
      sys_u_t s t (wrun_any ops w1) = (Ok (Some ut), wrun_any ops w1) /\ shape ut = [l; l; l; l] /\ hermitian2 l (ten ut).
Proof. exact switching_hermitian. Qed.
Print Assumptions C84_switching.
Theorem C84_custom :
  forall (K : scalar) (w : world K) s o x b l (h u : arr K) y,
  nth_error (w_sy w) s = Some x -> sy_np x <> None -> nth_error (w_bs w) (sy_bs x) = Some b ->
  b_arr b F_h = Some h -> b_arr b F_u = Some u -> shape h = [l; l] -> shape u = [l; l; l; l] ->
  hermitian l (mat h) -> hermitian2 l (ten u) ->
  forall wt (A : arr K) E, shape A = [l; l] -> nth_error (w_op w) o = Some (Tevo (custom_one_body wt A) y) -> number_of [] wt E ->
  hermitian l (mat A) ->
  exists w1, set_time_evolution_operator s (Some o) w = (Ok tt, w1) /\
    forall t, sconj (E t) = E t -> forall ops, List.Forall reads ops -> exists ht w2 ut,
      sys_h_t s t (wrun_any ops w1) = (Ok (Some ht), w2) /\ shape ht = [l; l] /\ hermitian l (mat ht) /\
      sys_u_t s t (wrun_any ops w1) = (Ok (Some ut), wrun_any ops w1) /\ shape ut = [l; l; l; l] /\ hermitian2 l (ten ut).
Proof. exact custom_hermitian. Qed.
Print Assumptions C84_custom.
Example C84_instance : nth_error (w_sy callable_w) 0 = Some (lone 0 None) /\ nth_error (w_bs callable_w) 0 = Some ex_basis /\
  nth_error (w_op callable_w) 0 = Some (Tevo (laser_field ex_pulse None) None) /\
  number_of [] ex_pulse (fun t => smul (qz 2 0) t) /\ polarization_of (K:=QI) [] None 1 (fun _ i => delta i 0) /\
  hermitian 2 (mat ex_h) /\ hermitian2 2 (ten ex_u) /\ sconj (smul (qz 2 0) (qz 3 0) : QI) = smul (qz 2 0) (qz 3 0) /\ (sconj (delta 0 0) : QI) = delta 0 0.
Proof.
  do 3 (split; [reflexivity|]). split; [exact ex_pulse_number|]. split; [intros t i _; reflexivity|].
  split; [exact ex_h_hermitian|]. split; [exact ex_u_hermitian|]. split; qi.
Qed.

(** C85. *)
Theorem C85_trapezoid_error :
  forall (L : R) (N : nat) (f f' f'' : R -> R) (M : R), 0 < L -> (2 <= N)%nat ->
  (forall y, - L <= y <= L -> is_derive f y (f' y)) -> (forall y, - L <= y <= L -> is_derive f' y (f'' y)) ->
  (forall y, - L <= y <= L -> continuous f'' y) -> (forall y, - L <= y <= L -> Rabs (f'' y) <= M) ->
  exists v I, trapz N (fun i => RtoC (f (linspace L N i))) (linspace L N) = RtoC v /\ is_RInt f (- L) L I /\
    Rabs (v - I) <= M * (2 * L) * spacing L N ^ 2 / 12.
Proof. exact trapz_error. Qed.
Print Assumptions C85_trapezoid_error.
Theorem C85_converges :
  forall (L : R) (f f' f'' : R -> R), 0 < L ->
  (forall y, - L <= y <= L -> is_derive f y (f' y)) -> (forall y, - L <= y <= L -> is_derive f' y (f'' y)) ->
  (forall y, - L <= y <= L -> continuous f'' y) ->
  exists I, is_RInt f (- L) L I /\ is_lim_seq (fun N => Re (trapz N (fun i => RtoC (f (linspace L N i))) (linspace L N))) I.
Proof. exact trapz_limit. Qed.
Print Assumptions C85_converges.
Example C85_instance : (forall y, is_derive box y (box1 y)) /\ (forall y, is_derive box1 y (box2 y)) /\ (forall y, continuous box2 y).
Proof. destruct box_right as (A & B & _ & _ & _ & _ & _ & _ & C & _). auto. Qed.

(** C86. With all eigenvectors kept (l = num_grid_points - 2): near every exact level E of
    the box [-L, L] with potential V there is a stored one. *)
Theorem C86_levels :
  forall npm spin anti l L N a alpha beta V eigh b,
  odqd npm spin anti l L N a alpha beta V eigh = (Ok tt, b) -> 0 < L ->
  eigenbasis (N - 2) (grid_hamiltonian L N V) (fst (eigh (N - 2)%nat (grid_hamiltonian L N V))) (snd (eigh (N - 2)%nat (grid_hamiltonian L N V))) ->
  forall (f f1 f2 f3 f4 : R -> R) (E M : R), l = (N - 2)%nat ->
  (forall y, - L <= y <= L -> is_derive f y (f1 y)) -> (forall y, - L <= y <= L -> is_derive f1 y (f2 y)) ->
  (forall y, - L <= y <= L -> is_derive f2 y (f3 y)) -> (forall y, - L <= y <= L -> is_derive f3 y (f4 y)) ->
  (forall y, - L <= y <= L -> Rabs (f4 y) <= M) ->
  f (- L) = 0 -> f L = 0 -> (forall y, - L < y < L -> - f2 y / 2 + V y * f y = E * f y) ->
  exists h, b_arr b F_h = Some h /\ exists p, (p < l)%nat /\
    (Re (mat h p p) - E) ^ 2 * rsum N (fun i => f (point L N i) ^ 2) <= INR (N - 2) * (M * spacing L N ^ 2 / 24) ^ 2.
Proof. exact dot_accuracy. Qed.
Print Assumptions C86_levels.
Example C86_instance : (exists b, odqd 0 false false 1 1 3 1 1 0 (fun _ => 0) eigh1 = (Ok tt, b)) /\
  eigenbasis (3 - 2) (grid_hamiltonian 1 3 (fun _ => 0)) (fst (eigh1 (3 - 2) (grid_hamiltonian 1 3 (fun _ => 0)))) (snd (eigh1 (3 - 2) (grid_hamiltonian 1 3 (fun _ => 0)))) /\
  (forall y, is_derive box y (box1 y)) /\ (forall y, is_derive box1 y (box2 y)) /\ (forall y, is_derive box2 y (box3 y)) /\ (forall y, is_derive box3 y (box4 y)) /\
  (forall y, Rabs (box4 y) <= (PI / 2) ^ 4) /\ box (-1) = 0 /\ box 1 = 0 /\ (forall y, - box2 y / 2 + 0 * box y = PI ^ 2 / 8 * box y) /\ 0 < rsum 3 (fun i => box (point 1 3 i) ^ 2).
Proof.
  split; [eexists; apply dot_ok; lia|]. split; [apply eigh1_right|]. destruct box_right as (A & B & D & E & F & G & H & I & _ & J). auto 12.
Qed.

(** C87. For any m orthonormal real functions on the grid that vanish at its ends. *)
Theorem C87_minimum :
  forall npm spin anti l L N a alpha beta V eigh b,
  odqd npm spin anti l L N a alpha beta V eigh = (Ok tt, b) -> 0 < L ->
  eigenbasis (N - 2) (grid_hamiltonian L N V) (fst (eigh (N - 2)%nat (grid_hamiltonian L N V))) (snd (eigh (N - 2)%nat (grid_hamiltonian L N V))) ->
  forall m (F : nat -> nat -> R), (m <= l)%nat ->
  (forall k, (k < m)%nat -> F k 0%nat = 0 /\ F k (N - 1)%nat = 0) ->
  (forall k k', (k < m)%nat -> (k' < m)%nat -> trapezoid N (fun i => (RtoC (F k i) * RtoC (F k' i))%C) (point L N) = kronecker k k') ->
  exists h, b_arr b F_h = Some h /\ rsum m (fun p => Re (mat h p p)) <=
    rsum m (fun k => Re (trapezoid N (fun i => (RtoC (F k i) * difference_hamiltonian (spacing L N) V (point L N) (fun i => RtoC (F k i)) i)%C) (point L N))).
Proof. exact dot_minimum. Qed.
Print Assumptions C87_minimum.
Example C87_instance : (exists b, odqd 0 false false 1 1 3 1 1 0 (fun _ => 0) eigh1 = (Ok tt, b)) /\
  (forall k, (k < 1)%nat -> spike k 0 = 0 /\ spike k (3 - 1) = 0) /\
  forall k k', (k < 1)%nat -> (k' < 1)%nat -> trapezoid 3 (fun i => (RtoC (spike k i) * RtoC (spike k' i))%C) (point 1 3) = kronecker k k'.
Proof. split; [eexists; apply dot_ok; lia | exact spike_right]. Qed.
