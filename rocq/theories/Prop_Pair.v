(** C102, C103: the interaction of electrons in two-dimensional quantum dots. *)
From Coq Require Import List Arith ZArith Reals Lra Lia Bool.
From Coquelicot Require Import Coquelicot.
From Verif Require Import Scalar ScalarC Py Numpy BasisSet Spec BasisSpec GridSpec TwoDim Coulomb CoulombProofs Cache CacheExamples Orbitals MatrixProofs TwoDimBasis OrbitalSpec PlaneSpec PlaneProofs.
From Verif Require Import Systems SystemFacts SystemProofs Worlds GridExamples PairSpec PairProofs PairTheorems.
Import ListNotations.
Open Scope R_scope.

(** C102. coulomb_ho is the Coulomb integral of the orbitals, in units of the inverse
    length sqrt(mass*omega). *)
Theorem C102_coulomb_integral :
  forall mass omega, 0 < mass -> 0 < omega ->
  forall n0 m0 n1 m1 n2 m2 n3 m3 (P0 P1 P2 P3 : C -> C),
  on_plane (spf_state n0 m0 mass omega) P0 -> on_plane (spf_state n1 m1 mass omega) P1 ->
  on_plane (spf_state n2 m2 mass omega) P2 -> on_plane (spf_state n3 m3 mass omega) P3 ->
  interaction P0 P1 P2 P3 (RtoC (sqrt (mass * omega) * coulomb_ho n0 m0 n1 m1 n2 m2 n3 m3)).
Proof. exact orbital_interaction. Qed.
Print Assumptions C102_coulomb_integral.
(** The array u of any basis set as in C79 holds the Coulomb integrals of the orbitals it
    tabulates, divided by sqrt(mass): the integrals themselves for mass = 1. *)
Theorem C102_array :
  forall mass omega, 0 < mass -> 0 < omega ->
  forall l N L larmor V state (b : basis CC),
  plane_basis l N L mass larmor (sqrt omega) V state (fun p => orbital mass omega (state p)) b ->
  forall (u : arr CC) (Phi : nat -> C -> C), b_arr b F_u = Some u -> (forall p, (p < l)%nat -> on_plane (orbital mass omega (state p)) (Phi p)) ->
  forall p q r s, (p < l)%nat -> (q < l)%nat -> (r < l)%nat -> (s < l)%nat ->
  interaction (Phi p) (Phi q) (Phi r) (Phi s) (RtoC (sqrt mass) * ten u p q r s)%C.
Proof. exact basis_interaction. Qed.
Print Assumptions C102_array.
(** An integral has one value. *)
Theorem C102_unique : forall F u v, coulomb_integral F u -> coulomb_integral F v -> u = v.
Proof. exact coulomb_unique. Qed.
Print Assumptions C102_unique.
Example C102_instance :
  (forall n m, exists P, on_plane (spf_state n m 1 1) P) /\ coulomb_ho 0 0 0 0 0 0 0 0 = sqrt (PI / 2) /\
  exists b t, oscillator 0 false false 6 8 201 1 1 (Setting false 0 true) no_files = (Ok b, t) /\
    plane_basis 6 201 8 1 0 (sqrt 1) (fun x y => 1 * 1 ^ 2 * (x ^ 2 + y ^ 2) / 2) shell_state (fun p => orbital 1 1 (shell_state p)) b.
Proof.
  split; [intros n m; eexists; apply psi_on_plane|]. split; [apply ground_element|].
  destruct (plane_oscillator 0 false false 6 8 201 1 1 (Setting false 0 true) no_files ltac:(lra) ltac:(lra) ltac:(discriminate) ltac:(left; reflexivity)) as (b & t & E & _ & _ & B). eauto.
Qed.

(** C103. *)
Theorem C103_repulsive :
  forall mass omega l N L larmor V state (b : basis CC) (u : arr CC), 0 < mass -> 0 < omega ->
  plane_basis l N L mass larmor (sqrt omega) V state (fun p => orbital mass omega (state p)) b -> b_arr b F_u = Some u ->
  repulsive l (ten u).
Proof. exact plane_repulsive. Qed.
Print Assumptions C103_repulsive.
Theorem C103_energy :
  forall (w : world CC) s n l x (b : basis CC) (h : arr CC) mass omega N L larmor V state, 0 < mass -> 0 < omega ->
  plane_basis l N L mass larmor (sqrt omega) V state (fun p => orbital mass omega (state p)) b ->
  sys_at w s Spatial n l x b -> b_arr b F_h = Some h ->
  exists e, reference_energy s w = (Ok e, w) /\ nonneg (e - RtoC 2 * sumn (K := CC) n (fun i => mat h i i))%C.
Proof. exact plane_energy. Qed.
Print Assumptions C103_energy.
Theorem C103_general_energy :
  forall (w : world CC) s n l x (b : basis CC) (h ov : arr CC) (va vb : list CC) mass omega N L larmor V state, 0 < mass -> 0 < omega ->
  plane_basis l N L mass larmor (sqrt omega) V state (fun p => orbital mass omega (state p)) b ->
  sys_at w s Spatial n l x b -> b_arr b F_h = Some h ->
  b_cls b = Base -> b_spin b = false -> b_asym b = false -> b_arr b F_s = Some ov -> (b_arr b F_spf = None -> b_arr b F_bra = None) ->
  sy_op x = None -> orthonormal_pair va vb ->
  exists w' g e, construct_general s va vb true w = (Ok g, w') /\ reference_energy g w' = (Ok e, w') /\
    nonneg (e - RtoC 2 * sumn (K := CC) n (fun i => mat h i i))%C.
Proof. exact plane_general_energy. Qed.
Print Assumptions C103_general_energy.
Example C103_instance : exists b t, oscillator 0 false false 3 8 201 1 1 (Setting false 0 true) no_files = (Ok b, t) /\
  plane_basis 3 201 8 1 0 (sqrt 1) (fun x y => 1 * 1 ^ 2 * (x ^ 2 + y ^ 2) / 2) shell_state (fun p => orbital 1 1 (shell_state p)) b /\
  sys_at (line_w b) 0 Spatial 1 3 (System Spatial 0 (Some 0%nat) 1 3 2 (PySlice 0 1) (PySlice 1 3) None) b /\
  b_cls b = Base /\ b_spin b = false /\ b_asym b = false /\ b_arr b F_s <> None /\ b_arr b F_spf <> None.
Proof.
  destruct (oscillator_ok 0 false false 3 8 201 1 1 (Setting false 0 true) no_files ltac:(discriminate) ltac:(left; reflexivity)) as (b & t & E & _ & H).
  destruct (plane_oscillator 0 false false 3 8 201 1 1 (Setting false 0 true) no_files ltac:(lra) ltac:(lra) ltac:(discriminate) ltac:(left; reflexivity)) as (b' & t' & E' & _ & _ & B).
  rewrite E in E'. injection E' as <- <-. exists b, t. split; [exact E|]. split; [exact B|].
  split; [constructor; try reflexivity; [exists 0%nat; reflexivity | lia | exact (pb_ready _ _ _ _ _ _ _ _ _ _ B)]|].
  destruct (ho_s _ _ _ _ _ _ _ _ _ _ _ H) as (ov & Es & _). destruct (ho_spf _ _ _ _ _ _ _ _ _ _ _ H) as (sp & Ep & _).
  split; [apply H|]. split; [apply H|]. split; [apply H|]. split; [rewrite Es | rewrite Ep]; discriminate.
Qed.
