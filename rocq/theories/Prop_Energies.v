(** C127, C128: the energies of many-electron states. *)
From Coq Require Import List Arith ZArith Reals Lra Lia Bool.
From Coquelicot Require Import Coquelicot.
From Verif Require Import Scalar ScalarC Py Numpy BasisSet Spec BasisSpec OneDim OneDimSpec LineProofs SincDvr SincProofs GridSpec GridProofs GridExamples KineticSpec Systems SystemFacts.
From Verif Require Import TwoDim FieldProofs Coulomb Cache CacheExamples TwoDimBasis PlaneSpec PlaneProofs DotProofs FockSpec InnerSpec RaiseSpec RaiseFock RaiseTheorems.
Import ListNotations.
Open Scope R_scope.

(** C127.  The Hamiltonian of every system with Hermitian elements is self-adjoint on Fock
    space: eigenvalues are real and eigenstates of different energies orthogonal.  The
    reference energy is the energy of a normalised state with the right number of electrons. *)
Theorem C127_hermitian :
  forall (w : world CC) s k N l x (b : basis CC) (h u : arr CC), sys_at w s k N l x b -> b_arr b F_h = Some h -> b_arr b F_u = Some u ->
  hermitian l (mat h) -> hermitian2 l (ten u) -> (k = General -> antisym_ket l (ten u)) ->
  let n := spin_orbitals k l in let X := many_body k l (mat h) (ten u) in let D := reference_det k l N in
  (forall f g, proper f -> proper g -> inner n f (X g) = inner n (X f) g) /\
  (forall E f, eigenstate n X E f -> Im E = 0) /\
  (forall E E' f g, eigenstate n X E f -> eigenstate n X E' g -> E <> E' -> inner n g f = RtoC 0) /\
  exists E : C, reference_energy s w = (Ok E, w) /\ Im E = 0 /\ particle_state n (electrons k N) D /\ inner n D D = RtoC 1 /\ inner n D (X D) = E.
Proof. exact hermitian_system. Qed.
Print Assumptions C127_hermitian.
Example C127_instance :
  (exists b h u, odho 0 false false 3 10 401 1 1 1 0 = (Ok tt, b) /\
    sys_at (line_w b) 0 Spatial 1 3 (System Spatial 0 (Some 0%nat) 1 3 2 (PySlice 0 1) (PySlice 1 3) None) b /\
    b_arr b F_h = Some h /\ b_arr b F_u = Some u /\ hermitian 3 (mat h) /\ hermitian2 3 (ten u)) /\
  (forall h u, eigenstate (K := CC) 2 (many_body Spatial 1 h u) (RtoC 2 * h 0%nat 0%nat + u 0%nat 0%nat 0%nat 0%nat)%C (reference_det Spatial 1 1)) /\
  exists f g : FockSpec.state CC, proper f /\ proper g /\ inner 2 f g = Ci /\ inner 2 g f = (- Ci)%C.
Proof.
  split; [|split].
  - assert (E : odho 0 false false 3 10 401 1 1 1 0 = (Ok tt, line_basis 0 false false 3 10 401 1 1 1)) by (apply odho_ok; repeat constructor).
    destruct (line_h _ _ _ _ _ _ _ _ _ _ _ E) as (h & Eh & _ & Gh). destruct (line_two_body _ _ _ _ _ _ _ _ _ _ _ E) as (u & Eu & _ & _ & Hu).
    eexists. exists h, u. split; [exact E|]. split; [apply line_sys, E|]. split; [exact Eh|]. split; [exact Eu|]. split; [|exact Hu].
    intros p q _ _. rewrite !Gh. rewrite (Nat.eqb_sym q p). destruct (Nat.eqb_spec p q) as [->|N]; cbn; unfold Cconj, RtoC; cbn; f_equal; ring.
  - exact pair_state.
  - exists (fun _ => RtoC (1 / 4)), (fun _ => Ci). split; [intros ? ? _; reflexivity|]. split; [intros ? ? _; reflexivity|]. split; cbn; unfold Ci, RtoC, Cconj, Cplus, Cmult, Copp; cbn; f_equal; field.
Qed.

(** C128.  The interaction of two electrons is repulsive in every two-electron state. *)
Theorem C128_dot :
  forall npm spin anti l L N a alpha beta V eigh b,
  odqd npm spin anti l L N a alpha beta V eigh = (Ok tt, b) -> 0 <= alpha -> a <> 0 ->
  exists u, b_arr b F_u = Some u /\ shape u = [l; l; l; l] /\ raising l (ten u).
Proof. exact dot_raising. Qed.
Print Assumptions C128_dot.
Theorem C128_line :
  forall npm spin anti l L N omega a alpha beta b,
  odho npm spin anti l L N omega a alpha beta = (Ok tt, b) -> 0 <= alpha -> a <> 0 ->
  exists u, b_arr b F_u = Some u /\ shape u = [l; l; l; l] /\ raising l (ten u).
Proof. exact line_raising. Qed.
Print Assumptions C128_line.
Theorem C128_dvr :
  forall npm spin anti l L a alpha beta V b,
  odsincdvr npm spin anti l L a alpha beta V U4d = (Ok tt, b) -> 0 <= alpha -> a <> 0 ->
  exists u, b_arr b F_u = Some u /\ shape u = [l; l; l; l] /\ raising l (ten u).
Proof. exact dvr_raising. Qed.
Print Assumptions C128_dvr.
Theorem C128_oscillator :
  forall npm spin anti l L N omega mass e (files : fs) b files',
  (forall d n f, files d n = Some f -> f = image n) -> oscillator npm spin anti l L N omega mass e files = (Ok b, files') ->
  exists u, b_arr b F_u = Some u /\ shape u = [l; l; l; l] /\ raising l (ten u).
Proof. exact oscillator_raising. Qed.
Print Assumptions C128_oscillator.
Theorem C128_double_well :
  forall npm spin anti l L N omega mass e barrier axis (files : fs) b files',
  (forall d n f, files d n = Some f -> f = image n) -> double_well npm spin anti l L N omega mass e barrier axis files = (Ok b, files') ->
  exists u, b_arr b F_u = Some u /\ shape u = [l; l; l; l] /\ raising l (ten u).
Proof. exact double_well_raising. Qed.
Print Assumptions C128_double_well.
Theorem C128_field :
  forall npm spin anti l L N omega_0 mass omega_c b, field_oscillator npm spin anti l L N omega_0 mass omega_c = (Ok tt, b) ->
  exists u, b_arr b F_u = Some u /\ shape u = [l; l; l; l] /\ raising l (ten u).
Proof. exact field_raising. Qed.
Print Assumptions C128_field.
(** It stays so in any other basis. *)
Theorem C128_change_basis :
  forall (b : basis CC) l k (c u : arr CC), ready b l -> shape c = [l; k] -> b_arr b F_u = Some u -> raising l (ten u) ->
  exists b' u', change_basis c None b = (Ok tt, b') /\ b_arr b' F_u = Some u' /\ shape u' = [k; k; k; k] /\ raising k (ten u').
Proof. exact change_raising. Qed.
Print Assumptions C128_change_basis.
(** So the interaction adds to the energy of every many-electron state ... *)
Theorem C128_raise :
  forall l h u (f : FockSpec.state CC), raising l u -> proper f ->
  nonneg (inner (2 * l) f (many_body Spatial l h u f) - inner (2 * l) f (one_body (K := CC) (2 * l) (dbl1 (K := CC) h) f))%C.
Proof. exact spatial_raise. Qed.
Print Assumptions C128_raise.
(** ... which is never below the energy of n doubly occupied lowest orbitals, *)
Theorem C128_dot_bound :
  forall npm spin anti l L N a alpha beta V eigh b,
  odqd npm spin anti l L N a alpha beta V eigh = (Ok tt, b) -> 0 <= alpha -> a <> 0 ->
  eigenbasis (N - 2) (grid_hamiltonian L N V) (fst (eigh (N - 2)%nat (grid_hamiltonian L N V))) (snd (eigh (N - 2)%nat (grid_hamiltonian L N V))) ->
  exists h u, b_arr b F_h = Some h /\ b_arr b F_u = Some u /\
  forall n, (n <= l)%nat -> energies_above (2 * l) (many_body Spatial l (mat h) (ten u)) (2 * n) (2 * rsum n (fun p => Re (mat h p p))).
Proof. exact dot_bound. Qed.
Print Assumptions C128_dot_bound.
Theorem C128_line_bound :
  forall npm spin anti l L N omega a alpha beta b,
  odho npm spin anti l L N omega a alpha beta = (Ok tt, b) -> 0 <= alpha -> a <> 0 -> 0 <= omega ->
  exists h u, b_arr b F_h = Some h /\ b_arr b F_u = Some u /\
  forall n, (n <= l)%nat -> energies_above (2 * l) (many_body Spatial l (mat h) (ten u)) (2 * n) (omega * INR n ^ 2).
Proof. exact line_bound. Qed.
Print Assumptions C128_line_bound.
Theorem C128_oscillator_bound :
  forall npm spin anti l L N omega mass e (files : fs) b files',
  (forall d n f, files d n = Some f -> f = image n) -> oscillator npm spin anti l L N omega mass e files = (Ok b, files') -> 0 < omega ->
  exists h u, b_arr b F_h = Some h /\ b_arr b F_u = Some u /\
  forall n, (n <= l)%nat -> energies_above (2 * l) (many_body Spatial l (mat h) (ten u)) (2 * n) (2 * rsum n (fun p => Re (mat h p p))).
Proof. exact oscillator_bound. Qed.
Print Assumptions C128_oscillator_bound.
Theorem C128_field_bound :
  forall npm spin anti l L N omega_0 mass omega_c b, omega_0 <> 0 -> field_oscillator npm spin anti l L N omega_0 mass omega_c = (Ok tt, b) ->
  exists h u, b_arr b F_h = Some h /\ b_arr b F_u = Some u /\
  forall n, (n <= l)%nat -> energies_above (2 * l) (many_body Spatial l (mat h) (ten u)) (2 * n) (2 * rsum n (fun p => Re (mat h p p))).
Proof. exact field_bound. Qed.
Print Assumptions C128_field_bound.
(** ... and for sinc functions never below the least value of the potential per electron, *)
Theorem C128_dvr_bound :
  forall npm spin anti l L a alpha beta V b m,
  odsincdvr npm spin anti l L a alpha beta V U4d = (Ok tt, b) -> 0 <= alpha -> a <> 0 -> 0 < L -> (forall i, (i < l)%nat -> m <= V (OneDimSpec.point L l i)) ->
  exists h u, b_arr b F_h = Some h /\ b_arr b F_u = Some u /\
  forall n, energies_above (2 * l) (many_body Spatial l (mat h) (ten u)) (2 * n) (INR (2 * n) * m).
Proof. exact dvr_bound. Qed.
Print Assumptions C128_dvr_bound.
(** a bound that a change to other orthonormal orbitals keeps. *)
Theorem C128_least :
  forall l h u N m, raising l u -> at_least l h m -> energies_above (2 * l) (many_body Spatial l h u) (2 * N) (INR (2 * N) * m).
Proof. exact spatial_least. Qed.
Print Assumptions C128_least.
Theorem C128_change_least :
  forall (b : basis CC) l k (c h : arr CC) m, ready b l -> shape c = [l; k] ->
  (forall p q, (p < k)%nat -> (q < k)%nat -> sumn (K := CC) l (fun a => (Cconj (mat c a p) * mat c a q)%C) = if (p =? q)%nat then RtoC 1 else RtoC 0) ->
  b_arr b F_h = Some h -> at_least l (mat h) m ->
  exists b' h', change_basis c None b = (Ok tt, b') /\ b_arr b' F_h = Some h' /\ shape h' = [k; k] /\ at_least k (mat h') m.
Proof. exact change_least. Qed.
Print Assumptions C128_change_least.
(** Such a bound holds for every eigenvalue with as many electrons and for the reference energy, *)
Theorem C128_system :
  forall (w : world CC) s N l x (b : basis CC) (h u : arr CC) E0, sys_at w s Spatial N l x b -> b_arr b F_h = Some h -> b_arr b F_u = Some u ->
  energies_above (2 * l) (many_body Spatial l (mat h) (ten u)) (2 * N) E0 ->
  (forall E f, particle_state (2 * l) (2 * N) f -> eigenstate (2 * l) (many_body Spatial l (mat h) (ten u)) E f -> Im E = 0 /\ E0 <= Re E) /\
  exists E : C, reference_energy s w = (Ok E, w) /\ Im E = 0 /\ E0 <= Re E.
Proof. exact raised_system. Qed.
Print Assumptions C128_system.
(** and in the general system made from it. *)
Theorem C128_general :
  forall (w : world CC) s (va vb : list CC) N l x (b : basis CC) (ov h u : arr CC) E0, sys_at w s Spatial N l x b ->
  b_cls b = Base -> orthonormal_pair va vb -> b_spin b = false -> b_asym b = false -> b_arr b F_s = Some ov ->
  (b_arr b F_spf = None -> b_arr b F_bra = None) -> sy_op x = None -> b_arr b F_h = Some h -> b_arr b F_u = Some u ->
  energies_above (2 * l) (many_body Spatial l (mat h) (ten u)) (2 * N) E0 ->
  exists w' g (h' u' : arr CC), construct_general s va vb true w = (Ok g, w') /\ sys_get g F_h w' = (Ok (Some h'), w') /\ sys_get g F_u w' = (Ok (Some u'), w') /\
    energies_above (2 * l) (many_body General (2 * l) (mat h') (ten u')) (2 * N) E0.
Proof. exact raised_general. Qed.
Print Assumptions C128_general.
Example C128_instance :
  (exists b, odho 0 false false 3 10 401 1 1 1 0 = (Ok tt, b) /\
    sys_at (line_w b) 0 Spatial 1 3 (System Spatial 0 (Some 0%nat) 1 3 2 (PySlice 0 1) (PySlice 1 3) None) b /\
    b_cls b = Base /\ b_spin b = false /\ b_asym b = false /\ b_arr b F_s <> None /\ b_arr b F_spf <> None) /\
  (exists b, odqd 0 false false 1 1 3 1 1 0 (fun _ => 0) eigh1 = (Ok tt, b)) /\
  eigenbasis (3 - 2) (grid_hamiltonian 1 3 (fun _ => 0)) (fst (eigh1 (3 - 2) (grid_hamiltonian 1 3 (fun _ => 0)))) (snd (eigh1 (3 - 2) (grid_hamiltonian 1 3 (fun _ => 0)))) /\
  (exists b, odsincdvr 0 false false 11 10 1 1 0 (fun x => x ^ 2 / 2) U4d = (Ok tt, b)) /\
  (exists b t, oscillator 0 false false 6 8 201 1 1 (Setting false 0 true) no_files = (Ok b, t)) /\
  (exists b, field_oscillator 0 false false 6 8 201 1 1 (1 / 2) = (Ok tt, b)) /\
  orthonormal_pair (default_a CC) (default_b CC) /\
  particle_state (2 * 3) (2 * 1) (reference_det Spatial 3 1) /\
  ~ raising 1 (fun _ _ _ _ => RtoC (-1)) /\ ~ energies_above 2 (many_body Spatial 1 (fun _ _ => RtoC 1) (fun _ _ _ _ => RtoC (-1))) 2 2.
Proof.
  split; [|split; [|split; [|split; [|split; [|split; [|split; [|split; [|split]]]]]]]].
  - assert (E : odho 0 false false 3 10 401 1 1 1 0 = (Ok tt, line_basis 0 false false 3 10 401 1 1 1)) by (apply odho_ok; repeat constructor).
    eexists. split; [exact E|]. split; [apply line_sys, E|]. repeat split; discriminate.
  - eexists; apply dot_ok; lia.
  - apply eigh1_right.
  - destruct (dvr_ok 0 false false 11 10 1 1 0 (fun x => x ^ 2 / 2) U4d) as (b & E & _); [discriminate | lia |]. eauto.
  - destruct (plane_oscillator 0 false false 6 8 201 1 1 (Setting false 0 true) no_files ltac:(lra) ltac:(lra) ltac:(discriminate) ltac:(left; reflexivity)) as (b & t & E & _). eauto.
  - destruct (field_succeeds 6 1 (1 / 2)) as [rows F]; [lia | lra | |].
    + assert (1 <= sqrt (1 ^ 2 + (1 / 2) ^ 2 / 4)) by (rewrite <- sqrt_1 at 1; apply sqrt_le_1; lra). cbn [INR]. lra.
    + destruct (plane_field 0 false false 6 8 201 1 1 (1 / 2) rows ltac:(lra) ltac:(lra) F) as (b & E & _). eauto.
  - unfold orthonormal_pair, ip2, default_a, default_b. cbn. unfold Cplus, Cmult, Cconj, RtoC. cbn. repeat split; f_equal; ring.
  - apply (reference_state CC (2 * 3) (2 * 1) (fun f => f)); [lia | auto].
  - intros H. destruct (H (fun _ _ => RtoC 1)) as [_ H0]. cbn in H0. lra.
  - intros H. destruct (above_eigen _ _ _ _ _ _ H (proj1 (reference_state CC 2 2 (fun f => f) ltac:(lia) ltac:(auto))) (pair_state _ _)) as [_ B]. cbn in B. lra.
Qed.
