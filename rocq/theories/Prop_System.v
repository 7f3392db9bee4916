(** Properties of systems: C20-C29, C70. *)
From Coq Require Import List Arith ZArith Lia Bool.
From Verif Require Import Scalar Py Numpy Spec BasisSet BasisSpec Examples SpinFacts Histories EnergySpec EnergyFacts
  Systems SystemFacts SystemProofs Worlds WorldProofs SystemExamples.
Import ListNotations.

(** C20: for every spatial system of 2N electrons without a time-evolution
    operator, on a basis set of the base class whose overlap is set and whose u
    is not anti-symmetrized, construct_general_orbital_system succeeds for
    every orthonormal spin pair and all three energies are equal. *)
Theorem C20_reference_energies_agree :
  forall (K : scalar) (s : nat) (va vb : list K) (w : world K) (N l : nat) (x : system) (b : basis K) (ov : arr K),
  sys_at w s Spatial N l x b ->
  b_cls b = Base -> orthonormal_pair va vb -> b_spin b = false -> b_asym b = false -> b_arr b F_s = Some ov ->
  (b_arr b F_spf = None -> b_arr b F_bra = None) -> sy_op x = None ->
  exists w' g e, construct_general s va vb true w = (Ok g, w') /\
    reference_energy s w = (Ok e, w) /\ reference_energy s w' = (Ok e, w') /\ reference_energy g w' = (Ok e, w').
Proof. exact reference_energies_agree. Qed.
Print Assumptions C20_reference_energies_agree.
(** With anti_symmetrize_u=False the two energies differ by the exchange sum. *)
Theorem C20_without_antisymmetrization :
  forall (K : scalar) (s : nat) (va vb : list K) (w : world K) (N l : nat) (x : system) (b : basis K) (ov u : arr K),
  sys_at w s Spatial N l x b ->
  b_cls b = Base -> orthonormal_pair va vb -> b_spin b = false -> b_arr b F_s = Some ov ->
  (b_arr b F_spf = None -> b_arr b F_bra = None) -> sy_op x = None -> b_arr b F_u = Some u ->
  exists w' g e, construct_general s va vb false w = (Ok g, w') /\ reference_energy s w = (Ok e, w) /\
    reference_energy g w' = (Ok (sadd e (sumn N (fun i => sumn N (fun j => ten u i j j i)))), w').
Proof. exact reference_energy_plain. Qed.
Print Assumptions C20_without_antisymmetrization.
Example C20_instance : sys_at ex_w 0 Spatial 1 2 ex_sys ex_basis /\ orthonormal_pair ex_va ex_vb /\
  b_arr ex_basis F_s = Some ex_s /\ reference_energy 0 ex_w = (Ok (qz 3 0), ex_w).
Proof.
  split; [exact ex_sys_at|]. split; [exact ex_pair|]. split; [reflexivity|].
  rewrite (reference_energy_ok QI ex_w 0 Spatial 1 2 ex_sys ex_basis ex_h ex_u ex_sys_at eq_refl eq_refl eq_refl eq_refl).
  f_equal.
Qed.

(** C21: the Fock matrix of the constructed system is kron(F, 1_2). *)
Theorem C21_fock_matrices_agree :
  forall (K : scalar) (s : nat) (va vb : list K) (w : world K) (N l : nat) (x : system) (b : basis K) (ov h u : arr K) (f : buffer K),
  sys_at w s Spatial N l x b ->
  b_cls b = Base -> orthonormal_pair va vb -> b_spin b = false -> b_asym b = false -> b_arr b F_s = Some ov ->
  (b_arr b F_spf = None -> b_arr b F_bra = None) -> sy_op x = None ->
  b_arr b F_h = Some h -> b_arr b F_u = Some u -> buffer_ok f h u ->
  exists w' g F bg h' u' G, construct_general s va vb true w = (Ok g, w') /\
    fock_matrix s h u f w = (Ok F, w) /\
    sys_get g F_h w' = (Ok (Some h'), w') /\ sys_get g F_u w' = (Ok (Some u'), w') /\
    nth_error (w_bs w') (length (w_bs w)) = Some bg /\
    fock_matrix g h' u' NoBuffer w' = (Ok G, w') /\ shape G = [2 * l; 2 * l] /\
    forall P Q, P < 2 * l -> Q < 2 * l -> mat G P Q = dbl1 (mat F) P Q.
Proof. exact fock_matrices_agree. Qed.
Print Assumptions C21_fock_matrices_agree.
Example C21_instance : sys_at ex_w 0 Spatial 1 2 ex_sys ex_basis /\ buffer_ok NoBuffer ex_h ex_u /\
  buffer_ok (Buffer ex_buf) ex_h ex_u.
Proof. split; [exact ex_sys_at|]. repeat split. Qed.

(** C22 *)
Theorem C22_energy_from_fock :
  forall (K : scalar) (s : nat) (w : world K) (k : kind) (N l : nat) (x : system) (b : basis K) (h u : arr K) (f : buffer K),
  sys_at w s k N l x b -> b_arr b F_h = Some h -> b_arr b F_u = Some u -> buffer_ok f h u ->
  exists e F, reference_energy s w = (Ok e, w) /\ fock_matrix s h u f w = (Ok F, w) /\
    e = match k with
        | General => smul shalf (sumn N (fun i => sadd (mat h i i) (mat F i i)))
        | Spatial => sumn N (fun i => sadd (mat h i i) (mat F i i))
        end.
Proof. exact energy_from_fock. Qed.
Print Assumptions C22_energy_from_fock.
Example C22_instance : sys_at ex_w 0 Spatial 1 2 ex_sys ex_basis /\ sys_at ex_w 1 General 1 2 ex_gsys ex_basis /\
  buffer_ok NoBuffer ex_h ex_u.
Proof. split; [exact ex_sys_at|]. split; [exact ex_gsys_at | reflexivity]. Qed.

(** C23: the particle exchange symmetry is only needed in the restricted case. *)
Theorem C23_fock_hermitian :
  forall (K : scalar) (s : nat) (w : world K) (k : kind) (N l : nat) (x : system) (b : basis K) (h u : arr K) (f : buffer K),
  sys_at w s k N l x b -> shape h = [l; l] -> shape u = [l; l; l; l] -> buffer_ok f h u ->
  hermitian l (mat h) -> hermitian2 l (ten u) -> (k = Spatial -> particle_sym l (ten u)) ->
  exists F, fock_matrix s h u f w = (Ok F, w) /\ shape F = [l; l] /\ hermitian l (mat F).
Proof. exact fock_hermitian. Qed.
Print Assumptions C23_fock_hermitian.
Theorem C23_energy_real :
  forall (K : scalar) (s : nat) (w : world K) (k : kind) (N l : nat) (x : system) (b : basis K) (h u : arr K),
  sys_at w s k N l x b -> b_arr b F_h = Some h -> b_arr b F_u = Some u ->
  hermitian l (mat h) -> hermitian2 l (ten u) -> (k = Spatial -> particle_sym l (ten u)) ->
  exists e, reference_energy s w = (Ok e, w) /\ sconj e = e.
Proof. exact energy_real. Qed.
Print Assumptions C23_energy_real.
Example C23_instance : sys_at ex_w 0 Spatial 1 2 ex_sys ex_basis /\ b_arr ex_basis F_h = Some ex_h /\
  b_arr ex_basis F_u = Some ex_u /\ buffer_ok NoBuffer ex_h ex_u /\
  hermitian 2 (mat ex_h) /\ hermitian2 2 (ten ex_u) /\ particle_sym 2 (ten ex_u).
Proof.
  split; [exact ex_sys_at|]. split; [reflexivity|]. split; [reflexivity|]. split; [reflexivity|].
  split; [exact ex_h_hermitian|]. split; [exact ex_u_hermitian | exact ex_u_particle].
Qed.

(** C24 as claimed: whatever the buffer, the result is that of f=None. *)
Definition C24_claim : Prop :=
  forall (K : scalar) (w : world K) s k N l x b (h u f : arr K),
  sys_at w s k N l x b -> shape h = [l; l] -> shape u = [l; l; l; l] -> shape f = [l; l] ->
  forall F, fock_matrix s h u (Buffer f) w = (Ok F, w) ->
  exists F', fock_matrix s h u NoBuffer w = (Ok F', w) /\ aeq F F'.
(** It fails: with real h and complex u a complex buffer works, f=None raises. *)
Theorem C24_refuted : ~ C24_claim.
Proof. exact fock_buffer_refuted. Qed.
Print Assumptions C24_refuted.
(** It holds for all buffers (and f=None) of sufficient element type ... *)
Theorem C24_buffer_irrelevant :
  forall (K : scalar) (s : nat) (w : world K) (k : kind) (N l : nat) (x : system) (b : basis K) (h u : arr K) (f f' : buffer K),
  sys_at w s k N l x b -> shape h = [l; l] -> shape u = [l; l; l; l] -> buffer_ok f h u -> buffer_ok f' h u ->
  exists F F', fock_matrix s h u f w = (Ok F, w) /\ fock_matrix s h u f' w = (Ok F', w) /\ aeq F F'.
Proof. exact fock_buffer_irrelevant. Qed.
Print Assumptions C24_buffer_irrelevant.
(** ... f=None always raises when u's type does not fit into h's ... *)
Theorem C24_none_rejected :
  forall (K : scalar) (s : nat) (w : world K) (k : kind) (N l : nat) (x : system) (b : basis K) (h u : arr K),
  sys_at w s k N l x b -> shape h = [l; l] -> shape u = [l; l; l; l] -> castable (dt u) (dt h) = false ->
  fock_matrix s h u NoBuffer w = (Err UFuncTypeError, w).
Proof. exact fock_none_rejected. Qed.
Print Assumptions C24_none_rejected.
(** ... and with h itself as the buffer the one-body part is lost. *)
Theorem C24_aliased_buffer :
  forall (K : scalar) (w : world K) s k N l x b (h u : arr K),
  sys_at w s k N l x b -> shape h = [l; l] -> shape u = [l; l; l; l] -> castable (dt u) (dt h) = true ->
  exists F, fock_matrix s h u SameAsH w = (Ok F, w) /\ shape F = [l; l] /\
    forall p q, p < l -> q < l ->
      mat F p q = match k with General => F_general N (fun _ _ => s0) (ten u) p q
                             | Spatial => F_restricted N (fun _ _ => s0) (ten u) p q end.
Proof. exact fock_aliased. Qed.
Print Assumptions C24_aliased_buffer.
Example C24_instance : sys_at ex_w 0 Spatial 1 2 ex_sys ex_basis /\ buffer_ok (Buffer ex_buf) ex_hr ex_u /\
  castable (dt ex_u) (dt ex_hr) = false /\
  exists F F' : arr QI, fock_matrix 0 ex_h ex_u SameAsH ex_w = (Ok F, ex_w) /\
    fock_matrix 0 ex_h ex_u NoBuffer ex_w = (Ok F', ex_w) /\ mat F 0 0 <> mat F' 0 0.
Proof. split; [exact ex_sys_at|]. split; [repeat split|]. split; [reflexivity | exact fock_aliased_differs]. Qed.

(** C25: every block-diagonal C with C Ct = Ct C = 1, both kinds of system. *)
Theorem C25_energy_rotation_invariant :
  forall (K : scalar) (s : nat) (w : world K) (k : kind) (N l : nat) (x : system) (b : basis K) (C : arr K) (Ct : option (arr K)),
  sys_at w s k N l x b -> shape C = [l; l] -> tilde_shape C Ct l l ->
  (b_arr b F_spf = None -> b_arr b F_bra = None) ->
  (forall i a, (i < N)%nat -> (N <= a < l)%nat -> mat C i a = s0 /\ mat C a i = s0) ->
  (forall p q, (p < l)%nat -> (q < l)%nat -> mmul l (mat C) (tilde C Ct) p q = delta p q) ->
  (forall p q, (p < l)%nat -> (q < l)%nat -> mmul l (tilde C Ct) (mat C) p q = delta p q) ->
  exists w' e, sys_change_basis s C Ct w = (Ok tt, w') /\
    reference_energy s w = (Ok e, w) /\ reference_energy s w' = (Ok e, w').
Proof. exact energy_rotation_invariant. Qed.
Print Assumptions C25_energy_rotation_invariant.
Example C25_instance : sys_at ex_w 0 Spatial 1 2 ex_sys ex_basis /\ shape ex_D = [2; 2] /\ tilde_shape ex_D (Some ex_Dinv) 2 2 /\
  (forall i a, i < 1 -> 1 <= a < 2 -> mat ex_D i a = s0 /\ mat ex_D a i = s0) /\
  (forall p q, p < 2 -> q < 2 -> mmul 2 (mat ex_D) (tilde ex_D (Some ex_Dinv)) p q = delta p q) /\
  (forall p q, p < 2 -> q < 2 -> mmul 2 (tilde ex_D (Some ex_Dinv)) (mat ex_D) p q = delta p q).
Proof.
  split; [exact ex_sys_at|]. split; [reflexivity|]. split; [reflexivity|].
  split; [exact ex_D_block|]. split; [exact ex_D_inv | exact ex_Dinv_D].
Qed.

(** C26: every history, successful or not, from a world without systems. *)
Theorem C26_bookkeeping : forall (K : scalar) (ops : list (wop K)) (w : world K), no_systems w ->
  forall s x, system_at (wrun_any ops w) s x ->
  (sy_n x + sy_m x = sy_l x)%Z /\ (sy_n x <= sy_l x)%Z /\
  forall l, sy_l x = Z.of_nat l ->
    sl_indices l (sy_o x) ++ sl_indices l (sy_v x) = seq 0 l /\
    Z.of_nat (length (sl_indices l (sy_o x))) = (if (0 <=? sy_n x)%Z then sy_n x else Z.max 0 (sy_l x + sy_n x))%Z.
Proof. exact bookkeeping. Qed.
Print Assumptions C26_bookkeeping.
(** What the constructors accept ... *)
Theorem C26_general_accepts : forall (K : scalar) n i va vb anti (w w' : world K) g,
  general_init n i va vb anti w = (Ok g, w') ->
  exists x b, system_at w' g x /\ nth_error (w_bs w') i = Some b /\ sy_bs x = i /\ sy_n x = n /\ sy_l x = Z.of_nat (b_l b) /\
    (n <= Z.of_nat (b_l b))%Z.
Proof. exact general_accepts. Qed.
Print Assumptions C26_general_accepts.
Theorem C26_spatial_accepts : forall (K : scalar) n i (w w' : world K) g, spatial_init n i w = (Ok g, w') ->
  exists x b, system_at w' g x /\ nth_error (w_bs w) i = Some b /\ b_spin b = false /\ sy_bs x = i /\
    n = (2 * sy_n x)%Z /\ sy_l x = Z.of_nat (b_l b) /\ (sy_n x <= Z.of_nat (b_l b))%Z.
Proof. exact spatial_accepts. Qed.
Print Assumptions C26_spatial_accepts.
(** ... and reject. *)
Theorem C26_spatial_rejects : forall (K : scalar) n i (w : world K) b, nth_error (w_bs w) i = Some b ->
  (n mod 2 <> 0 \/ 2 * Z.of_nat (b_l b) < n)%Z -> spatial_init n i w = (Err AssertionError, w).
Proof. exact spatial_rejects. Qed.
Print Assumptions C26_spatial_rejects.
Theorem C26_general_rejects : forall (K : scalar) n i va vb (w : world K) b,
  nth_error (w_bs w) i = Some b -> b_spin b = true ->
  (Z.of_nat (b_l b) < n)%Z -> general_init n i va vb false w = (Err AssertionError, w).
Proof. exact general_rejects. Qed.
Print Assumptions C26_general_rejects.
(** The claim that the occupied slice selects n orbitals fails for n < 0. *)
Definition C26_claim : Prop := forall (K : scalar) (ops : list (wop K)) (w : world K), no_systems w ->
  forall s x, system_at (wrun_any ops w) s x ->
  forall l, sy_l x = Z.of_nat l -> Z.of_nat (length (sl_indices l (sy_o x))) = sy_n x.
Theorem C26_refuted_for_negative_n : ~ C26_claim.
Proof.
  intros H. destruct negative_number_accepted as (x & Hx & Hn & Hl & Ho).
  specialize (H QI _ (World [] [] []) eq_refl 0 x Hx 4 Hl). rewrite Ho, Hn in H. discriminate H.
Qed.
Print Assumptions C26_refuted_for_negative_n.
Example C26_instance : no_systems (World [] [] [] : world QI) /\ exists x : system,
  system_at (wrun_any [WNewBasis ex_basis; WGeneral (-1) 0 (default_a QI) (default_b QI) true] (World [] [] [])) 0 x.
Proof. split; [reflexivity|]. destruct negative_number_accepted as (x & Hx & _). exists x. exact Hx. Qed.

(** C27 as claimed, and the two ways it fails. *)
Definition C27_claim : Prop := forall (K : scalar) (ops : list (wop K)), agree (wrun_any ops (World [] [] [])).
Theorem C27_refuted : ~ C27_claim.
Proof. exact size_refuted. Qed.
Print Assumptions C27_refuted.
(** Every change_basis to fewer functions than particles raises after the basis
    set has been transformed and before the system noticed. *)
Theorem C27_failed_change_basis :
  forall (K : scalar) (w : world K) s k N l x b C Ct n, sys_at w s k N l x b ->
  shape C = [l; n] -> tilde_shape C Ct n l -> n < N ->
  exists w' b', sys_change_basis s C Ct w = (Err AssertionError, w') /\ system_at w' s x /\
    nth_error (w_bs w') (sy_bs x) = Some b' /\ b_l b' = n /\ (Z.of_nat (b_l b') < sy_n x)%Z.
Proof. exact failed_change_basis. Qed.
Print Assumptions C27_failed_change_basis.
Theorem C27_refuted_shared_basis : exists (ops : list (wop QI)) (x : system) b,
  ops = [WNewBasis ex_basis; WSpatial 2 0; WSpatial 2 0; WChange 0 ex_R None] /\
  system_at (wrun_any ops (World [] [] [])) 1 x /\
  nth_error (w_bs (wrun_any ops (World [] [] []))) (sy_bs x) = Some b /\ sy_l x = 2%Z /\ b_l b = 3.
Proof. exact size_refuted_shared. Qed.
Print Assumptions C27_refuted_shared_basis.
(** It holds along every history in which each basis set is given to one
    system, resized only through it, and change_basis on systems succeeds;
    every other call may raise. *)
Theorem C27_sizes_agree : forall (K : scalar) (ops : list (wop K)),
  walong size_disciplined ops (World [] [] []) -> agree (wrun_any ops (World [] [] [])).
Proof. exact hist_agree. Qed.
Print Assumptions C27_sizes_agree.
Example C27_instance :
  walong size_disciplined [WNewBasis ex_basis; WSpatial 2 0; WChange 0 ex_R None; WSetSize 0 2 3; WEnergy 0] (World [] [] []).
Proof. exact disciplined_instance. Qed.

(** C28 as claimed for the creation of general systems: it fails on a shared
    basis set, which GeneralOrbitalSystem doubles in place. *)
Definition C28_claim : Prop :=
  forall (K : scalar) (w : world K) s b n i va vb anti, basis_of w s b ->
  exists b', basis_of (snd (wrun (WGeneral n i va vb anti) w)) s b' /\ same_view b b'.
Theorem C28_refuted : ~ C28_claim.
Proof. exact undisturbed_refuted. Qed.
Print Assumptions C28_refuted.
(** What a system sees is unchanged by every history none of whose steps is a
    direct call on its basis set, a change_basis through a system on that basis
    set, or a GeneralOrbitalSystem(n, that basis set). *)
Theorem C28_undisturbed : forall (K : scalar) (ops : list (wop K)) (w : world K) s b, basis_of w s b ->
  (forall x, system_at w s x -> walong (fun w o => ~ modifies w o (sy_bs x)) ops w) ->
  exists b', basis_of (wrun_any ops w) s b' /\ same_view b b'.
Proof. exact undisturbed. Qed.
Print Assumptions C28_undisturbed.
Example C28_instance : basis_of ex_w 0 ex_basis /\
  (forall x, system_at ex_w 0 x -> walong (fun w o => ~ modifies w o (sy_bs x))
     [WGeneral 2 1 (default_a QI) (default_b QI) true; WConstruct 0 (default_a QI) (default_b QI) true;
      WChange 1 ex_flip None; WEnergy 0; WModule 0 3] ex_w).
Proof. exact undisturbed_instance. Qed.

(** C29: the spatial system keeps its record, its basis set reads the same, and
    the new system of 2N particles and 2l functions lives on a fresh one. *)
Theorem C29_construct_general :
  forall (K : scalar) s va vb (anti : bool) (w : world K) N l x b ov, sys_at w s Spatial N l x b ->
  b_cls b = Base -> accepted K va vb -> b_spin b = false -> b_arr b F_s = Some ov ->
  (b_arr b F_spf = None -> b_arr b F_bra = None) -> sy_op x = None ->
  exists w' g x' b1 bg, construct_general s va vb anti w = (Ok g, w') /\
    sys_at w' g General (2 * N) (2 * l) x' bg /\ sys_at w' s Spatial N l x b1 /\
    spin_doubled l va vb (anti && negb (b_asym b)) ov b bg /\ same_reading b b1 /\
    sy_bs x' <> sy_bs x /\
    w' = World (lset (sy_bs x) b1 (w_bs w) ++ [bg]) (w_sy w ++ [x']) (w_op w) /\
    x' = new_system General (length (w_bs w)) (b_np b) (Z.of_nat (2 * N)) (2 * l).
Proof. exact construct_general_ok. Qed.
Print Assumptions C29_construct_general.
(** Whatever happens (wrong spin pair, operator attached, ...), every system
    that existed before reads the same. *)
Theorem C29_originals_untouched : forall (K : scalar) s va vb anti (w : world K) s0 b, basis_of w s0 b ->
  exists b', basis_of (snd (wrun (WConstruct s va vb anti) w)) s0 b' /\ same_view b b'.
Proof.
  intros K s va vb anti w s0 b H. apply (undisturbed K [WConstruct s va vb anti] w s0 b H).
  intros x Hx. cbn. split; [intros [] | exact I].
Qed.
Print Assumptions C29_originals_untouched.
Example C29_instance : sys_at ex_w 0 Spatial 1 2 ex_sys ex_basis /\ orthonormal_pair ex_va ex_vb /\
  b_spin ex_basis = false /\ b_arr ex_basis F_s = Some ex_s /\ sy_op ex_sys = None.
Proof. split; [exact ex_sys_at|]. split; [exact ex_pair|]. repeat split. Qed.

(** C70: compute_reference_energy and construct_fock_matrix are the textbook
    expressions of EnergySpec.v and change nothing. *)
Theorem C70_reference_energy_formula :
  forall (K : scalar) (w : world K) s k N l x b (h u : arr K), sys_at w s k N l x b ->
  b_arr b F_h = Some h -> b_arr b F_u = Some u -> shape h = [l; l] -> shape u = [l; l; l; l] ->
  reference_energy s w
    = (Ok (match k with General => E_general N (mat h) (ten u) | Spatial => E_restricted N (mat h) (ten u) end), w).
Proof. exact reference_energy_ok. Qed.
Print Assumptions C70_reference_energy_formula.
Theorem C70_fock_formula :
  forall (K : scalar) (w : world K) s k N l x b (h u : arr K) f, sys_at w s k N l x b ->
  shape h = [l; l] -> shape u = [l; l; l; l] -> buffer_ok f h u ->
  exists r, fock_matrix s h u f w = (Ok r, w) /\ shape r = [l; l] /\
    forall p q, p < l -> q < l -> mat r p q
      = match k with General => F_general N (mat h) (ten u) p q | Spatial => F_restricted N (mat h) (ten u) p q end.
Proof. exact fock_matrix_ok. Qed.
Print Assumptions C70_fock_formula.
Example C70_instance : sys_at ex_w 0 Spatial 1 2 ex_sys ex_basis /\ sys_at ex_w 1 General 1 2 ex_gsys ex_basis.
Proof. split; [exact ex_sys_at | exact ex_gsys_at]. Qed.
