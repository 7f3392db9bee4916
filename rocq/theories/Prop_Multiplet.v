(** C138: Exact energies come in spin multiplets. *)
From Coq Require Import List Arith ZArith Reals Lra Lia.
From Coquelicot Require Import Coquelicot.
From Verif Require Import Scalar ScalarC Py Numpy BasisSet BasisSpec Spec RotationExamples FockSpec FockProofs InnerSpec InnerProofs RaiseSpec RaiseFock FockSpectrumSpec Systems Worlds OperatorSpec EvolutionSpec EvolutionExamples SharpSpec MultipletSpec MultipletTheorems MultipletSystems MultipletEvolution.
Import ListNotations.
Open Scope R_scope.

(** The m-electron states of a spatial system have an orthonormal basis of exact eigenstates with
    sharp total spin, sharp projection and all the sharp labels that the elements keep.  The spin is
    at most m/2 and at most l - m/2, and differs from m/2 by a whole number.  Each level of spin s/2
    comes with all the s + 1 projections. *)
Theorem C138_states :
  forall l (h : nat -> nat -> C) u, hermitian (K := CC) l h -> hermitian2 (K := CC) l u -> forall ts, kept l h u ts -> forall m,
  let d := choose (2 * l) m in
  exists E Psi S M, spectrum (2 * l) (many_body Spatial l h u) m d E Psi /\ multiplets l m d E S M /\
    forall p, (p < d)%nat -> total_spin l (S p) (Psi p) /\ projection l (M p) (Psi p) /\ forall t, In t (labels Spatial ts) -> sharp (2 * l) t (Psi p).
Proof. exact joint_states. Qed.
Print Assumptions C138_states.
(** S_- takes eigenstates with positive projection to eigenstates of the same energy with the
    projection lowered by one, S_+ takes those with negative projection to the next higher one. *)
Theorem C138_lower :
  forall l (h : nat -> nat -> C) u m M e f, particle_state (2 * l) m f -> eigenstate (K := CC) (2 * l) (many_body Spatial l h u) e f -> projection l M f -> (0 < M)%Z ->
  particle_state (2 * l) m (S_minus l f) /\ eigenstate (K := CC) (2 * l) (many_body Spatial l h u) e (S_minus l f) /\ projection l (M - 2) (S_minus l f).
Proof. exact minus_eigen. Qed.
Print Assumptions C138_lower.
Theorem C138_raise :
  forall l (h : nat -> nat -> C) u m M e f, particle_state (2 * l) m f -> eigenstate (K := CC) (2 * l) (many_body Spatial l h u) e f -> projection l M f -> (M < 0)%Z ->
  particle_state (2 * l) m (S_plus l f) /\ eigenstate (K := CC) (2 * l) (many_body Spatial l h u) e (S_plus l f) /\ projection l (M + 2) (S_plus l f).
Proof. exact plus_eigen. Qed.
Print Assumptions C138_raise.
(** So every exact energy is found among the states with projection 0 (m even) or 1/2 (m odd). *)
Theorem C138_lowest_projection :
  forall l (h : nat -> nat -> C) u, hermitian (K := CC) l h -> hermitian2 (K := CC) l u -> forall m e f,
  particle_state (2 * l) m f -> eigenstate (K := CC) (2 * l) (many_body Spatial l h u) e f ->
  exists g, particle_state (2 * l) m g /\ eigenstate (K := CC) (2 * l) (many_body Spatial l h u) e g /\ projection l (Z.of_nat (m mod 2)) g.
Proof. exact levels_lowest. Qed.
Print Assumptions C138_lowest_projection.
(** In every spectrum a level that has a state of spin s/2 is at least (s + 1)-fold. *)
Theorem C138_degeneracy :
  forall l (h : nat -> nat -> C) u, hermitian (K := CC) l h -> hermitian2 (K := CC) l u -> forall m d E Psi p s f,
  spectrum (2 * l) (many_body Spatial l h u) m d E Psi -> (p < d)%nat -> particle_state (2 * l) m f -> eigenstate (K := CC) (2 * l) (many_body Spatial l h u) (RtoC (E p)) f -> total_spin l s f ->
  exists g, forall k, (k <= s)%nat -> (g k < d)%nat /\ E (g k) = E p /\ forall k', (k' <= s)%nat -> g k = g k' -> k = k'.
Proof. exact degenerate. Qed.
Print Assumptions C138_degeneracy.
(** With an odd number of electrons no level is simple ... *)
Theorem C138_odd :
  forall l (h : nat -> nat -> C) u, hermitian (K := CC) l h -> hermitian2 (K := CC) l u -> forall m d E Psi p, Nat.odd m = true ->
  spectrum (2 * l) (many_body Spatial l h u) m d E Psi -> (p < d)%nat -> exists q, (q < d)%nat /\ q <> p /\ E q = E p.
Proof. exact kramers. Qed.
Print Assumptions C138_odd.
(** ... and the state of a simple level has no spin. *)
Theorem C138_simple :
  forall l (h : nat -> nat -> C) u, hermitian (K := CC) l h -> hermitian2 (K := CC) l u -> forall m d E Psi p,
  spectrum (2 * l) (many_body Spatial l h u) m d E Psi -> (p < d)%nat -> (forall q, (q < d)%nat -> q <> p -> E q <> E p) -> total_spin l 0 (Psi p).
Proof. exact simple_singlet. Qed.
Print Assumptions C138_simple.
(** The same with the arrays of the library: after change_to_general_orbital_basis with its default
    arguments spin_z has the eigenvalue M/2 and spin_2 together with spin_2_tb has the eigenvalue
    s/2 (s/2 + 1) in eigenstates of the Hamiltonian with the new h and u. *)
Theorem C138_library :
  forall (b : basis CC) l (s h u : arr CC),
  ready b l -> b_spin b = false -> b_asym b = false -> b_arr b F_s = Some s -> (forall p q, (p < l)%nat -> (q < l)%nat -> mat s p q = delta (K := CC) p q) ->
  b_arr b F_h = Some h -> b_arr b F_u = Some u -> hermitian l (mat h) -> hermitian2 l (ten u) ->
  exists b' (h' u' sz s2 tb : arr CC), change_to_general None true b = (Ok true, b') /\
    b_arr b' F_h = Some h' /\ b_arr b' F_u = Some u' /\ b_arr b' F_spz = Some sz /\ b_arr b' F_sp2 = Some s2 /\ b_arr b' F_sp2tb = Some tb /\
    forall m, let n := (2 * l)%nat in let d := choose n m in
    exists E Psi S M, spectrum n (many_body General n (mat h') (ten u')) m d E Psi /\ multiplets l m d E S M /\
      forall p, (p < d)%nat -> forall o, among n o ->
        one_body (K := CC) n (mat sz) (Psi p) o = (RtoC (IZR (M p) / 2) * Psi p o)%C /\
        (one_body (K := CC) n (mat s2) (Psi p) o + RtoC (1 / 2) * two_body (K := CC) n (ten tb) (Psi p) o)%C = (RtoC (INR (S p) / 2 * (INR (S p) / 2 + 1)) * Psi p o)%C.
Proof. exact library_multiplets. Qed.
Print Assumptions C138_library.
(** Electrons with parallel spins have the largest spin. *)
Theorem C138_polarized : forall l m f, particle_state (2 * l) m f -> projection l (Z.of_nat m) f -> total_spin l m f.
Proof. exact polarized. Qed.
Print Assumptions C138_polarized.
(** Under the elements returned by h_t and u_t of a spatial system, in any laser field or other
    Hermitian time-dependent operator, the mean spin and the mean of S^2 stay the same, and states
    keep their spin and their projection. *)
Theorem C138_evolution :
  forall (w : world CC) s l x (h u : arr CC) d M, evolving w s l x h u d M -> sy_kind x = Spatial -> hermitian l (mat h) -> hermitian2 l (ten u) -> hermitian_drive l d M ->
  forall ops, List.Forall reads ops -> let w' := wrun_any ops w in let n := (2 * l)%nat in let H y := many_body Spatial l (h_at s w' y) (u_at s w' y) in
  forall psi, evolution n H psi ->
  (forall y z, inner (K := CC) n (psi y) (S_x l (psi y)) = inner (K := CC) n (psi z) (S_x l (psi z)) /\ inner (K := CC) n (psi y) (S_y l (psi y)) = inner (K := CC) n (psi z) (S_y l (psi z)) /\
    inner (K := CC) n (psi y) (S_z l (psi y)) = inner (K := CC) n (psi z) (S_z l (psi z)) /\ inner (K := CC) n (psi y) (S_squared l (psi y)) = inner (K := CC) n (psi z) (S_squared l (psi z))) /\
  (forall y z S, total_spin l S (psi y) -> total_spin l S (psi z)) /\ (forall y z P, projection l P (psi y) -> projection l P (psi z)).
Proof. exact spin_conserved. Qed.
Print Assumptions C138_evolution.
(** Two electrons with spin up in two orbitals: spin 1, projection 1. *)
Example C138_instance :
  (evolving dv_w 0 2 dv_sys lv_h lv_u (Some dv_dip) dv_means /\ sy_kind dv_sys = Spatial /\ hermitian_drive 2 (Some dv_dip) dv_means) /\
  hermitian 2 (mat lv_h) /\ hermitian2 2 (ten lv_u) /\ kept 2 (mat lv_h) (ten lv_u) [] /\ choose (2 * 2) 2 = 6%nat /\
  ready mv_basis 2 /\ b_arr mv_basis F_s = Some mv_s /\ (forall p q, (p < 2)%nat -> (q < 2)%nat -> mat mv_s p q = delta (K := CC) p q) /\
  (let f := determinant (K := CC) (2 * 2) (Nat.testbit 5) in particle_state (2 * 2) 2 f /\ projection 2 2 f /\ total_spin 2 2 f) /\
  (in_multiplet 2 2 /\ in_multiplet 2 0 /\ in_multiplet 2 (-2) /\ ~ in_multiplet 2 1 /\ ~ in_multiplet 2 4).
Proof.
  split; [split; [exact dv_evolving | split; [reflexivity | exact dv_hermitian]]|]. split; [exact lv_hermitian|]. split; [exact lv_hermitian2|]. split; [intros t []|]. split; [reflexivity|]. split; [exact mv_ready|]. split; [reflexivity|].
  split; [intros p q _ _; reflexivity|].
  assert (P : particle_state (2 * 2) 2 (determinant (K := CC) (2 * 2) (Nat.testbit 5))) by exact (det_particles CC (2 * 2) (Nat.testbit 5)).
  assert (Q : projection 2 2 (determinant (K := CC) (2 * 2) (Nat.testbit 5))) by exact (det_projection 2 (Nat.testbit 5)).
  split; [split; [exact P|]; split; [exact Q | exact (polarized 2 2 _ P Q)]|].
  unfold in_multiplet. cbn. repeat split; try lia; intros [A B]; try discriminate; lia.
Qed.
