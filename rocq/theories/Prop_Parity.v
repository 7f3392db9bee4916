(** C111-C117: levels, nodes and parity of one-dimensional dots, independence of the
    eigensolver, and the particle in a box. *)
From Coq Require Import List Arith ZArith Reals Lra Lia Bool.
From Coquelicot Require Import Coquelicot.
From Verif Require Import Scalar ScalarC Py Numpy BasisSet Spec BasisSpec OneDim OneDimSpec DotProofs LineProofs GridSpec QuadProofs GridExamples Potentials.
From Verif Require Import EnergyFacts Systems SystemFacts SystemProofs NodeSpec ParitySpec ParityTheorems BoxProofs BoxTheorems.
Import ListNotations.
Open Scope R_scope.

(** A dot with four orbitals on 101 points in a box, and a system with two electrons in it *)
Definition box_system : system := System Spatial 0 (Some 0%nat) 1 4 3 (PySlice 0 1) (PySlice 1 4) None.
Lemma box_dot : exists b, odqd 0 false false 4 10 101 1 1 (1 / 2) (fun _ => 3) (box_solver 10 3) = (Ok tt, b) /\
  sys_at (World [b] [box_system] []) 0 Spatial 1 4 box_system b /\ b_arr b F_h <> None /\ b_arr b F_u <> None /\ b_arr b F_bra = None.
Proof.
  eexists. split; [apply dot_ok; lia|]. split; [|split; [discriminate | split; [discriminate | reflexivity]]].
  constructor; [reflexivity | reflexivity | reflexivity | exists 0%nat; reflexivity | reflexivity | reflexivity | lia |].
  apply (dot_is_ready 0 false false 4 10 101 1 1 (1 / 2) (fun _ => 3) (box_solver 10 3)). apply dot_ok; lia.
Qed.

(** C111. *)
Theorem C111_simple_levels :
  forall npm spin anti l L N a alpha beta V eigh b,
  odqd npm spin anti l L N a alpha beta V eigh = (Ok tt, b) -> 0 < L -> solves L N V eigh ->
  exists h, b_arr b F_h = Some h /\ forall p q, (p < q)%nat -> (q < l)%nat -> Re (mat h p p) < Re (mat h q q).
Proof. exact dot_simple. Qed.
Print Assumptions C111_simple_levels.
Example C111_instance : (exists b, odqd 0 false false 2 (3 / 2) 4 1 1 0 small_well eigh2 = (Ok tt, b)) /\ solves (3 / 2) 4 small_well eigh2 /\
  (exists b, odqd 0 false false 4 10 101 1 1 (1 / 2) (fun _ => 3) (box_solver 10 3) = (Ok tt, b)) /\ solves 10 101 (fun _ => 3) (box_solver 10 3).
Proof. split; [eexists; apply dot_ok; repeat constructor|]. split; [exact eigh2_right|]. split; [eexists; apply dot_ok; lia | apply box_solver_right; lra]. Qed.

(** C112. *)
Theorem C112_nodes :
  forall npm spin anti l L N a alpha beta V eigh b,
  odqd npm spin anti l L N a alpha beta V eigh = (Ok tt, b) -> 0 < L -> solves L N V eigh ->
  exists spf, b_arr b F_spf = Some spf /\ forall p, (p < l)%nat -> nodes N (fun i => Re (get spf [p; i])) = p.
Proof. exact dot_nodes. Qed.
Print Assumptions C112_nodes.
Theorem C112_ground :
  forall npm spin anti l L N a alpha beta V eigh b,
  odqd npm spin anti l L N a alpha beta V eigh = (Ok tt, b) -> 0 < L -> solves L N V eigh -> (0 < l)%nat ->
  exists spf, b_arr b F_spf = Some spf /\
    forall i, (0 < i)%nat -> (i + 2 < N)%nat -> 0 < Re (get spf [0; i]%nat) * Re (get spf [0; S i]%nat).
Proof. exact dot_ground. Qed.
Print Assumptions C112_ground.
Example C112_instance : (exists b, odqd 0 false false 4 10 101 1 1 (1 / 2) (fun _ => 3) (box_solver 10 3) = (Ok tt, b)) /\ solves 10 101 (fun _ => 3) (box_solver 10 3) /\
  nodes 5 (fun i => nth i [0; 1; 0; -1; 0] 0) = 1%nat /\ nodes 6 (fun i => nth i [0; 1; -1; 0; 2; 0] 0) = 2%nat.
Proof.
  split; [eexists; apply dot_ok; lia|]. split; [apply box_solver_right; lra|].
  split; unfold nodes; cbn;
    repeat match goal with |- context[Req_EM_T ?x ?y] => destruct (Req_EM_T x y) as [?|?]; try (exfalso; lra) end;
    repeat match goal with |- context[Rlt_dec ?x ?y] => destruct (Rlt_dec x y) as [?|?]; try (exfalso; lra) end; reflexivity.
Qed.

(** C113. *)
Theorem C113_dot :
  forall npm spin anti l L N a alpha beta V eigh b,
  odqd npm spin anti l L N a alpha beta V eigh = (Ok tt, b) -> 0 < L -> solves L N V eigh ->
  (forall x, - L <= x <= L -> V (- x) = V x) -> alternates l N b.
Proof. exact dot_alternates. Qed.
Print Assumptions C113_dot.
Theorem C113_oscillator :
  forall npm spin anti l L N omega a alpha beta b,
  odho npm spin anti l L N omega a alpha beta = (Ok tt, b) -> alternates l N b.
Proof. exact line_alternates. Qed.
Print Assumptions C113_oscillator.
Theorem C113_potentials : forall p x, symmetric p -> Potentials.call p (- x) = Potentials.call p x.
Proof. exact symmetric_even. Qed.
Print Assumptions C113_potentials.
Example C113_instance : (exists b, odqd 0 false false 4 10 101 1 1 (1 / 2) (fun _ => 3) (box_solver 10 3) = (Ok tt, b)) /\ solves 10 101 (fun _ => 3) (box_solver 10 3) /\
  (forall x, small_well (- x) = small_well x) /\ (exists b, odho 0 false false 3 10 401 1 1 1 0 = (Ok tt, b)) /\ symmetric (DW 1 4) /\ symmetric (GaussianHardWall 1 0 2 5) /\ ~ symmetric (AsymmetricDW 1 2 3).
Proof.
  split; [eexists; apply dot_ok; lia|]. split; [apply box_solver_right; lra|]. split; [intros; unfold small_well; field|]. split; [eexists; apply odho_ok; lia|].
  cbn. split; [exact I|]. split; [left; reflexivity | lra].
Qed.

(** C114. *)
Theorem C114_interaction_dot :
  forall npm spin anti l L N a alpha beta V eigh b,
  odqd npm spin anti l L N a alpha beta V eigh = (Ok tt, b) -> 0 < L -> solves L N V eigh ->
  (forall x, - L <= x <= L -> V (- x) = V x) -> interaction_rule l b.
Proof. exact dot_interaction. Qed.
Print Assumptions C114_interaction_dot.
Theorem C114_interaction_oscillator :
  forall npm spin anti l L N omega a alpha beta b,
  odho npm spin anti l L N omega a alpha beta = (Ok tt, b) -> interaction_rule l b.
Proof. exact line_interaction. Qed.
Print Assumptions C114_interaction_oscillator.
Theorem C114_dipole :
  forall npm spin anti l L N a alpha beta V eigh b,
  odqd npm spin anti l L N a alpha beta V eigh = (Ok tt, b) -> 0 < L -> solves L N V eigh ->
  (forall x, - L <= x <= L -> V (- x) = V x) ->
  exists spf d, b_arr b F_spf = Some spf /\ b_arr b F_dip = Some d /\ forall p q, (p < l)%nat -> (q < l)%nat ->
    let x := point L N in let mean (g : R -> R) := trapezoid N (fun i => (Cconj (get spf [p; i]) * RtoC (g (x i)) * get spf [q; i])%C) x in
    get d [0; p; q]%nat = if Nat.odd (p + q) then mean (fun x => x) else (RtoC beta * mean (fun x => x ^ 2)%R)%C.
Proof. exact dot_dipole_rule. Qed.
Print Assumptions C114_dipole.
Example C114_instance : (exists b, odqd 0 false false 4 10 101 1 1 (1 / 2) (fun _ => 3) (box_solver 10 3) = (Ok tt, b)) /\ solves 10 101 (fun _ => 3) (box_solver 10 3) /\
  (exists b, odho 0 false false 3 10 401 1 1 1 0 = (Ok tt, b)) /\ Nat.odd (0 + 1 + 2 + 0) = true.
Proof. split; [eexists; apply dot_ok; lia|]. split; [apply box_solver_right; lra|]. split; [eexists; apply odho_ok; lia | reflexivity]. Qed.

(** C115. *)
Theorem C115_fock_dot :
  forall (w : world CC) s n l x (b : basis CC) (h u : arr CC) f,
  sys_at w s Spatial n l x b -> b_arr b F_h = Some h -> b_arr b F_u = Some u -> buffer_ok f h u ->
  forall npm spin anti L N a alpha beta V eigh,
  odqd npm spin anti l L N a alpha beta V eigh = (Ok tt, b) -> 0 < L -> solves L N V eigh -> (forall x, - L <= x <= L -> V (- x) = V x) ->
  exists F, fock_matrix s h u f w = (Ok F, w) /\ odd_zero l (mat F).
Proof. exact dot_fock. Qed.
Print Assumptions C115_fock_dot.
Theorem C115_fock_oscillator :
  forall (w : world CC) s n l x (b : basis CC) (h u : arr CC) f,
  sys_at w s Spatial n l x b -> b_arr b F_h = Some h -> b_arr b F_u = Some u -> buffer_ok f h u ->
  forall npm spin anti L N omega a alpha beta, odho npm spin anti l L N omega a alpha beta = (Ok tt, b) ->
  exists F, fock_matrix s h u f w = (Ok F, w) /\ odd_zero l (mat F).
Proof. exact line_fock. Qed.
Print Assumptions C115_fock_oscillator.
Theorem C115_density_dot :
  forall npm spin anti l L N a alpha beta V eigh b (rho d : arr CC) b',
  odqd npm spin anti l L N a alpha beta V eigh = (Ok tt, b) -> 0 < L -> solves L N V eigh -> (forall x, - L <= x <= L -> V (- x) = V x) ->
  shape rho = [l; l] -> odd_zero l (mat rho) -> compute_particle_density rho None None b = (Ok d, b') ->
  forall i, (i < N)%nat -> get d [mirror N i] = get d [i].
Proof. exact dot_density. Qed.
Print Assumptions C115_density_dot.
Theorem C115_density_oscillator :
  forall npm spin anti l L N omega a alpha beta b (rho d : arr CC) b',
  odho npm spin anti l L N omega a alpha beta = (Ok tt, b) ->
  shape rho = [l; l] -> odd_zero l (mat rho) -> compute_particle_density rho None None b = (Ok d, b') ->
  forall i, (i < N)%nat -> get d [mirror N i] = get d [i].
Proof. exact line_density. Qed.
Print Assumptions C115_density_oscillator.
Example C115_instance : (exists b, odqd 0 false false 4 10 101 1 1 (1 / 2) (fun _ => 3) (box_solver 10 3) = (Ok tt, b) /\
    sys_at (World [b] [box_system] []) 0 Spatial 1 4 box_system b /\ b_arr b F_h <> None /\ b_arr b F_u <> None /\ b_arr b F_bra = None) /\
  solves 10 101 (fun _ => 3) (box_solver 10 3) /\ (forall x, small_well (- x) = small_well x) /\
  odd_zero 4 (mat (diag 4 Complex128 (fun p => RtoC (if (p =? 0)%nat then 2 else 0)))) /\
  exists b, odho 0 false false 3 10 401 1 1 1 0 = (Ok tt, b) /\
    sys_at (line_w b) 0 Spatial 1 3 (System Spatial 0 (Some 0%nat) 1 3 2 (PySlice 0 1) (PySlice 1 3) None) b.
Proof.
  split; [exact box_dot|]. split; [apply box_solver_right; lra|]. split; [intros; unfold small_well; field|]. split; [apply diag_odd_zero|].
  eexists. split; [apply odho_ok; lia|]. apply line_sys. apply odho_ok; lia.
Qed.

(** C116. *)
Theorem C116_same_basis :
  forall npm spin anti l L N a alpha beta V eigh eigh' b b',
  odqd npm spin anti l L N a alpha beta V eigh = (Ok tt, b) -> odqd npm spin anti l L N a alpha beta V eigh' = (Ok tt, b') -> 0 < L ->
  solves L N V eigh -> solves L N V eigh' ->
  exists (e : nat -> R) spf spf' h h' u u' d d', (forall p, e p = 1 \/ e p = -1) /\
    b_arr b F_spf = Some spf /\ b_arr b' F_spf = Some spf' /\ b_arr b F_h = Some h /\ b_arr b' F_h = Some h' /\
    b_arr b F_u = Some u /\ b_arr b' F_u = Some u' /\ b_arr b F_dip = Some d /\ b_arr b' F_dip = Some d' /\
    (forall p i, (p < l)%nat -> (i < N)%nat -> get spf' [p; i] = (RtoC (e p) * get spf [p; i])%C) /\
    (forall p q, (p < l)%nat -> (q < l)%nat -> mat h' p q = mat h p q) /\
    (forall p q r s, (p < l)%nat -> (q < l)%nat -> (r < l)%nat -> (s < l)%nat -> ten u' p q r s = (RtoC (e p * e q * e r * e s) * ten u p q r s)%C) /\
    (forall p q, (p < l)%nat -> (q < l)%nat -> get d' [0; p; q]%nat = (RtoC (e p * e q) * get d [0; p; q]%nat)%C).
Proof. exact dot_signs. Qed.
Print Assumptions C116_same_basis.
Theorem C116_same_energy :
  forall npm spin anti l L N a alpha beta V eigh eigh' b b',
  odqd npm spin anti l L N a alpha beta V eigh = (Ok tt, b) -> odqd npm spin anti l L N a alpha beta V eigh' = (Ok tt, b') -> 0 < L ->
  solves L N V eigh -> solves L N V eigh' ->
  forall (w w' : world CC) s s' n x x', sys_at w s Spatial n l x b -> sys_at w' s' Spatial n l x' b' ->
  exists E, reference_energy s w = (Ok E, w) /\ reference_energy s' w' = (Ok E, w').
Proof. exact dot_same_energy. Qed.
Print Assumptions C116_same_energy.
Example C116_instance : (exists b, odqd 0 false false 2 (3 / 2) 4 1 1 0 small_well eigh2 = (Ok tt, b)) /\ (exists b, odqd 0 false false 2 (3 / 2) 4 1 1 0 small_well other_solver = (Ok tt, b)) /\
  solves (3 / 2) 4 small_well eigh2 /\ solves (3 / 2) 4 small_well other_solver.
Proof. split; [eexists; apply dot_ok; lia|]. split; [eexists; apply dot_ok; lia|]. split; [exact eigh2_right | exact other_right]. Qed.

(** C117. *)
Theorem C117_values :
  forall npm spin anti l L N a alpha beta c eigh b,
  odqd npm spin anti l L N a alpha beta (fun _ => c) eigh = (Ok tt, b) -> 0 < L -> solves L N (fun _ => c) eigh ->
  exists spf h, b_arr b F_spf = Some spf /\ b_arr b F_h = Some h /\ forall p, (p < l)%nat ->
    mat h p p = RtoC (c + (1 - cos (INR (p + 1) * PI / INR (N - 1))) / spacing L N ^ 2) /\
    exists e, (e = 1 \/ e = -1) /\ forall i, (i < N)%nat -> get spf [p; i] = RtoC (e * (sqrt (/ L) * sin (INR (p + 1) * PI * (point L N i + L) / (2 * L)))).
Proof. exact box_values. Qed.
Print Assumptions C117_values.
Theorem C117_error :
  forall npm spin anti l L N a alpha beta c eigh b,
  odqd npm spin anti l L N a alpha beta (fun _ => c) eigh = (Ok tt, b) -> 0 < L -> solves L N (fun _ => c) eigh ->
  exists h, b_arr b F_h = Some h /\ forall p, (p < l)%nat ->
    let k := INR (p + 1) * PI / (2 * L) in c + k ^ 2 / 2 - k ^ 4 / 24 * spacing L N ^ 2 <= Re (mat h p p) <= c + k ^ 2 / 2.
Proof. exact box_error. Qed.
Print Assumptions C117_error.
Theorem C117_limit :
  forall npm spin anti a alpha beta c eigh L p eps, 0 < L -> 0 < eps -> (forall N, solves L N (fun _ => c) eigh) ->
  exists N0, forall N l b, (N0 <= N)%nat -> (p < l)%nat -> odqd npm spin anti l L N a alpha beta (fun _ => c) eigh = (Ok tt, b) ->
  exists h, b_arr b F_h = Some h /\ Rabs (Re (mat h p p) - (c + (INR (p + 1) * PI / (2 * L)) ^ 2 / 2)) < eps.
Proof. exact box_limit. Qed.
Print Assumptions C117_limit.
Example C117_instance : (forall l N, (3 <= N)%nat -> (l <= N - 2)%nat -> exists b, odqd 0 false false l 10 N 1 1 (1 / 2) (fun _ => 3) (box_solver 10 3) = (Ok tt, b)) /\
  forall N, solves 10 N (fun _ => 3) (box_solver 10 3).
Proof. split; [intros l N H Hl; eexists; apply dot_ok; assumption | intros N; apply box_solver_right; lra]. Qed.
