(** C140: Without interaction the exact energies are sums of orbital energies; repulsion lies above. *)
From Coq Require Import List Arith ZArith Reals Lra Lia.
From Coquelicot Require Import Coquelicot.
From Verif Require Import Scalar ScalarC Py Numpy BasisSet Spec BasisSpec OneDim LineProofs DotProofs GridSpec GridExamples ParitySpec BoxTheorems TwoDim FieldProofs TwoDimExamples Cache CacheProofs CacheExamples TwoDimBasis PlaneProofs Systems.
From Verif Require Import KineticSpec FockSpec InnerSpec RaiseSpec FockSpectrumSpec FreeSpec FreeProofs FreeSystems.
Import ListNotations.
Open Scope R_scope.

(** A diagonal h and no u: every determinant is an exact state; its energy is the sum of those of
    its spin-orbitals. *)
Theorem C140_states :
  forall k l h u e c, diagonal_energies l h e -> vanishing l u -> among (spin_orbitals k l) c ->
  eigenstate (K := CC) (spin_orbitals k l) (many_body k l h u) (RtoC (level_sum (spin_orbitals k l) (spin_energy k e) c)) (determinant (spin_orbitals k l) c).
Proof. exact free_eigenstate. Qed.
Print Assumptions C140_states.
(** No state, determinant or not, has any other energy. *)
Theorem C140_values :
  forall k l h u e m E (f : state CC), diagonal_energies l h e -> vanishing l u -> particle_state (spin_orbitals k l) m f -> eigenstate (K := CC) (spin_orbitals k l) (many_body k l h u) E f ->
  exists c, among (spin_orbitals k l) c /\ particles (spin_orbitals k l) c = m /\ E = RtoC (level_sum (spin_orbitals k l) (spin_energy k e) c).
Proof. exact free_value. Qed.
Print Assumptions C140_values.
(** The energies with their multiplicities *)
Theorem C140_spectrum :
  forall k l h u e, diagonal_energies l h e -> vanishing l u ->
  forall m d E Psi, spectrum (spin_orbitals k l) (many_body k l h u) m d E Psi -> d = choose (spin_orbitals k l) m /\ sums_of_levels k l m d e E.
Proof. exact free_levels. Qed.
Print Assumptions C140_spectrum.
(** The least one, when the orbital energies ascend *)
Theorem C140_ground :
  forall k l h u e, diagonal_levels l h e -> vanishing l u ->
  forall m d E Psi, (m <= spin_orbitals k l)%nat -> spectrum (spin_orbitals k l) (many_body k l h u) m d E Psi -> E O = rsum m (spin_energy k e).
Proof. exact free_ground. Qed.
Print Assumptions C140_ground.
(** Repulsion: each exact energy is at least the sum of orbital energies in the same place. *)
Theorem C140_repulsion :
  forall l h u e, diagonal_energies l h e -> hermitian2 (K := CC) l u -> raising l u ->
  forall m d E Psi, spectrum (2 * l) (many_body Spatial l h u) m d E Psi ->
  exists F, sums_of_levels Spatial l m d e F /\ (forall p q, (p <= q)%nat -> (q < d)%nat -> F p <= F q) /\ forall p, (p < d)%nat -> F p <= E p.
Proof. exact raised_free. Qed.
Print Assumptions C140_repulsion.

(** The dots of the library with alpha = 0 *)
Theorem C140_ODHO_free : forall npm spin anti l L N omega a beta b, odho npm spin anti l L N omega a 0 beta = (Ok tt, b) -> free_electrons l b.
Proof. exact line_free. Qed.
Print Assumptions C140_ODHO_free.
Theorem C140_ODQD_free : forall npm spin anti l L N a beta V eigh b, odqd npm spin anti l L N a 0 beta V eigh = (Ok tt, b) -> free_electrons l b.
Proof. exact dot_free. Qed.
Print Assumptions C140_ODQD_free.
(** The energies of ODHO with alpha = 0 are omega (K + m / 2); 2n electrons have at least omega n^2. *)
Theorem C140_ODHO_ladder :
  forall npm spin anti l L N omega a beta b, odho npm spin anti l L N omega a 0 beta = (Ok tt, b) -> 0 <= omega ->
  exists h u, b_arr b F_h = Some h /\ b_arr b F_u = Some u /\ forall m d E Psi, (m <= 2 * l)%nat -> spectrum (2 * l) (many_body Spatial l (mat h) (ten u)) m d E Psi ->
  (forall p, (p < d)%nat -> exists K : nat, E p = omega * (INR K + INR m / 2)) /\ (forall n, m = (2 * n)%nat -> E O = omega * INR n ^ 2).
Proof. exact line_ladder. Qed.
Print Assumptions C140_ODHO_ladder.

(** The dots with repulsion *)
Theorem C140_ODHO : forall npm spin anti l L N omega a alpha beta b, odho npm spin anti l L N omega a alpha beta = (Ok tt, b) -> 0 <= alpha -> a <> 0 -> above_free_electrons l b.
Proof. exact line_above. Qed.
Print Assumptions C140_ODHO.
Theorem C140_ODQD : forall npm spin anti l L N a alpha beta V eigh b, odqd npm spin anti l L N a alpha beta V eigh = (Ok tt, b) -> 0 <= alpha -> a <> 0 -> above_free_electrons l b.
Proof. exact dot_above. Qed.
Print Assumptions C140_ODQD.
Theorem C140_TwoDim :
  forall npm spin anti l L N omega mass e (files : fs) b t, sound files -> oscillator npm spin anti l L N omega mass e files = (Ok b, t) -> 0 < omega -> above_free_electrons l b.
Proof. exact oscillator_above. Qed.
Print Assumptions C140_TwoDim.
Theorem C140_TwoDimB :
  forall npm spin anti l L N omega_0 mass omega_c rows b, omega_0 <> 0 -> field_states l omega_0 omega_c = Ok rows ->
  field_oscillator npm spin anti l L N omega_0 mass omega_c = (Ok tt, b) -> above_free_electrons l b.
Proof. exact field_above. Qed.
Print Assumptions C140_TwoDimB.

(** The hypotheses can be met; two electrons in two orbitals have energies 0, 1, 1, 1, 1, 2. *)
Example C140_instance :
  (exists b, odho 0 false false 3 10 401 1 1 0 0 = (Ok tt, b)) /\ (exists b, odho 0 false false 3 10 401 1 1 1 0 = (Ok tt, b)) /\
  (exists b, odqd 0 false false 4 10 101 1 0 0 (fun _ => 3) (box_solver 10 3) = (Ok tt, b)) /\
  (exists b t, oscillator 0 false false 6 8 201 1 1 (Setting false 0 true) no_files = (Ok b, t)) /\
  (exists rows, field_states 6 1 (1 / 2) = Ok rows) /\
  let h := fun p q => if (p =? q)%nat then RtoC (INR p) else RtoC 0 in let u := fun _ _ _ _ : nat => RtoC 0 in
  diagonal_levels 2 h INR /\ vanishing 2 u /\
  exists E Psi, spectrum 4 (many_body Spatial 2 h u) 2 6 E Psi /\ E 0%nat = 0 /\
  level_sum 4 (spin_energy Spatial INR) (fun p => (p =? 0)%nat || (p =? 3)%nat)%bool = 1 /\ level_sum 4 (spin_energy Spatial INR) (fun p => (p =? 2)%nat || (p =? 3)%nat)%bool = 2.
Proof.
  split; [eexists; apply odho_ok; repeat constructor|]. split; [eexists; apply odho_ok; repeat constructor|]. split; [eexists; apply dot_ok; lia|].
  split; [destruct (plane_oscillator 0 false false 6 8 201 1 1 (Setting false 0 true) no_files ltac:(lra) ltac:(lra) ltac:(discriminate) ltac:(left; reflexivity)) as (b & t & E & _); eauto|].
  split; [destruct field_instance as (rows & E & _); eauto|]. intros h u.
  assert (D : diagonal_levels 2 h INR) by (split; [intros p q _ _; reflexivity | intros p q Hp _; apply le_INR, Hp]). assert (V : vanishing 2 u) by (intros p q r s _ _ _ _; reflexivity).
  split; [exact D|]. split; [exact V|]. destruct (free_spectrum Spatial 2 h u INR (proj1 D) V 2) as (c & Psi & _ & Sp). eexists. exists Psi. split; [exact Sp|].
  split; [rewrite (free_ground Spatial 2 h u INR D V 2 _ _ Psi ltac:(cbn; lia) Sp); cbn; ring|]. split; cbn; ring.
Qed.
