(** C145: one electron, and one electron missing. *)
From Coq Require Import List Arith ZArith Reals Lra Lia.
From Coquelicot Require Import Coquelicot.
From Verif Require Import Scalar ScalarC Py Numpy BasisSet Spec EnergySpec EnergyFacts Systems SystemFacts RotationExamples FockSpec InnerSpec RaiseSpec HoleSpec HoleSystems ElectronProofs HoleExamples OneDim LineProofs TwoDim Orbitals Coulomb Cache CacheProofs CacheExamples TwoDimBasis PlaneProofs HoleDots.
Import ListNotations.
Open Scope R_scope.

(** The exact energies of one electron are the eigenvalues of h, whatever the interaction. *)
Theorem C145_electron : forall k l h u E, exact_energy k l h u 1 E <-> eigenvalue l h E.
Proof. exact electron_kind. Qed.
Print Assumptions C145_electron.

(** With every orbital occupied, E is an exact energy with one electron less if and only if
    reference energy minus E is an eigenvalue of the Fock matrix. *)
Theorem C145_hole : forall (w : world CC) s k l x (b : basis CC) (h u : arr CC) f, sys_at w s k l l x b -> (0 < l)%nat ->
  b_arr b F_h = Some h -> b_arr b F_u = Some u -> buffer_ok f h u ->
  hermitian (K := CC) l (mat h) -> hermitian2 (K := CC) l (ten u) -> (k = General -> antisym_ket (K := CC) l (ten u)) -> particle_sym (K := CC) l (ten u) ->
  exists (e : R) F, reference_energy s w = (Ok (RtoC e), w) /\ fock_matrix s h u f w = (Ok F, w) /\
    forall E, exact_energy k l (mat h) (ten u) (spin_orbitals k l - 1) E <-> eigenvalue l (mat F) (e - E).
Proof. exact hole_system. Qed.
Print Assumptions C145_hole.

(** One electron in the oscillators *)
Theorem C145_ODHO : forall npm spin anti l L N omega a alpha beta b, odho npm spin anti l L N omega a alpha beta = (Ok tt, b) ->
  exists h u, b_arr b F_h = Some h /\ b_arr b F_u = Some u /\ forall E, exact_energy Spatial l (mat h) (ten u) 1 E <-> exists p, (p < l)%nat /\ E = omega * (INR p + 1 / 2).
Proof. exact line_electron. Qed.
Print Assumptions C145_ODHO.

Theorem C145_oscillator : forall npm spin anti l L N omega mass e (files : fs) b t, (forall d n f, files d n = Some f -> f = image n) ->
  oscillator npm spin anti l L N omega mass e files = (Ok b, t) ->
  exists h u, b_arr b F_h = Some h /\ b_arr b F_u = Some u /\ forall E, exact_energy Spatial l (mat h) (ten u) 1 E <-> exists k : nat, (k * (k + 1) < 2 * l)%nat /\ E = omega * (INR k + 1).
Proof. exact plane_electron. Qed.
Print Assumptions C145_oscillator.

(** Two orbitals with energies 0 and 1, all four spin-orbitals occupied: three electrons have
    the energies 2 and 1, one electron 1 and 0. *)
Example C145_instance : exists w' y, set_system_size 0 2 2 lv_w = (Ok tt, w') /\ sys_at w' 0 Spatial 2 2 y lv_basis /\
  b_arr lv_basis F_h = Some lv_h /\ b_arr lv_basis F_u = Some lv_u /\ buffer_ok NoBuffer lv_h lv_u /\
  hermitian 2 (mat lv_h) /\ hermitian2 2 (ten lv_u) /\ particle_sym 2 (ten lv_u) /\
  exact_energy Spatial 2 (mat lv_h) (ten lv_u) 3 2 /\ exact_energy Spatial 2 (mat lv_h) (ten lv_u) 3 1 /\
  exact_energy Spatial 2 (mat lv_h) (ten lv_u) 1 1 /\ exact_energy Spatial 2 (mat lv_h) (ten lv_u) 1 0.
Proof. exact hole_instance. Qed.
Example C145_dot_instance : (exists b, odho 0 false false 3 10 401 1 1 1 0 = (Ok tt, b)) /\
  (exists b t, oscillator 0 false false 3 8 201 1 1 (Setting false 0 true) no_files = (Ok b, t)) /\ (1 * (1 + 1) < 2 * 3)%nat.
Proof.
  split; [|split; [|repeat constructor]].
  - eexists. apply odho_ok; repeat constructor.
  - destruct (plane_oscillator 0 false false 3 8 201 1 1 (Setting false 0 true) no_files ltac:(lra) ltac:(lra) ltac:(discriminate) ltac:(left; reflexivity)) as (b & t & E & _). eauto.
Qed.
