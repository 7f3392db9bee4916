(** C148: Fock matrix elements bound the energies with one electron less and one more. *)
From Coq Require Import List Arith ZArith Reals Lra Lia.
From Coquelicot Require Import Coquelicot.
From Verif Require Import Scalar ScalarC Py Numpy BasisSet Spec OneDimSpec EnergySpec EnergyFacts Systems SystemFacts RotationExamples KoopmansProofs FockSpec InnerSpec RaiseSpec RaiseTheorems FockSpectrumSpec FockSpectrum VariationalTheorems IonizationProofs.
Import ListNotations.
Open Scope R_scope.

Theorem C148_bounds : forall (w : world CC) s k N l x (b : basis CC) (h u : arr CC) f, sys_at w s k N l x b -> b_arr b F_h = Some h -> b_arr b F_u = Some u -> buffer_ok f h u ->
  hermitian l (mat h) -> hermitian2 l (ten u) -> particle_sym l (ten u) -> (k = General -> antisym_ket l (ten u)) ->
  let n := spin_orbitals k l in let m := electrons k N in let X := many_body k l (mat h) (ten u) in
  exists (e : R) F, reference_energy s w = (Ok (RtoC e), w) /\ fock_matrix s h u f w = (Ok F, w) /\
    (forall i d E Psi, (i < N)%nat -> spectrum n X (m - 1) d E Psi -> E O <= e - Re (mat F i i)) /\
    (forall a d E Psi, (N <= a < l)%nat -> spectrum n X (m + 1) d E Psi -> E O <= e + Re (mat F a a)).
Proof. exact ionization. Qed.
Print Assumptions C148_bounds.

Example C148_instance : sys_at lv_w 0 Spatial 1 2 lv_sys lv_basis /\ b_arr lv_basis F_h = Some lv_h /\ b_arr lv_basis F_u = Some lv_u /\
  buffer_ok NoBuffer lv_h lv_u /\ hermitian 2 (mat lv_h) /\ hermitian2 2 (ten lv_u) /\ particle_sym 2 (ten lv_u) /\ (0 < 1)%nat /\ (1 <= 1 < 2)%nat /\
  (exists E Psi, spectrum 4 (many_body Spatial 2 (mat lv_h) (ten lv_u)) 1 4 E Psi) /\
  (exists E Psi, spectrum 4 (many_body Spatial 2 (mat lv_h) (ten lv_u)) 3 4 E Psi).
Proof.
  split; [exact lv_at|]. split; [reflexivity|]. split; [reflexivity|]. split; [reflexivity|]. split; [exact lv_hermitian|]. split; [exact lv_hermitian2|].
  split; [exact lv_particle|]. split; [lia|]. split; [lia|].
  split; [exact (spectrum_many Spatial 2 (mat lv_h) (ten lv_u) 1 lv_hermitian lv_hermitian2) | exact (spectrum_many Spatial 2 (mat lv_h) (ten lv_u) 3 lv_hermitian lv_hermitian2)].
Qed.
