(** C147: how far a mean energy is from the exact ones. *)
From Coq Require Import List Arith ZArith Reals Lra Lia.
From Coquelicot Require Import Coquelicot.
From Verif Require Import Scalar ScalarC Py Numpy BasisSet Spec OneDimSpec EnergySpec EnergyFacts Systems SystemFacts RotationExamples KoopmansProofs FockSpec InnerSpec RaiseSpec RaiseTheorems FockSpectrumSpec FockSpectrum VariationalTheorems ResidualSpec ResidualProofs.
Import ListNotations.
Open Scope R_scope.

(** Some exact energy is within the norm of H Phi - e Phi of the reference energy e, Phi the
    reference determinant; and the lowest exact energy E 0 is at least e minus the square of that
    norm over the distance from e to the next level E 1. *)
Theorem C147_reference : forall (w : world CC) s k N l x (b : basis CC) (h u : arr CC), sys_at w s k N l x b -> b_arr b F_h = Some h -> b_arr b F_u = Some u ->
  hermitian l (mat h) -> hermitian2 l (ten u) -> (k = General -> antisym_ket l (ten u)) ->
  let n := spin_orbitals k l in let m := electrons k N in let X := many_body k l (mat h) (ten u) in let D := reference_det k l N in
  exists e, reference_energy s w = (Ok (RtoC e), w) /\
    forall d E Psi, spectrum n X m d E Psi ->
      (exists p, (p < d)%nat /\ (E p - e) ^ 2 <= Re (inner n (residual X e D) (residual X e D))) /\
      ((1 < d)%nat -> (e - E 0%nat) * (E 1%nat - e) <= Re (inner n (residual X e D) (residual X e D))).
Proof. exact residual_system. Qed.
Print Assumptions C147_reference.

(** The same for every state of m electrons and every energy x *)
Theorem C147_states : forall k l h u m d E Psi (f : state CC) x, hermitian (K := CC) l h -> hermitian2 (K := CC) l u ->
  let n := spin_orbitals k l in let X := many_body k l h u in
  spectrum n X m d E Psi -> particle_state n m f -> 0 < Re (inner n f f) ->
  exists p, (p < d)%nat /\ (E p - x) ^ 2 * Re (inner n f f) <= Re (inner n (residual X x f) (residual X x f)).
Proof. exact residual_states. Qed.
Print Assumptions C147_states.

Example C147_instance : sys_at lv_w 0 Spatial 1 2 lv_sys lv_basis /\ b_arr lv_basis F_h = Some lv_h /\ b_arr lv_basis F_u = Some lv_u /\
  hermitian 2 (mat lv_h) /\ hermitian2 2 (ten lv_u) /\
  exists E Psi, spectrum 4 (many_body Spatial 2 (mat lv_h) (ten lv_u)) 2 6 E Psi.
Proof.
  split; [exact lv_at|]. split; [reflexivity|]. split; [reflexivity|]. split; [exact lv_hermitian|]. split; [exact lv_hermitian2|].
  exact (spectrum_many Spatial 2 (mat lv_h) (ten lv_u) 2 lv_hermitian lv_hermitian2).
Qed.
