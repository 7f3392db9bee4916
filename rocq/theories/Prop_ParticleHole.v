(** C146: holes are particles. *)
From Coq Require Import List Arith ZArith Reals Lra Lia.
From Coquelicot Require Import Coquelicot.
From Verif Require Import Scalar ScalarC Py Numpy BasisSet Spec EnergySpec EnergyFacts Systems SystemFacts RotationExamples FockSpec InnerSpec RaiseSpec HoleSpec HoleSystems HoleExamples FullTheorems ParticleHole ParticleHoleSystems ParticleHoleExamples.
Import ListNotations.
Open Scope R_scope.

(** The exact energies with m electrons missing are the reference energy of the full basis
    set plus the exact energies of m electrons with elements -f and u, f the Fock matrix. *)
Theorem C146_holes : forall (w : world CC) s k l x (b : basis CC) (h u : arr CC) f, sys_at w s k l l x b ->
  b_arr b F_h = Some h -> b_arr b F_u = Some u -> buffer_ok f h u ->
  hermitian (K := CC) l (mat h) -> hermitian2 (K := CC) l (ten u) -> (k = General -> antisym_ket (K := CC) l (ten u)) -> particle_sym (K := CC) l (ten u) ->
  exists (e : R) F, reference_energy s w = (Ok (RtoC e), w) /\ fock_matrix s h u f w = (Ok F, w) /\
    forall m E, (m <= spin_orbitals k l)%nat ->
      exact_energy k l (mat h) (ten u) (spin_orbitals k l - m) E <-> exact_energy k l (fun p q => Copp (mat F p q)) (ten u) m (E - e).
Proof. exact swap_system. Qed.
Print Assumptions C146_holes.

(** With every orbital occupied the reference energy is the only exact energy. *)
Theorem C146_full : forall (w : world CC) s k l x (b : basis CC) (h u : arr CC), sys_at w s k l l x b -> b_arr b F_h = Some h -> b_arr b F_u = Some u ->
  (k = General -> antisym_ket (K := CC) l (ten u)) ->
  exists e : C, reference_energy s w = (Ok e, w) /\ forall E, exact_energy k l (mat h) (ten u) (spin_orbitals k l) E <-> RtoC E = e.
Proof. exact full_system. Qed.
Print Assumptions C146_full.

(** More electrons than spin-orbitals have no state. *)
Theorem C146_none : forall k l h u m E, (spin_orbitals k l < m)%nat -> ~ exact_energy k l h u m E.
Proof. exact overfull. Qed.
Print Assumptions C146_none.

(** The hypotheses hold for the two-level example with all four spin-orbitals occupied. *)
Example C146_instance : exists w' y, set_system_size 0 2 2 lv_w = (Ok tt, w') /\ sys_at w' 0 Spatial 2 2 y lv_basis /\
  b_arr lv_basis F_h = Some lv_h /\ b_arr lv_basis F_u = Some lv_u /\ buffer_ok NoBuffer lv_h lv_u /\
  hermitian 2 (mat lv_h) /\ hermitian2 2 (ten lv_u) /\ particle_sym 2 (ten lv_u) /\
  exact_energy Spatial 2 (mat lv_h) (ten lv_u) 4 2 /\ exact_energy Spatial 2 (mat lv_h) (ten lv_u) 3 1.
Proof.
  destruct hole_instance as (w' & y & H1 & H2 & H3 & H4 & H5 & H6 & H7 & H8 & _ & H9 & _). exists w', y.
  repeat (split; [assumption|]). split; [exact full_levels | exact H9].
Qed.
(** One orbital with energy 1 and repulsion 3: two electrons have energy 5, one has 1 = 5 - 4. *)
Example C146_repulsion_instance : exact_energy Spatial 1 (fun _ _ => RtoC 1) (fun _ _ _ _ => RtoC 3) 2 5 /\
  exact_energy Spatial 1 (fun _ _ => RtoC 1) (fun _ _ _ _ => RtoC 3) 1 1 /\
  exact_energy Spatial 1 (fun p q => Copp (fock_full Spatial 1 (fun _ _ => RtoC 1) (fun _ _ _ _ => RtoC 3) p q)) (fun _ _ _ _ => RtoC 3) 1 (1 - 5).
Proof. exact (conj one_orbital_full (conj (proj1 one_orbital_hole) (proj1 (proj2 one_orbital_hole)))). Qed.
