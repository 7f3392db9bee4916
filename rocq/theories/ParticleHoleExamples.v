(** Holes in the two-level example and in a single orbital with repulsion. *)
From Coq Require Import List Arith ZArith Reals Lra Lia.
From Coquelicot Require Import Coquelicot.
From Verif Require Import Scalar ScalarC Py Numpy BasisSet Spec EnergySpec EnergyFacts Systems SystemFacts RotationExamples KoopmansProofs FockSpec InnerSpec RaiseSpec HoleSpec HoleSystems ElectronProofs HoleExamples FullTheorems ParticleHole ParticleHoleSystems.
Import ListNotations.
Open Scope R_scope.

Lemma full_levels : exact_energy Spatial 2 (mat lv_h) (ten lv_u) 4 2.
Proof. apply (full_kind Spatial 2); [discriminate|]. apply injective_projections; cbn; ring. Qed.
Lemma one_orbital_full : exact_energy Spatial 1 (fun _ _ => RtoC 1) (fun _ _ _ _ => RtoC 3) 2 5.
Proof. apply (full_kind Spatial 1); [discriminate|]. apply injective_projections; cbn; ring. Qed.
Lemma one_orbital_hole : exact_energy Spatial 1 (fun _ _ => RtoC 1) (fun _ _ _ _ => RtoC 3) 1 1 /\
  exact_energy Spatial 1 (fun p q => Copp (fock_full Spatial 1 (fun _ _ => RtoC 1) (fun _ _ _ _ => RtoC 3) p q)) (fun _ _ _ _ => RtoC 3) 1 (1 - 5) /\
  fock_full Spatial 1 (fun _ _ => RtoC 1) (fun _ _ _ _ => RtoC 3) 0 0 = RtoC 4.
Proof.
  assert (X : exact_energy Spatial 1 (fun _ _ => RtoC 1) (fun _ _ _ _ => RtoC 3) 1 1).
  { apply electron_kind. exists (fun _ => RtoC 1). split; [exists 0%nat; split; [lia|]; intros Z; apply (f_equal fst) in Z; cbn in Z; lra|].
    intros p _. apply injective_projections; cbn; ring. }
  split; [exact X|]. split.
  - assert (C : forall z : R, RtoC z = Cconj (RtoC z)) by (intros; apply injective_projections; cbn; ring).
    pose proof (swap_kind Spatial 1 (fun _ _ => RtoC 1) (fun _ _ _ _ => RtoC 3) 1 1 ltac:(cbn; lia) ltac:(intros ? ? _ _; apply C)
      ltac:(intros ? ? ? ? _ _ _ _; apply C) ltac:(discriminate) ltac:(intros ? ? ? ? _ _ _ _; reflexivity)) as Y.
    replace (Re (energy_full Spatial 1 (fun _ _ => RtoC 1) (fun _ _ _ _ => RtoC 3))) with 5 in Y by (cbn; ring). apply Y. exact X.
  - apply injective_projections; cbn; ring.
Qed.
