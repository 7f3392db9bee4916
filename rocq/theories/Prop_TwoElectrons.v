(** C149: the lowest energy of two electrons in a two-dimensional trap. *)
From Coq Require Import List Arith ZArith Reals Lra Lia.
From Coquelicot Require Import Coquelicot.
From Verif Require Import Scalar ScalarC Py Numpy BasisSet Spec OneDimSpec GridSpec GridExamples TwoDim FieldProofs Cache CacheExamples Orbitals MatrixProofs TwoDimBasis PlaneProofs DipoleTheorems Systems SystemFacts.
From Verif Require Import FockSpec InnerSpec RaiseSpec FockSpectrumSpec FockSpectrum VariationalTheorems Prop_Symmetry TwoElectrons.
Import ListNotations.
Open Scope R_scope.

Theorem C149_oscillator : forall (w : world CC) s l x (b : basis CC) (h u : arr CC), sys_at w s Spatial 1 l x b -> b_arr b F_h = Some h -> b_arr b F_u = Some u ->
  forall npm spin anti L N omega mass e (files : fs) t, 0 < omega -> (forall d n f, files d n = Some f -> f = image n) ->
  oscillator npm spin anti l L N omega mass e files = (Ok b, t) ->
  forall d E Psi, spectrum (2 * l) (many_body Spatial l (mat h) (ten u)) 2 d E Psi -> 2 * omega <= E O <= 2 * omega + sqrt (PI * omega / 2).
Proof. exact two_electrons. Qed.
Print Assumptions C149_oscillator.
Theorem C149_field : forall (w : world CC) s l x (b : basis CC) (h u : arr CC), sys_at w s Spatial 1 l x b -> b_arr b F_h = Some h -> b_arr b F_u = Some u ->
  forall npm spin anti L N omega_0 mass omega_c, omega_0 <> 0 -> field_oscillator npm spin anti l L N omega_0 mass omega_c = (Ok tt, b) ->
  let omega := sqrt (omega_0 ^ 2 + omega_c ^ 2 / 4) in
  forall d E Psi, spectrum (2 * l) (many_body Spatial l (mat h) (ten u)) 2 d E Psi -> 2 * omega <= E O <= 2 * omega + sqrt (PI * omega / 2).
Proof. exact two_electrons_field. Qed.
Print Assumptions C149_field.

Example C149_instance : exists b t (h u : arr CC), oscillator 0 false false 6 8 201 1 1 (Setting false 0 true) no_files = (Ok b, t) /\
  sys_at (World [b] [dot_system 1] []) 0 Spatial 1 6 (dot_system 1) b /\ b_arr b F_h = Some h /\ b_arr b F_u = Some u /\
  exists E Psi, spectrum (2 * 6) (many_body Spatial 6 (mat h) (ten u)) 2 66 E Psi.
Proof.
  destruct (dot 1 ltac:(lia)) as (b & t & C & A & Nh & Nu). destruct (b_arr b F_h) as [h|] eqn:Eh; [|congruence]. destruct (b_arr b F_u) as [u|] eqn:Eu; [|congruence].
  exists b, t, h, u. do 4 (split; [assumption || reflexivity|]).
  destruct (holds_symmetric _ _ _ _ _ _ _ _ _ _ _ h u (oscillator_holds 0 false false 6 8 201 1 1 (Setting false 0 true) no_files b t ltac:(discriminate) C)) as [Hh Hu]; [|exact Eh | exact Eu|].
  { intros p q. unfold oscillator_element. rewrite (Nat.eqb_sym q p). destruct (Nat.eqb_spec p q) as [->|_]; [reflexivity | ring]. }
  exact (spectrum_many Spatial 6 (mat h) (ten u) 2 Hh Hu).
Qed.
