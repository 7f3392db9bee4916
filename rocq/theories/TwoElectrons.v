(** The energies of two electrons in the two-dimensional traps. *)
From Coq Require Import List Arith ZArith Reals Lra Lia Bool.
From Coquelicot Require Import Coquelicot.
From Verif Require Import Scalar ScalarC Py Numpy BasisSet Spec OneDimSpec DotProofs GridSpec GridProofs EnergyFacts SystemFacts Systems.
From Verif Require Import TwoDim TwoDimProofs FieldProofs Orbitals Coulomb CoulombProofs Cache CacheProofs MatrixProofs TwoDimBasis PlaneProofs DipoleTheorems SymmetryTheorems.
From Verif Require Import PairTheorems SymmetryProofs FockSpec InnerSpec RaiseSpec RaiseFock RaiseTheorems FockSpectrumSpec FockSpectrum GroundTheorems.
Import ListNotations.
Open Scope R_scope.

Lemma holds_symmetric npm spin anti l N L mass w nm he (b : basis CC) (h u : arr CC) : holds npm spin anti l N L mass w nm he b -> (forall p q, he p q = he q p) ->
  b_arr b F_h = Some h -> b_arr b F_u = Some u -> hermitian (K := CC) l (mat h) /\ hermitian2 (K := CC) l (ten u).
Proof.
  intros H Sy Eh Eu. destruct (ho_h _ _ _ _ _ _ _ _ _ _ _ H) as (h' & Eh' & _ & Gh). rewrite Eh in Eh'. injection Eh' as <-.
  destruct (ho_u _ _ _ _ _ _ _ _ _ _ _ H) as (u' & Eu' & _ & Gu). rewrite Eu in Eu'. injection Eu' as <-. split.
  - intros p q _ _. unfold mat. rewrite !Gh, (Sy q p). cbn. unfold Cconj, RtoC. cbn. f_equal. ring.
  - intros p q r s Hp Hq Hr Hs. unfold ten. rewrite !Gu by assumption. assert (Ct : coulomb_of nm r s p q = coulomb_of nm p q r s) by exact (coulomb_transpose _ _ _ _ _ _ _ _).
    rewrite Ct. cbn. unfold Cconj, RtoC. cbn. f_equal. ring.
Qed.
(** A lower bound and the reference energy enclose the lowest energy. *)
Lemma enclosed (w : world CC) s N l x (b : basis CC) (h u : arr CC) E0 e d E Psi : sys_at w s Spatial N l x b -> b_arr b F_h = Some h -> b_arr b F_u = Some u ->
  hermitian (K := CC) l (mat h) -> hermitian2 (K := CC) l (ten u) -> energies_above (2 * l) (many_body Spatial l (mat h) (ten u)) (2 * N) E0 ->
  reference_energy s w = (Ok (RtoC e), w) -> spectrum (2 * l) (many_body Spatial l (mat h) (ten u)) (2 * N) d E Psi ->
  E0 <= E O <= e.
Proof.
  intros A Eh Eu Hh Hu Ab R Sp. pose proof (many_body_symmetric Spatial l (mat h) (ten u) Hh Hu) as Sy. cbn [spin_orbitals] in Sy.
  destruct (reference_trial w s Spatial N l x b h u A Eh Eu ltac:(discriminate)) as (P1 & P2 & P3). cbn [spin_orbitals electrons] in P1, P2, P3. set (D := reference_det Spatial l N) in *.
  assert (V : inner (2 * l) D (many_body Spatial l (mat h) (ten u) D) = RtoC e) by congruence.
  assert (Hd : (0 < d)%nat).
  { destruct d; [|lia]. exfalso. pose proof (expand_norm _ _ _ _ _ _ Sp D P1) as Z. rewrite P2 in Z. apply (f_equal fst) in Z. cbn in Z. lra. }
  split.
  - destruct (sp_state _ _ _ _ _ _ Sp O Hd) as [S1 S2]. destruct (above_eigen _ _ _ _ _ _ Ab S1 S2) as [_ Q]. exact Q.
  - destruct (ground_lowest _ _ _ _ _ _ Sy Sp Hd D P1) as [_ Q]. rewrite P2, V in Q. cbn [Re RtoC fst] in Q. lra.
Qed.
Lemma two_electrons (w : world CC) s l x (b : basis CC) (h u : arr CC) : sys_at w s Spatial 1 l x b -> b_arr b F_h = Some h -> b_arr b F_u = Some u ->
  forall npm spin anti L N omega mass e (files : fs) t, 0 < omega -> (forall d n f, files d n = Some f -> f = image n) ->
  oscillator npm spin anti l L N omega mass e files = (Ok b, t) ->
  forall d E Psi, spectrum (2 * l) (many_body Spatial l (mat h) (ten u)) 2 d E Psi -> 2 * omega <= E O <= 2 * omega + sqrt (PI * omega / 2).
Proof.
  intros A Eh Eu npm spin anti L N omega mass e files t Hw Hf C d E Psi Sp. pose proof (at_le _ _ _ _ _ _ _ _ A) as Hl. pose proof (oscillator_holds _ _ _ _ _ _ _ _ _ _ _ _ Hf C) as H.
  destruct (holds_symmetric _ _ _ _ _ _ _ _ _ _ _ h u H) as [Hh Hu]; [|exact Eh | exact Eu|].
  { intros p q. unfold oscillator_element. rewrite (Nat.eqb_sym q p). destruct (Nat.eqb_spec p q) as [->|_]; [reflexivity | ring]. }
  destruct (oscillator_bound _ _ _ _ _ _ _ _ _ _ _ _ Hf C Hw) as (h' & u' & Eh' & Eu' & B). rewrite Eh in Eh'. injection Eh' as <-. rewrite Eu in Eu'. injection Eu' as <-.
  refine (enclosed w s 1 l x b h u (2 * omega) _ d E Psi A Eh Eu Hh Hu _ (oscillator_ground _ _ _ _ _ _ _ _ A Eh Eu _ _ _ _ _ _ _ _ _ _ Hw Hf C eq_refl) Sp).
  specialize (B 1%nat Hl). destruct (ho_h _ _ _ _ _ _ _ _ _ _ _ H) as (h' & Eh' & _ & Gh). rewrite Eh in Eh'. injection Eh' as <-.
  replace (2 * omega) with (2 * rsum 1 (fun p => Re (mat h p p))); [exact B|]. cbn [rsum]. unfold mat. rewrite Gh. cbn [Re RtoC fst]. unfold oscillator_element. change (shell_state 0) with (0, 0)%Z. cbn. ring.
Qed.
Lemma two_electrons_field (w : world CC) s l x (b : basis CC) (h u : arr CC) : sys_at w s Spatial 1 l x b -> b_arr b F_h = Some h -> b_arr b F_u = Some u ->
  forall npm spin anti L N omega_0 mass omega_c, omega_0 <> 0 -> field_oscillator npm spin anti l L N omega_0 mass omega_c = (Ok tt, b) ->
  let omega := sqrt (omega_0 ^ 2 + omega_c ^ 2 / 4) in
  forall d E Psi, spectrum (2 * l) (many_body Spatial l (mat h) (ten u)) 2 d E Psi -> 2 * omega <= E O <= 2 * omega + sqrt (PI * omega / 2).
Proof.
  intros A Eh Eu npm spin anti L N omega_0 mass omega_c H0 C omega d E Psi Sp. pose proof (at_le _ _ _ _ _ _ _ _ A) as Hl.
  destruct (field_states l omega_0 omega_c) as [rows|y] eqn:F. 2:{ apply (field_raises npm spin anti l L N omega_0 mass omega_c y) in F. rewrite C in F. discriminate F. }
  pose proof (field_holds _ _ _ _ _ _ _ _ _ _ _ F C) as H.
  destruct (holds_symmetric _ _ _ _ _ _ _ _ _ _ _ h u H) as [Hh Hu]; [|exact Eh | exact Eu|].
  { intros p q. unfold field_element. rewrite (Nat.eqb_sym q p). destruct (Nat.eqb_spec p q) as [->|_]; reflexivity. }
  destruct (field_bound _ _ _ _ _ _ _ _ _ _ H0 C) as (h' & u' & Eh' & Eu' & B). rewrite Eh in Eh'. injection Eh' as <-. rewrite Eu in Eu'. injection Eu' as <-.
  refine (enclosed w s 1 l x b h u (2 * omega) _ d E Psi A Eh Eu Hh Hu _ (field_ground _ _ _ _ _ _ _ _ A Eh Eu _ _ _ _ _ _ _ _ _ H0 F C eq_refl) Sp).
  specialize (B 1%nat Hl). destruct (ho_h _ _ _ _ _ _ _ _ _ _ _ H) as (h' & Eh' & _ & Gh). rewrite Eh in Eh'. injection Eh' as <-.
  replace (2 * omega) with (2 * rsum 1 (fun p => Re (mat h p p))); [exact B|]. cbn [rsum]. unfold mat. rewrite Gh. cbn [Re RtoC fst].
  unfold field_element. cbn [Nat.eqb]. rewrite (field_first _ omega_0 omega_c rows H0 F Hl). unfold shell_energy_B. cbn [fst snd]. change (2 * 0 + Z.abs 0 + 1)%Z with 1%Z. fold omega. field.
Qed.
