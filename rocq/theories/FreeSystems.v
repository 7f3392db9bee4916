(** Free electrons in the quantum dots of the library, and repulsion on top. *)
From Coq Require Import List Arith ZArith Reals Lra Lia Bool.
From Coquelicot Require Import Coquelicot.
From Verif Require Import Scalar ScalarC Py Numpy BasisSet Spec OneDimSpec OneDim OneDimProofs LineProofs DotProofs SpectralProofs TwoDim TwoDimProofs Orbitals Cache CacheProofs TwoDimBasis PlaneProofs FieldProofs DipoleTheorems GridSpec GridProofs Systems.
From Verif Require Import KineticSpec FockSpec FockProofs InnerSpec InnerProofs RaiseSpec RaiseProofs RaiseFock RaiseTheorems FockSpectrumSpec FockSpectrum GroundTheorems VariationalSpec VariationalTheorems StrengthSpec StrengthProofs StrengthSystems SharpSpec SharpSystems FreeSpec FreeProofs.
Import ListNotations.
Open Scope R_scope.
Local Notation S_ := (sumn (K := CC)).
Local Notation state := (FockSpec.state CC).
Local Notation inner := (InnerSpec.inner (K := CC)).

Lemma raised_free l h u e : diagonal_energies l h e -> hermitian2 (K := CC) l u -> raising l u ->
  forall m d E Psi, spectrum (2 * l) (many_body Spatial l h u) m d E Psi ->
  exists F, sums_of_levels Spatial l m d e F /\ (forall p q, (p <= q)%nat -> (q < d)%nat -> F p <= F q) /\ forall p, (p < d)%nat -> F p <= E p.
Proof.
  intros D Hu R m d E Psi Sp. set (z := fun _ _ _ _ : nat => RtoC 0). assert (V : vanishing l z) by (intros p q r s _ _ _ _; reflexivity).
  destruct (free_spectrum Spatial l h z e D V m) as (c & Psi0 & En & S0). cbn [spin_orbitals] in En, S0.
  pose proof (free_hermitian l h e D) as Hh. pose proof (free_hermitian2 l z V) as Hz.
  destruct (spectrum_many Spatial l h u m Hh Hu) as (E' & Psi' & S'). destruct (energies_unique Spatial l h u Hh Hu m d _ E E' Psi Psi' Sp S') as [Ed _]. cbn [spin_orbitals] in Ed.
  subst d. exists (fun p => level_sum (2 * l) (spin_energy Spatial e) (c p)). split; [exists c; split; [exact En | reflexivity]|]. split; [exact (sp_ascending _ _ _ _ _ _ S0)|].
  intros p Hp. pose proof (levels_stronger l h z h u m 0 1 1 Rle_0_1 Rle_0_1 Hh Hz Hh Hu (same_least l h)) as G.
  assert (R' : raising l (mix2 1 (- (1)) u z)) by (apply (raising_ext l u); [intros; unfold mix2, z; generalize (u p0 q r s); intros y; apply injective_projections; cbn; ring | exact R]).
  specialize (G R' _ _ _ _ _ _ S0 Sp p Hp). cbv beta in G. lra.
Qed.
Lemma diagonal_self l (h : arr CC) e : diagonal_energies l (mat h) e -> diagonal_energies l (mat h) (diagonal_of h).
Proof. intros D p q Hp Hq. rewrite (D p q Hp Hq). unfold diagonal_of. rewrite (D p p Hp Hp), Nat.eqb_refl. reflexivity. Qed.
Lemma above_of l (b : basis CC) (h u : arr CC) e : b_arr b F_h = Some h -> b_arr b F_u = Some u -> diagonal_energies l (mat h) e -> hermitian2 (K := CC) l (ten u) -> raising l (ten u) -> above_free_electrons l b.
Proof.
  intros Eh Eu D Hu R. exists h, u. split; [exact Eh|]. split; [exact Eu|]. split; [exact (diagonal_self l h e D)|]. exact (raised_free l (mat h) (ten u) _ (diagonal_self l h e D) Hu R).
Qed.
Lemma free_of l (b : basis CC) (h u : arr CC) e : b_arr b F_h = Some h -> b_arr b F_u = Some u -> diagonal_energies l (mat h) e -> vanishing l (ten u) -> free_electrons l b.
Proof.
  intros Eh Eu D V. exists h, u. split; [exact Eh|]. split; [exact Eu|]. split; [exact (diagonal_self l h e D)|]. intros k m d E Psi Sp. exact (free_levels k l _ _ _ (diagonal_self l h e D) V m d E Psi Sp).
Qed.

(** ** One dimension *)
Lemma no_charge (spf : nat -> nat -> C) N (grid : nat -> R) a p q r s : orbital_integral spf N grid 0 a p q r s = RtoC 0.
Proof.
  rewrite u_sums. apply csum_zero. intros i _. apply csum_zero. intros j _. unfold shielded_coulomb, Rdiv. generalize (/ sqrt ((grid i - grid j) ^ 2 + a ^ 2)). intros v. cring.
Qed.
Lemma line_above npm spin anti l L N omega a alpha beta b : odho npm spin anti l L N omega a alpha beta = (Ok tt, b) -> 0 <= alpha -> a <> 0 -> above_free_electrons l b.
Proof.
  intros E Ha Hs. destruct (line_h _ _ _ _ _ _ _ _ _ _ _ E) as (h & Eh & _ & Gh). destruct (line_raising _ _ _ _ _ _ _ _ _ _ _ E Ha Hs) as (u & Eu & _ & R).
  destruct (line_conserved _ _ _ _ _ _ _ _ _ _ _ E) as (h' & u' & _ & Eu' & _ & Hu & _). rewrite Eu in Eu'. injection Eu' as <-.
  apply (above_of l b h u (fun p => omega * (INR p + 1 / 2)) Eh Eu); [intros p q _ _; apply Gh | exact Hu | exact R].
Qed.
Lemma line_free npm spin anti l L N omega a beta b : odho npm spin anti l L N omega a 0 beta = (Ok tt, b) -> free_electrons l b.
Proof.
  intros E. destruct (line_h _ _ _ _ _ _ _ _ _ _ _ E) as (h & Eh & _ & Gh). destruct (odho_result _ _ _ _ _ _ _ _ _ _ _ E) as (Eb & _).
  apply (free_of l b h (arr4 l Complex128 (orbital_integral (odho_spf L N omega) N (linspace L N) 0 a)) (fun p => omega * (INR p + 1 / 2)) Eh); [rewrite Eb; reflexivity | intros p q _ _; apply Gh | intros p q r s _ _ _ _; apply no_charge].
Qed.
Lemma dot_above npm spin anti l L N a alpha beta V eigh b : odqd npm spin anti l L N a alpha beta V eigh = (Ok tt, b) -> 0 <= alpha -> a <> 0 -> above_free_electrons l b.
Proof.
  intros E Ha Hs. destruct (dot_raising _ _ _ _ _ _ _ _ _ _ _ _ E Ha Hs) as (u & Eu & _ & R). destruct (dot_result _ _ _ _ _ _ _ _ _ _ _ _ E) as (-> & _). injection Eu as <-.
  eapply (above_of l _ _ _ (odqd_energy L N V eigh)); [reflexivity | reflexivity | intros p q _ _; cbn; destruct (p =? q)%nat; reflexivity | apply u_hermitian | exact R].
Qed.
Lemma dot_free npm spin anti l L N a beta V eigh b : odqd npm spin anti l L N a 0 beta V eigh = (Ok tt, b) -> free_electrons l b.
Proof.
  intros E. destruct (dot_result _ _ _ _ _ _ _ _ _ _ _ _ E) as (-> & _).
  eapply (free_of l _ _ _ (odqd_energy L N V eigh)); [reflexivity | reflexivity | intros p q _ _; cbn; destruct (p =? q)%nat; reflexivity | intros p q r s _ _ _ _; apply no_charge].
Qed.
(** ** Two dimensions *)
Lemma plane_above npm spin anti l N L mass w nm he (b : basis CC) t e : holds npm spin anti l N L mass w nm he b -> conserved l b t ->
  (exists h, b_arr b F_h = Some h /\ diagonal_energies l (mat h) e) -> above_free_electrons l b.
Proof.
  intros H (h & u & Eh & Eu & _ & Hu & _) (h' & Eh' & D). rewrite Eh in Eh'. injection Eh' as <-. destruct (holds_raising _ _ _ _ _ _ _ _ _ _ _ H) as (u' & Eu' & _ & R). rewrite Eu in Eu'. injection Eu' as <-.
  exact (above_of l b h u e Eh Eu D Hu R).
Qed.
Lemma oscillator_above npm spin anti l L N omega mass e (files : fs) b t : sound files -> oscillator npm spin anti l L N omega mass e files = (Ok b, t) -> 0 < omega -> above_free_electrons l b.
Proof.
  intros Hf E Hw. destruct (oscillator_levels _ _ _ _ _ _ _ _ _ _ _ _ Hf E Hw) as (h & Eh & _ & D & _).
  exact (plane_above _ _ _ _ _ _ _ _ _ _ _ _ _ (oscillator_holds _ _ _ _ _ _ _ _ _ _ _ _ Hf E) (oscillator_conserved _ _ _ _ _ _ _ _ _ _ _ _ Hf E) (ex_intro _ h (conj Eh D))).
Qed.
Lemma field_above npm spin anti l L N omega_0 mass omega_c rows b : omega_0 <> 0 -> field_states l omega_0 omega_c = Ok rows -> field_oscillator npm spin anti l L N omega_0 mass omega_c = (Ok tt, b) -> above_free_electrons l b.
Proof.
  intros H0 F E. destruct (field_levels _ _ _ _ _ _ _ _ _ _ _ H0 F E) as (h & Eh & _ & D & _).
  exact (plane_above _ _ _ _ _ _ _ _ _ _ _ _ _ (field_holds _ _ _ _ _ _ _ _ _ _ _ F E) (field_conserved _ _ _ _ _ _ _ _ _ _ _ F E) (ex_intro _ h (conj Eh D))).
Qed.

(** ** The lowest energy and the ladder of the oscillator *)
Lemma level_occupied n e o : level_sum n e o = occupied n e o.
Proof. unfold occupied. induction n as [|n IH]; [reflexivity|]. cbn. rewrite IH. reflexivity. Qed.
Lemma level_lowest n e : forall m, (m <= n)%nat -> level_sum n e (lowest m) = rsum m e.
Proof.
  induction n as [|n IH]; intros m Hm; [replace m with O by lia; reflexivity|]. cbn [level_sum]. change (lowest m n) with (n <? m)%nat. destruct (Nat.ltb_spec n m) as [L|L].
  - replace m with (Datatypes.S n) by lia. cbn. f_equal. rewrite <- (IH n (le_n n)). apply level_sum_ext. intros p Hp. unfold lowest. rewrite !(proj2 (Nat.ltb_lt _ _)) by lia. reflexivity.
  - rewrite (IH m L). ring.
Qed.
Lemma free_ground k l h u e : diagonal_levels l h e -> vanishing l u -> forall m d E Psi, (m <= spin_orbitals k l)%nat -> spectrum (spin_orbitals k l) (many_body k l h u) m d E Psi -> E O = rsum m (spin_energy k e).
Proof.
  intros [D A] V m d E Psi Hm Sp. destruct (free_levels k l h u e D V m d E Psi Sp) as (Ed & c & (C1 & _ & C3) & G).
  pose proof (choose_pos _ _ Hm) as Hd. rewrite <- Ed in Hd. assert (Sa : forall p q, (p <= q)%nat -> (q < spin_orbitals k l)%nat -> spin_energy k e p <= spin_energy k e q).
  { intros p q Hp Hq. destruct k; cbn [spin_energy spin_orbitals] in *; [apply A; assumption|]. apply A; [apply Nat.div_le_mono; [discriminate | exact Hp] | apply Nat.div_lt_upper_bound; lia]. }
  apply Rle_antisym.
  - destruct (C3 (lowest m)) as (p & Hp & Ep); [intros p Hp; apply Nat.ltb_ge; lia | apply lowest_particles, Hm|]. rewrite <- (level_lowest (spin_orbitals k l) (spin_energy k e) m Hm).
    rewrite <- (level_sum_ext _ _ (c p) (lowest m)) by (intros; apply Ep). rewrite <- (G p Hp). apply (sp_ascending _ _ _ _ _ _ Sp); [lia | exact Hp].
  - rewrite (G O Hd), level_occupied. destruct (C1 O Hd) as [_ <-]. apply occupied_above. exact Sa.
Qed.
Lemma ladder_sum n omega o : exists K : nat, level_sum n (fun P => omega * (INR (P / 2) + 1 / 2)) o = omega * (INR K + INR (particles n o) / 2).
Proof.
  induction n as [|n (K & IH)]; [exists O; cbn; field|]. cbn [level_sum particles]. rewrite IH. destruct (o n); [exists (K + n / 2)%nat | exists K]; rewrite !plus_INR; cbn [INR]; field.
Qed.
Lemma line_ladder npm spin anti l L N omega a beta b : odho npm spin anti l L N omega a 0 beta = (Ok tt, b) -> 0 <= omega ->
  exists h u, b_arr b F_h = Some h /\ b_arr b F_u = Some u /\ forall m d E Psi, (m <= 2 * l)%nat -> spectrum (2 * l) (many_body Spatial l (mat h) (ten u)) m d E Psi ->
  (forall p, (p < d)%nat -> exists K : nat, E p = omega * (INR K + INR m / 2)) /\ (forall n, m = (2 * n)%nat -> E O = omega * INR n ^ 2).
Proof.
  intros E Hw. destruct (line_levels _ _ _ _ _ _ _ _ _ _ _ E Hw) as (h & Eh & _ & D). destruct (odho_result _ _ _ _ _ _ _ _ _ _ _ E) as (Eb & _).
  exists h. eexists. split; [exact Eh|]. split; [rewrite Eb; reflexivity|]. intros m d En Psi Hm Sp.
  assert (V : vanishing l (ten (arr4 l Complex128 (orbital_integral (odho_spf L N omega) N (linspace L N) 0 a)))) by (intros p q r s _ _ _ _; apply no_charge). split.
  - intros p Hp. destruct (free_levels Spatial l _ _ _ (proj1 D) V m d En Psi Sp) as (_ & c & (C1 & _) & G). rewrite (G p Hp). destruct (C1 p Hp) as [_ <-]. apply ladder_sum.
  - intros n ->. rewrite (free_ground Spatial l _ _ _ D V _ d En Psi Hm Sp), <- line_sum. clear. induction n as [|n IH]; [cbn; ring|].
    replace (2 * Datatypes.S n)%nat with (Datatypes.S (Datatypes.S (2 * n))) by lia. cbn [rsum]. rewrite IH. unfold spin_energy.
    assert (A0 : (2 * n / 2)%nat = n) by (symmetry; apply (Nat.div_unique (2 * n) 2 n 0)%nat; lia). assert (A1 : (Datatypes.S (2 * n) / 2)%nat = n) by (symmetry; apply (Nat.div_unique (Datatypes.S (2 * n)) 2 n 1)%nat; lia).
    rewrite A0, A1. ring.
Qed.
