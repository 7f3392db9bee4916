(** Exact energies of the systems: the reference energy, general systems made from spatial ones,
    and the constructors called with more orbitals. *)
From Coq Require Import List Arith ZArith Reals Lra Lia Bool.
From Coquelicot Require Import Coquelicot.
From Verif Require Import Scalar ScalarC Py Numpy BasisSet Spec BasisSpec TransformFacts ChangeProofs SpinProofs OneDim OneDimSpec OneDimProofs LineProofs DotProofs GridSpec GridProofs SpectralSpec SpectralProofs Systems SystemFacts SystemProofs.
From Verif Require Import TwoDim TwoDimProofs Orbitals Coulomb CoulombProofs Cache CacheProofs MatrixProofs TwoDimBasis PlaneProofs DipoleTheorems.
From Verif Require Import FockSpec FockProofs FockSystem InnerSpec InnerProofs RaiseSpec RaiseProofs RaiseFock RaiseTheorems FockSpectrumSpec FockSpectrum GroundTheorems HartreeFockProofs HartreeFockTheorems OrbitalMap OrbitalEnergy VariationalSpec VariationalTheorems.
Import ListNotations.
Open Scope R_scope.
Local Notation state := (FockSpec.state CC).
Local Notation tr2 := (T2 (K := CC)).

(** ** The reference energy in any orbitals *)
Lemma T2_antisym_ket l n (u : nat -> nat -> nat -> nat -> C) A D : antisym_ket (K := CC) l u -> antisym_ket (K := CC) n (tr2 l u A D).
Proof.
  intros H p q r s Hp Hq Hr Hs. rewrite <- (T2_ket_swap CC l u A D p q r s), <- (T2_opp CC). apply (T2_ext CC); [|split; reflexivity|split; reflexivity].
  intros a b c d Ha Hb Hc Hd. apply H; assumption.
Qed.
Lemma variational_reference (w : world CC) s k N l x (b : basis CC) (h u A : arr CC) n : sys_at w s k N l x b -> b_arr b F_h = Some h -> b_arr b F_u = Some u ->
  hermitian l (mat h) -> hermitian2 l (ten u) -> (k = General -> antisym_ket l (ten u)) ->
  spin_mats_ok b l n -> (b_arr b F_spf = None -> b_arr b F_bra = None) ->
  shape A = [l; n] -> (N <= n)%nat -> orthonormal_columns l n (mat A) ->
  exists w' e, sys_change_basis s A None w = (Ok tt, w') /\ reference_energy s w' = (Ok (RtoC e), w') /\
    forall d E Psi, spectrum (spin_orbitals k l) (many_body k l (mat h) (ten u)) (electrons k N) d E Psi -> (0 < d)%nat /\ E 0%nat <= e.
Proof.
  intros At Eh Eu Hh Hu Ha Hsp Hbra HA HN HC.
  destruct (sys_change_basis_ok CC s w k N l x b A None n At HA HA) as (b' & B & G & _). specialize (G HN).
  pose proof (change_basis_sys_at CC s w k N l x b b' A None n At B Hsp Hbra HN) as At'.
  pose proof (bc_h B) as Bh. rewrite Eh in Bh. destruct (b_arr b' F_h) as [h'|] eqn:Eh'; [|destruct Bh].
  pose proof (bc_u B) as Bu. rewrite Eu in Bu. destruct (b_arr b' F_u) as [u'|] eqn:Eu'; [|destruct Bu].
  destruct (default_tilde_spec CC A None l n n HA HA) as [SD GD].
  assert (T1' : forall p q, (p < n)%nat -> (q < n)%nat -> mat h' p q = T1 (K := CC) l (mat h) (mat A) (adj (mat A)) p q).
  { intros p q Hp Hq. etransitivity; [apply (proj2 Bh); assumption|]. apply (T1_ext CC); [reflexivity | reflexivity | intros; rewrite GD; reflexivity]. }
  assert (T2' : forall p q r t, (p < n)%nat -> (q < n)%nat -> (r < n)%nat -> (t < n)%nat -> ten u' p q r t = tr2 l (ten u) (mat A) (adj (mat A)) p q r t).
  { intros p q r t Hp Hq Hr Ht. etransitivity; [apply (proj2 Bu); assumption|]. apply (T2_ext CC); [reflexivity | split; reflexivity | intros; rewrite !GD; split; reflexivity]. }
  assert (Hh' : hermitian n (mat h')). { intros p q Hp Hq. rewrite !T1' by assumption. apply (T1_hermitian CC l n); auto. }
  assert (Hu' : hermitian2 n (ten u')). { intros p q r t Hp Hq Hr Ht. rewrite !T2' by assumption. apply (T2_hermitian CC l n); auto. }
  assert (Ha' : k = General -> antisym_ket n (ten u')). { intros Hk p q r t Hp Hq Hr Ht. rewrite !T2' by assumption. apply (T2_antisym_ket l n); auto. }
  destruct (ground_system _ s k N n _ b' h' u' At' Eh' Eu' Hh' Hu' Ha') as (E' & Psi' & S2 & Hd & _ & _ & e & Ee & Le & _).
  eexists _, e. split; [exact G|]. split; [exact Ee|]. intros d E Psi S1.
  destruct (levels_embed k l n (mat A) (mat h) (ten u) (mat h') (ten u') HC Hh Hu Hh' Hu' T1' T2' _ _ _ E E' Psi Psi' S1 S2 0%nat Hd) as (D0 & L0).
  split; [exact D0|]. lra.
Qed.

(** ** General systems made from spatial ones *)
Lemma spectrum_ext l X X' m d E Psi : (forall f, proper f -> forall o, X f o = X' f o) -> spectrum l X m d E Psi -> spectrum l X' m d E Psi.
Proof.
  intros H [S1 S2 S3 S4]. split; try assumption. intros p Hp. destruct (S1 p Hp) as (P1 & P2 & P3 & P4). split; [exact P1|]. split; [exact P2|]. split; [exact P3|].
  intros o Ao. rewrite <- H by exact P2. apply P4, Ao.
Qed.
Lemma variational_constructed (w : world CC) s (va vb : list CC) N l x (b : basis CC) (ov h u : arr CC) : sys_at w s Spatial N l x b ->
  b_cls b = Base -> orthonormal_pair va vb -> b_spin b = false -> b_asym b = false -> b_arr b F_s = Some ov ->
  (b_arr b F_spf = None -> b_arr b F_bra = None) -> sy_op x = None -> b_arr b F_h = Some h -> b_arr b F_u = Some u ->
  exists w' g (h' u' : arr CC), construct_general s va vb true w = (Ok g, w') /\ sys_get g F_h w' = (Ok (Some h'), w') /\ sys_get g F_u w' = (Ok (Some u'), w') /\
    forall m d E Psi, spectrum (spin_orbitals Spatial l) (many_body Spatial l (mat h) (ten u)) m d E Psi <->
                      spectrum (spin_orbitals General (2 * l)) (many_body General (2 * l) (mat h') (ten u')) m d E Psi.
Proof.
  intros A Hc Hp Hs Ha Eo Hb Ho Eh Eu. destruct (energy_constructed CC s va vb w N l x b ov h u A Hc Hp Hs Ha Eo Hb Ho Eh Eu) as (w' & g & h' & u' & E & Gh & Gu & EQ & _).
  exists w', g, h', u'. do 3 (split; [assumption|]). intros m d En Psi. cbn [spin_orbitals]. split; apply spectrum_ext; intros f Pf o; [symmetry|]; apply (EQ f Pf o).
Qed.

(** ** More orbitals from the constructors *)
Lemma never_raised_of l l' (b b' : basis CC) h u h' u' : (l <= l')%nat -> b_arr b F_h = Some h -> b_arr b F_u = Some u -> b_arr b' F_h = Some h' -> b_arr b' F_u = Some u' ->
  hermitian l' (mat h') -> hermitian2 l' (ten u') ->
  (forall p q, (p < l)%nat -> (q < l)%nat -> mat h p q = mat h' p q) ->
  (forall p q r s, (p < l)%nat -> (q < l)%nat -> (r < l)%nat -> (s < l)%nat -> ten u p q r s = ten u' p q r s) -> never_raised l l' b b'.
Proof.
  intros Hl E1 E2 E3 E4 Hh Hu Gh Gu. exists h, u, h', u'. do 4 (split; [assumption|]). intros m.
  assert (Hh0 : hermitian l (mat h)). { intros p q Hp Hq. rewrite !Gh by assumption. apply Hh; lia. }
  assert (Hu0 : hermitian2 l (ten u)). { intros p q r s Hp Hq Hr Hs. rewrite !Gu by assumption. apply Hu; lia. }
  destruct (spectrum_many Spatial l (mat h) (ten u) m Hh0 Hu0) as (E & Psi & S1). destruct (spectrum_many Spatial l' (mat h') (ten u') m Hh Hu) as (E' & Psi' & S2).
  exists E, Psi, E', Psi'. split; [exact S1|]. split; [exact S2|]. intros p Hp.
  exact (levels_nested Spatial l' l (mat h') (ten u') (mat h) (ten u) Hl Hh Hu Gh Gu m _ _ E' E Psi' Psi S2 S1 p Hp).
Qed.
Lemma diag_hermitian l (h : nat -> nat -> C) (e : nat -> R) : (forall p q, (p < l)%nat -> (q < l)%nat -> h p q = if (p =? q)%nat then RtoC (e p) else RtoC 0) -> hermitian (K := CC) l h.
Proof.
  intros H p q Hp Hq. rewrite !H by assumption. rewrite (Nat.eqb_sym q p). destruct (Nat.eqb_spec p q) as [->|_]; cbn; unfold Cconj, RtoC; cbn; f_equal; ring.
Qed.
Lemma line_more npm spin anti l l' L N omega a alpha beta b b' : (l <= l')%nat ->
  odho npm spin anti l L N omega a alpha beta = (Ok tt, b) -> odho npm spin anti l' L N omega a alpha beta = (Ok tt, b') -> never_raised l l' b b'.
Proof.
  intros Hl E E'. destruct (line_h _ _ _ _ _ _ _ _ _ _ _ E) as (h & Eh & _ & Gh). destruct (line_h _ _ _ _ _ _ _ _ _ _ _ E') as (h' & Eh' & _ & Gh').
  destruct (line_two_body _ _ _ _ _ _ _ _ _ _ _ E') as (u' & Eu' & _ & _ & Hu'). 
  destruct (odho_result _ _ _ _ _ _ _ _ _ _ _ E) as (Eb & _). destruct (odho_result _ _ _ _ _ _ _ _ _ _ _ E') as (Eb' & _).
  assert (Eu : b_arr b F_u = Some (arr4 l Complex128 (orbital_integral (odho_spf L N omega) N (linspace L N) alpha a))) by (rewrite Eb; reflexivity).
  assert (Eu2 : b_arr b' F_u = Some (arr4 l' Complex128 (orbital_integral (odho_spf L N omega) N (linspace L N) alpha a))) by (rewrite Eb'; reflexivity).
  rewrite Eu' in Eu2. injection Eu2 as ->.
  eapply never_raised_of; [exact Hl | exact Eh | exact Eu | exact Eh' | exact Eu' | | exact Hu' | |].
  - apply (diag_hermitian l' (mat h') (fun p => omega * (INR p + 1 / 2))). intros; apply Gh'.
  - intros p q _ _. rewrite Gh, Gh'. reflexivity.
  - reflexivity.
Qed.
Lemma dot_more npm spin anti l l' L N a alpha beta V eigh b b' : (l <= l')%nat ->
  odqd npm spin anti l L N a alpha beta V eigh = (Ok tt, b) -> odqd npm spin anti l' L N a alpha beta V eigh = (Ok tt, b') -> never_raised l l' b b'.
Proof.
  intros Hl E E'. destruct (dot_result _ _ _ _ _ _ _ _ _ _ _ _ E) as (-> & _). destruct (dot_result _ _ _ _ _ _ _ _ _ _ _ _ E') as (-> & _).
  eapply never_raised_of; [exact Hl | reflexivity | reflexivity | reflexivity | reflexivity | | apply u_hermitian | reflexivity | reflexivity].
  apply (diag_hermitian l' _ (odqd_energy L N V eigh)). intros p q _ _. cbn. destruct (p =? q)%nat; reflexivity.
Qed.
Lemma plane_more npm spin anti npm' spin' anti' l l' N N' L L' mass mass' w nm he b b' : (l <= l')%nat -> (forall p q, he p q = he q p) ->
  holds npm spin anti l N L mass w nm he b -> holds npm' spin' anti' l' N' L' mass' w nm he b' -> never_raised l l' b b'.
Proof.
  intros Hl Hs H H'. destruct (ho_h _ _ _ _ _ _ _ _ _ _ _ H) as (h & Eh & _ & Gh). destruct (ho_h _ _ _ _ _ _ _ _ _ _ _ H') as (h' & Eh' & _ & Gh').
  destruct (ho_u _ _ _ _ _ _ _ _ _ _ _ H) as (u & Eu & _ & Gu). destruct (ho_u _ _ _ _ _ _ _ _ _ _ _ H') as (u' & Eu' & _ & Gu').
  eapply never_raised_of; [exact Hl | exact Eh | exact Eu | exact Eh' | exact Eu' | | | |].
  - intros p q _ _. unfold mat. rewrite !Gh', (Hs p q). cbn. unfold Cconj, RtoC. cbn. f_equal. ring.
  - intros p q r s Hp Hq Hr Hs'. unfold ten. rewrite !Gu' by assumption. assert (Ct : coulomb_of nm r s p q = coulomb_of nm p q r s) by exact (coulomb_transpose _ _ _ _ _ _ _ _). rewrite Ct. cbn. unfold Cconj, RtoC. cbn. f_equal. ring.
  - intros p q _ _. unfold mat. rewrite Gh, Gh'. reflexivity.
  - intros p q r s Hp Hq Hr Hs'. unfold ten. rewrite Gu, Gu' by lia. reflexivity.
Qed.
Lemma oscillator_more npm spin anti l l' L N omega mass e e' (files files' : fs) b b' t t' : (l <= l')%nat -> sound files -> sound files' ->
  oscillator npm spin anti l L N omega mass e files = (Ok b, t) -> oscillator npm spin anti l' L N omega mass e' files' = (Ok b', t') -> never_raised l l' b b'.
Proof.
  intros Hl F F' E E'. eapply plane_more; [exact Hl | | exact (oscillator_holds _ _ _ _ _ _ _ _ _ _ _ _ F E) | exact (oscillator_holds _ _ _ _ _ _ _ _ _ _ _ _ F' E')].
  intros p q. unfold oscillator_element. rewrite (Nat.eqb_sym q p). destruct (Nat.eqb_spec p q) as [->|_]; [reflexivity | ring].
Qed.
Lemma double_well_more npm spin anti l l' L N omega mass e e' barrier axis (files files' : fs) b b' t t' : 0 < mass -> 0 < omega -> (l <= l')%nat -> sound files -> sound files' ->
  double_well npm spin anti l L N omega mass e barrier axis files = (Ok b, t) -> double_well npm spin anti l' L N omega mass e' barrier axis files' = (Ok b', t') -> never_raised l l' b b'.
Proof.
  intros Hm Hw Hl F F' E E'. eapply plane_more; [exact Hl | | exact (double_well_holds _ _ _ _ _ _ _ _ _ _ _ _ _ _ F E) | exact (double_well_holds _ _ _ _ _ _ _ _ _ _ _ _ _ _ F' E')].
  intros p q. apply double_well_sym; assumption.
Qed.
