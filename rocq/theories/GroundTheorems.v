(** Ground states. *)
From Coq Require Import List Arith ZArith Reals Lra Lia Bool.
From Coquelicot Require Import Coquelicot.
From Verif Require Import Scalar ScalarC Py Numpy BasisSet Spec OneDimSpec OneDimProofs DotProofs GridSpec GridProofs PositiveForms SpectrumProofs ParitySpec SpectralSpec SpectralProofs Systems SystemFacts.
From Verif Require Import OneDim RaiseTheorems FockSpec FockProofs InnerSpec InnerProofs RaiseSpec RaiseProofs RaiseFock FockSpectrumSpec FockSpectrum.
Import ListNotations.
Open Scope R_scope.
Local Notation S_ := (sumn (K := CC)).
Local Notation state := (FockSpec.state CC).

(** ** The number of states *)
Lemma particles_high l c : (c < 2 ^ l)%nat -> particles (S l) (Nat.testbit (2 ^ l + c)) = S (particles l (Nat.testbit c)).
Proof.
  intros H. cbn [particles]. rewrite (particles_ext l (Nat.testbit (2 ^ l + c)) (Nat.testbit c)).
  - replace (Nat.testbit (2 ^ l + c) l) with true; [lia|]. symmetry. apply Nat.testbit_true. replace (2 ^ l + c)%nat with (c + 1 * 2 ^ l)%nat by lia. rewrite Nat.div_add by (apply Nat.pow_nonzero; lia). rewrite Nat.div_small by exact H. reflexivity.
  - intros p Hp. rewrite <- (Nat.mod_pow2_bits_low (2 ^ l + c) l p Hp). f_equal. replace (2 ^ l + c)%nat with (c + 1 * 2 ^ l)%nat by lia. rewrite Nat.mod_add by (apply Nat.pow_nonzero; lia). apply Nat.mod_small, H.
Qed.
Lemma particles_low l c : (c < 2 ^ l)%nat -> particles (S l) (Nat.testbit c) = particles l (Nat.testbit c).
Proof. intros H. cbn [particles]. rewrite (bits_among l c H l (Nat.le_refl l)). lia. Qed.
Lemma filter_length_ext {A} (f g : A -> bool) xs : (forall x, In x xs -> f x = g x) -> length (filter f xs) = length (filter g xs).
Proof. induction xs as [|x xs IH]; intros H; [reflexivity|]. cbn. rewrite (H x) by (left; reflexivity). destruct (g x); cbn; rewrite IH by (intros; apply H; right; assumption); reflexivity. Qed.
Lemma filter_map_length {A B} (f : B -> bool) (g : A -> B) xs : length (filter f (map g xs)) = length (filter (fun x => f (g x)) xs).
Proof. induction xs as [|x xs IH]; [reflexivity|]. cbn. destruct (f (g x)); cbn; rewrite IH; reflexivity. Qed.
Lemma filter_none {A} (xs : list A) : filter (fun _ => false) xs = [].
Proof. induction xs; [reflexivity | assumption]. Qed.
Lemma choose_0 n : choose n 0 = 1%nat.
Proof. destruct n; reflexivity. Qed.
Lemma seq_from k m : forall s, seq (k + s) m = map (fun c => (k + c)%nat) (seq s m).
Proof. induction m as [|m IHm]; intros s; [reflexivity|]. cbn [seq map]. f_equal. rewrite <- IHm. f_equal. lia. Qed.
Lemma codes_length l : forall N, length (codes l N) = choose l N.
Proof.
  unfold codes. induction l as [|l IH]; intros N; [destruct N; reflexivity|].
  replace (2 ^ S l)%nat with (2 ^ l + 2 ^ l)%nat by (cbn; lia). rewrite seq_app, filter_app, app_length, Nat.add_0_l.
  rewrite (filter_length_ext _ (fun c => particles l (Nat.testbit c) =? N)%nat). 2:{ intros c Hc. apply in_seq in Hc. rewrite particles_low by lia. reflexivity. }
  rewrite IH. pose proof (seq_from (2 ^ l) (2 ^ l) 0) as E. rewrite Nat.add_0_r in E.
  rewrite E, filter_map_length. destruct N as [|N].
  - rewrite (filter_length_ext _ (fun _ => false)). 2:{ intros c Hc. apply in_seq in Hc. rewrite particles_high by lia. reflexivity. }
    rewrite filter_none, !choose_0. reflexivity.
  - rewrite (filter_length_ext _ (fun c => particles l (Nat.testbit c) =? N)%nat). 2:{ intros c Hc. apply in_seq in Hc. rewrite particles_high by lia. reflexivity. }
    rewrite IH. cbn [choose]. lia.
Qed.

(** ** What a spectrum tells *)
Lemma inner_ext_l l (f f' g : state) : (forall o, among l o -> f o = f' o) -> inner l f g = inner l f' g.
Proof. intros E. rewrite <- (inner_conj CC l g f), <- (inner_conj CC l g f'). f_equal. apply inner_ext_among, E. Qed.
Section Spectrum.
  Variables (l N d : nat) (X : state -> state) (E : nat -> R) (Psi : nat -> state).
  Hypothesis XS : symmetric_operator l X.
  Hypothesis XP : forall f, particle_state l N f -> particle_state l N (X f).
  Hypothesis H : spectrum l X N d E Psi.
  Notation c f p := (inner l (Psi p) f).
  Lemma psi_proper p : (p < d)%nat -> proper (Psi p).
  Proof. intros Hp. apply (sp_state _ _ _ _ _ _ H p Hp). Qed.
  Lemma coefficient f p : proper f -> (p < d)%nat -> c (X f) p = (RtoC (E p) * c f p)%C.
  Proof.
    intros Pf Hp. destruct (sp_state _ _ _ _ _ _ H p Hp) as [[Pp _] [_ [_ Ep]]]. rewrite (XS (Psi p) f Pp Pf).
    rewrite (inner_ext_l l (X (Psi p)) (fun o => (RtoC (E p) * Psi p o)%C) f Ep). rewrite <- (inner_conj CC l f (fun o => (RtoC (E p) * Psi p o)%C)).
    pose proof (inner_scal CC l f (RtoC (E p)) (Psi p)) as Q. etransitivity; [apply (f_equal Cconj); exact Q|]. cbn [smul CC]. rewrite C_conj_mul. f_equal; [cring|]. exact (inner_conj CC l f (Psi p)).
  Qed.
  Lemma expand_inner f g : particle_state l N f -> inner l f g = S_ d (fun p => (Cconj (c f p) * c g p)%C).
  Proof.
    intros Hf. rewrite (inner_ext_l l f _ g (sp_complete _ _ _ _ _ _ H f Hf)). rewrite <- (inner_conj CC).
    etransitivity; [apply (f_equal Cconj); exact (inner_sum CC l g d (fun p o => (c f p * Psi p o)%C))|]. etransitivity; [exact (csum_conj d _)|]. apply csum_ext. intros p _.
    pose proof (inner_scal CC l g (c f p) (Psi p)) as Q. etransitivity; [apply (f_equal Cconj); exact Q|]. cbn [smul CC]. rewrite C_conj_mul. f_equal. exact (inner_conj CC l g (Psi p)).
  Qed.
  Lemma conj_square (z : C) : (Cconj z * z)%C = RtoC (Cmod z ^ 2).
  Proof. destruct z as [a b]. unfold Cmod. cbn [fst snd]. replace (sqrt (a ^ 2 + b ^ 2) ^ 2) with (a ^ 2 + b ^ 2); [cring|]. symmetry. apply pow2_sqrt. apply Rplus_le_le_0_compat; apply pow2_ge_0. Qed.
  Lemma expand_norm f : particle_state l N f -> inner l f f = RtoC (rsum d (fun p => Cmod (c f p) ^ 2)).
  Proof. intros Hf. rewrite expand_inner by exact Hf. rewrite <- csum_rsum. apply csum_ext. intros p _. apply conj_square. Qed.
  Lemma expand_energy f : particle_state l N f -> inner l f (X f) = RtoC (rsum d (fun p => E p * Cmod (c f p) ^ 2)).
  Proof.
    intros Hf. rewrite expand_inner by exact Hf. rewrite <- csum_rsum. apply csum_ext. intros p Hp. rewrite (coefficient f p (proj1 Hf) Hp). rewrite RtoC_mult, <- conj_square. cx. ring.
  Qed.
  Lemma ground_lowest : (0 < d)%nat -> energies_above l X N (E 0%nat).
  Proof.
    intros Hd f Hf. rewrite expand_energy, expand_norm by exact Hf. split; [reflexivity|]. cbn [Re RtoC fst]. rewrite <- rsum_scal. apply rsum_le. intros p Hp.
    apply Rmult_le_compat_r; [apply pow2_ge_0|]. apply (sp_ascending _ _ _ _ _ _ H); [lia | exact Hp].
  Qed.
  Lemma all_levels E' f : particle_state l N f -> eigenstate (K := CC) l X E' f -> exists p, (p < d)%nat /\ E' = RtoC (E p).
  Proof.
    intros Hf (Pf & (o & Ao & No) & Ef).
    assert (exists p, (p < d)%nat /\ c f p <> RtoC 0) as (p & Hp & Np).
    { apply Classical_Prop.NNPP. intros Z. apply No. rewrite (sp_complete _ _ _ _ _ _ H f Hf o Ao). apply csum_zero. intros p Hp. replace (c f p) with (RtoC 0); [apply Cmult_0_l|]. symmetry. apply Classical_Prop.NNPP. intros Np. apply Z. exists p. split; assumption. }
    exists p. split; [exact Hp|]. pose proof (coefficient f p Pf Hp) as Q. rewrite (inner_ext_among CC l (Psi p) (X f) (fun o => (E' * f o)%C) Ef) in Q.
    pose proof (inner_scal CC l (Psi p) E' f) as Q'. assert (Z : (E' * c f p)%C = (RtoC (E p) * c f p)%C) by (etransitivity; [symmetry; exact Q' | exact Q]).
    assert (Y : ((E' - RtoC (E p)) * c f p)%C = RtoC 0). { replace ((E' - RtoC (E p)) * c f p)%C with (E' * c f p - RtoC (E p) * c f p)%C by ring. rewrite Z. ring. }
    assert (Y' : (E' - RtoC (E p))%C = RtoC 0) by (apply Classical_Prop.NNPP; intros Ny; exact (Cmult_neq_0 _ _ Ny Np Y)). replace E' with (E' - RtoC (E p) + RtoC (E p))%C by ring. rewrite Y'. apply Cplus_0_l.
  Qed.
  (** A state with the energy of the ground state is one. *)
  Lemma ground_only f : (0 < d)%nat -> particle_state l N f -> Re (inner l f (X f)) = E 0%nat * Re (inner l f f) -> forall o, among l o -> X f o = (RtoC (E 0%nat) * f o)%C.
  Proof.
    intros Hd Hf Q o Ao. rewrite expand_energy, expand_norm in Q by exact Hf. cbn [Re RtoC fst] in Q.
    assert (Z : rsum d (fun p => (E p - E 0%nat) * Cmod (c f p) ^ 2) = 0).
    { rewrite (rsum_ext d _ (fun p => E p * Cmod (c f p) ^ 2 + (- E 0%nat) * Cmod (c f p) ^ 2)) by (intros; ring). rewrite rsum_add, rsum_scal, Q. ring. }
    pose proof (rsum_null d _ (fun p Hp => Rmult_le_pos _ _ (Rge_le _ _ (Rge_minus _ _ (Rle_ge _ _ (sp_ascending _ _ _ _ _ _ H 0 p (Nat.le_0_l p) Hp)))) (pow2_ge_0 _)) Z) as W. cbv beta in W.
    rewrite (sp_complete _ _ _ _ _ _ H (X f) (XP f Hf) o Ao), (sp_complete _ _ _ _ _ _ H f Hf o Ao). rewrite csum_scal. apply csum_ext. intros p Hp. rewrite (coefficient f p (proj1 Hf) Hp).
    destruct (Rmult_integral _ _ (W p Hp)) as [W1|W1]; [replace (E 0%nat) with (E p) by lra; cx; ring|].
    assert (c f p = RtoC 0) as ->; [|cx; ring]. apply Cmod_eq_0. destruct (Req_dec (Cmod (c f p)) 0) as [Y|Y]; [exact Y|]. exfalso. apply (pow_nonzero _ 2) in Y. contradiction.
  Qed.
End Spectrum.
Lemma ground_system (w : world CC) s k N l x (b : basis CC) (h u : arr CC) : sys_at w s k N l x b -> b_arr b F_h = Some h -> b_arr b F_u = Some u ->
  hermitian l (mat h) -> hermitian2 l (ten u) -> (k = General -> antisym_ket l (ten u)) ->
  let n := spin_orbitals k l in let m := electrons k N in let X := many_body k l (mat h) (ten u) in
  exists E Psi, spectrum n X m (choose n m) E Psi /\ (0 < choose n m)%nat /\
    (forall f, particle_state n m f -> inner n f f = RtoC (rsum (choose n m) (fun p => Cmod (inner n (Psi p) f) ^ 2)) /\
       inner n f (X f) = RtoC (rsum (choose n m) (fun p => E p * Cmod (inner n (Psi p) f) ^ 2))) /\
    (forall E' f, particle_state n m f -> eigenstate (K := CC) n X E' f -> exists p, (p < choose n m)%nat /\ E' = RtoC (E p)) /\
    exists e, reference_energy s w = (Ok (RtoC e), w) /\ E 0%nat <= e /\
      (e = E 0%nat -> eigenstate (K := CC) n X (RtoC e) (reference_det k l N)).
Proof.
  intros A Eh Eu Hh Hu Ha n m X. pose proof (many_body_symmetric k l (mat h) (ten u) Hh Hu) as Sy. fold n X in Sy.
  assert (XL : linear CC X) by (destruct k; apply hamiltonian_linear). assert (XP : forall f, particle_state n m f -> particle_state n m (X f)) by (intros f Hf; destruct k; apply hamiltonian_particles, Hf).
  destruct (spectrum_exists n m X XL XP Sy) as (E & Psi & Sp). rewrite codes_length in Sp.
  assert (Hd : (0 < choose n m)%nat). { rewrite <- codes_length. apply d_pos. pose proof (at_le CC _ _ _ _ _ _ _ A). unfold n, m. destruct k; cbn [spin_orbitals electrons]; lia. }
  exists E, Psi. split; [exact Sp|]. split; [exact Hd|]. split; [|split].
  - intros f Hf. split; [apply (expand_norm n m _ X E Psi Sp f Hf) | apply (expand_energy n m _ X E Psi Sy Sp f Hf)].
  - intros E' f Hf He. apply (all_levels n m _ X E Psi Sy Sp E' f Hf He).
  - destruct (reference_trial w s k N l x b h u A Eh Eu Ha) as (P1 & P2 & P3). fold n m X in P1, P2, P3. set (D := reference_det k l N) in *.
    pose proof (expand_energy n m _ X E Psi Sy Sp D P1) as Q. rewrite Q in P3. eexists. split; [exact P3|].
    destruct (ground_lowest n m _ X E Psi Sy Sp Hd D P1) as [_ L]. rewrite Q, P2 in L. cbn [Re RtoC fst] in L. split; [lra|].
    intros Eq. split; [apply P1|]. split.
    + exists (lowest m). unfold D, reference_det. fold n m. split; [apply lowest_among; pose proof (at_le CC _ _ _ _ _ _ _ A); unfold n, m; destruct k; cbn [spin_orbitals electrons]; lia|].
      rewrite (det_self CC). intros Z. apply RtoC_inj in Z. lra.
    + intros o Ao. rewrite Eq. apply (ground_only n m _ X E Psi Sy XP Sp D Hd P1); [|exact Ao]. rewrite Q, P2. cbn [Re RtoC fst]. rewrite Eq. ring.
Qed.
Lemma solver_exists npm spin anti l L N a alpha beta V : (3 <= N)%nat -> (l <= N - 2)%nat ->
  exists eigh b, solves L N V eigh /\ odqd npm spin anti l L N a alpha beta V eigh = (Ok tt, b).
Proof.
  intros H3 Hl. destruct (spectral_real (N - 2) (grid_hamiltonian L N V)) as (e & v & G). { intros i j _ _. apply grid_hamiltonian_sym. }
  exists (fun _ _ => (e, v)). eexists. split; [exact G | apply dot_ok; assumption].
Qed.
