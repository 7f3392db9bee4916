(** How far mean energies are from exact ones. *)
From Coq Require Import List Arith ZArith Reals Lra Lia Bool.
From Coquelicot Require Import Coquelicot.
From Verif Require Import Scalar ScalarC Py Numpy BasisSet Spec OneDimSpec OneDimProofs DotProofs GridSpec GridProofs PositiveForms SpectrumProofs ParitySpec SpectralSpec SpectralProofs Systems SystemFacts.
From Verif Require Import OneDim RaiseTheorems FockSpec FockProofs InnerSpec InnerProofs RaiseSpec RaiseProofs RaiseFock FockSpectrumSpec FockSpectrum GroundTheorems ResidualSpec.
Import ListNotations.
Open Scope R_scope.
Local Notation S_ := (sumn (K := CC)).
Local Notation state := (FockSpec.state CC).

Section Residual.
  Variables (l N d : nat) (X : state -> state) (E : nat -> R) (Psi : nat -> state).
  Hypothesis XS : symmetric_operator l X.
  Hypothesis XP : forall f, particle_state l N f -> particle_state l N (X f).
  Hypothesis H : spectrum l X N d E Psi.
  Notation c f p := (inner l (Psi p) f).
  Lemma residual_state f x : particle_state l N f -> particle_state l N (residual X x f).
  Proof.
    intros [Pf Zf]. destruct (XP f (conj Pf Zf)) as [Px Zx]. split.
    - intros o o' Eo. unfold residual. rewrite (Pf o o' Eo), (Px o o' Eo). reflexivity.
    - intros o A P. unfold residual. rewrite (Zf o A P), (Zx o A P). apply injective_projections; cbn; ring.
  Qed.
  Lemma residual_coefficient f x p : particle_state l N f -> (p < d)%nat -> c (residual X x f) p = (RtoC (E p - x) * c f p)%C.
  Proof.
    intros Hf Hp. pose proof (coefficient l N d X E Psi XS H f p (proj1 Hf) Hp) as Q.
    rewrite (inner_ext CC l (Psi p) (residual X x f) (fun o => sadd (s := CC) (X f o) (smul (s := CC) (RtoC (- x)) (f o)))).
    - rewrite (inner_add CC l (Psi p) (X f) (fun o => smul (s := CC) (RtoC (- x)) (f o))), (inner_scal CC l (Psi p) (RtoC (- x)) f), Q.
      change (@sadd CC) with Cplus. change (@smul CC) with Cmult. apply injective_projections; cbn; ring.
    - intros o. unfold residual. change (@sadd CC) with Cplus. change (@smul CC) with Cmult. apply injective_projections; cbn; ring.
  Qed.
  Lemma residual_norm (f : state) (x : R) : particle_state l N f -> Re (inner l (residual X x f) (residual X x f)) = rsum d (fun p => (E p - x) ^ 2 * Cmod (c f p) ^ 2).
  Proof.
    intros Hf. rewrite (expand_norm l N d X E Psi H _ (residual_state f x Hf)). cbn [Re RtoC fst]. apply rsum_ext. intros p Hp.
    rewrite (residual_coefficient f x p Hf Hp), Cmod_mult, Cmod_R, Rpow_mult_distr, pow2_abs. reflexivity.
  Qed.
  (** Some level is near every mean value. *)
  Lemma level_near (f : state) (x : R) : particle_state l N f -> 0 < Re (inner l f f) ->
    exists p, (p < d)%nat /\ (E p - x) ^ 2 * Re (inner l f f) <= Re (inner l (residual X x f) (residual X x f)).
  Proof.
    intros Hf Hn. apply Classical_Prop.NNPP. intros No. rewrite residual_norm in No by exact Hf.
    pose proof Hn as Hn'. rewrite (expand_norm l N d X E Psi H f Hf) in Hn'. cbn [Re RtoC fst] in Hn'. set (v := Re (inner l f f)) in *.
    set (r := rsum d (fun p => (E p - x) ^ 2 * Cmod (c f p) ^ 2)) in *.
    assert (L : forall p, (p < d)%nat -> r < (E p - x) ^ 2 * v). { intros p Hp. apply Rnot_le_lt. intros Le. apply No. eauto. }
    assert (V : rsum d (fun p => Cmod (c f p) ^ 2) = v). { unfold v. rewrite (expand_norm l N d X E Psi H f Hf). reflexivity. }
    assert (Z : rsum d (fun p => ((E p - x) ^ 2 * v - r) * Cmod (c f p) ^ 2) = 0).
    { rewrite (rsum_ext d _ (fun p => v * ((E p - x) ^ 2 * Cmod (c f p) ^ 2) + (- r) * Cmod (c f p) ^ 2)) by (intros; ring). rewrite rsum_add, !rsum_scal. fold r. rewrite V. ring. }
    pose proof (rsum_null d _ (fun p Hp => Rmult_le_pos _ _ (Rlt_le _ _ (Rlt_Rminus _ _ (L p Hp))) (pow2_ge_0 _)) Z) as W. cbv beta in W.
    assert (Z' : rsum d (fun p => Cmod (c f p) ^ 2) = 0); [|lra].
    rewrite (rsum_ext d _ (fun _ => 0 * 0)); [rewrite rsum_scal; ring|]. intros p Hp. destruct (Rmult_integral _ _ (W p Hp)) as [Y|Y]; [specialize (L p Hp); lra | rewrite Y; ring].
  Qed.
  (** Temple: the lowest level from below *)
  Lemma ground_from_below (f : state) (e x : R) : particle_state l N f -> Re (inner l f f) = 1 -> Re (inner l f (X f)) = e -> (forall p, (0 < p < d)%nat -> x <= E p) -> (0 < d)%nat -> E O <= x ->
    (e - E O) * (x - e) <= Re (inner l (residual X e f) (residual X e f)).
  Proof.
    intros Hf Hn He Hx Hd H0. rewrite (residual_norm f e Hf). rewrite (expand_norm l N d X E Psi H f Hf) in Hn. rewrite (expand_energy l N d X E Psi XS H f Hf) in He. cbn [Re RtoC fst] in Hn, He.
    assert (P : 0 <= rsum d (fun p => (E p - E O) * (E p - x) * Cmod (c f p) ^ 2)).
    { apply rsum_nonneg. intros p Hp. apply Rmult_le_pos; [|apply pow2_ge_0]. destruct p as [|p]; [right; ring|].
      pose proof (Hx (S p) ltac:(lia)). apply Rmult_le_pos; lra. }
    assert (Q : rsum d (fun p => (E p - e) ^ 2 * Cmod (c f p) ^ 2) =
      rsum d (fun p => (E p - E O) * (E p - x) * Cmod (c f p) ^ 2) + ((E O + x - 2 * e) * rsum d (fun p => E p * Cmod (c f p) ^ 2) + (e * e - E O * x) * rsum d (fun p => Cmod (c f p) ^ 2))).
    { rewrite <- !rsum_scal, <- !rsum_add. apply rsum_ext. intros p _. ring. }
    rewrite Q, Hn, He. lra.
  Qed.
End Residual.
Lemma residual_system (w : world CC) s k N l x (b : basis CC) (h u : arr CC) : sys_at w s k N l x b -> b_arr b F_h = Some h -> b_arr b F_u = Some u ->
  hermitian l (mat h) -> hermitian2 l (ten u) -> (k = General -> antisym_ket l (ten u)) ->
  let n := spin_orbitals k l in let m := electrons k N in let X := many_body k l (mat h) (ten u) in let D := reference_det k l N in
  exists e, reference_energy s w = (Ok (RtoC e), w) /\
    forall d E Psi, spectrum n X m d E Psi ->
      (exists p, (p < d)%nat /\ (E p - e) ^ 2 <= Re (inner n (residual X e D) (residual X e D))) /\
      ((1 < d)%nat -> (e - E 0%nat) * (E 1%nat - e) <= Re (inner n (residual X e D) (residual X e D))).
Proof.
  intros A Eh Eu Hh Hu Ha n m X D. pose proof (many_body_symmetric k l (mat h) (ten u) Hh Hu) as Sy. fold n X in Sy.
  assert (XP : forall f, particle_state n m f -> particle_state n m (X f)) by (intros f Hf; destruct k; apply hamiltonian_particles, Hf).
  destruct (reference_trial w s k N l x b h u A Eh Eu Ha) as (P1 & P2 & P3). fold n m X D in P1, P2, P3.
  destruct (ground_system w s k N l x b h u A Eh Eu Hh Hu Ha) as (E0 & Psi0 & _ & _ & _ & _ & e & R & _). fold n X D in P3.
  assert (Ee : inner n D (X D) = RtoC e) by congruence. exists e. split; [exact R|]. intros d E Psi Sp. split.
  - destruct (level_near n m d X E Psi Sy XP Sp D e P1) as (p & Hp & L); [rewrite P2; cbn; lra|]. exists p. split; [exact Hp|]. rewrite P2 in L. cbn [Re RtoC fst] in L. cbn in L |- *. lra.
  - intros Hd. apply (ground_from_below n m d X E Psi Sy XP Sp D e (E 1%nat) P1); [rewrite P2; reflexivity | rewrite Ee; reflexivity | | lia | apply (sp_ascending _ _ _ _ _ _ Sp); lia].
    intros p Hp. apply (sp_ascending _ _ _ _ _ _ Sp); lia.
Qed.
Lemma residual_states k l h u m d E Psi (f : state) x : hermitian (K := CC) l h -> hermitian2 (K := CC) l u ->
  let n := spin_orbitals k l in let X := many_body k l h u in
  spectrum n X m d E Psi -> particle_state n m f -> 0 < Re (inner n f f) ->
  exists p, (p < d)%nat /\ (E p - x) ^ 2 * Re (inner n f f) <= Re (inner n (residual X x f) (residual X x f)).
Proof.
  intros Hh Hu n X Sp Hf Hn. apply (level_near n m d X E Psi (many_body_symmetric k l h u Hh Hu)); [|exact Sp | exact Hf | exact Hn].
  intros g Hg. destruct k; apply hamiltonian_particles, Hg.
Qed.
