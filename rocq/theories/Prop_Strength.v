(** C134: Stronger repulsion raises every exact energy. *)
From Coq Require Import List Arith ZArith Reals Lra Lia.
From Coquelicot Require Import Coquelicot.
From Verif Require Import Scalar ScalarC Py Numpy BasisSet Spec OneDim LineProofs DotProofs GridExamples SincDvr SincProofs TwoDim Cache CacheProofs CacheExamples TwoDimBasis PlaneProofs.
From Verif Require Import Systems FockSpec RaiseSpec FockSpectrumSpec StrengthSpec StrengthProofs StrengthSystems.
Import ListNotations.
Open Scope R_scope.

(** Any two sets of elements: if the difference of h is at least c and the difference of u raises
    the energy of every pair, each of the m-electron energies rises by at least m c. *)
Theorem C134_levels :
  forall l h u h' u' c, hermitian (K := CC) l h -> hermitian2 (K := CC) l u -> hermitian (K := CC) l h' -> hermitian2 (K := CC) l u' ->
  at_least l (fun p q => (h' p q - h p q)%C) c -> raising l (fun p q r s => (u' p q r s - u p q r s)%C) ->
  forall m d d' E E' Psi Psi', spectrum (2 * l) (many_body Spatial l h u) m d E Psi -> spectrum (2 * l) (many_body Spatial l h' u') m d' E' Psi' ->
  d = d' /\ forall p, (p < d)%nat -> E p + INR m * c <= E' p.
Proof. exact levels_difference. Qed.
Print Assumptions C134_levels.
(** The least energy is concave in the elements, for both kinds of systems. *)
Theorem C134_concave :
  forall k l h0 u0 h1 u1 h u t, 0 <= t <= 1 -> hermitian (K := CC) l h0 -> hermitian2 (K := CC) l u0 -> hermitian (K := CC) l h1 -> hermitian2 (K := CC) l u1 ->
  (forall p q, (p < l)%nat -> (q < l)%nat -> h p q = (RtoC (1 - t) * h0 p q + RtoC t * h1 p q)%C) ->
  (forall p q r s, (p < l)%nat -> (q < l)%nat -> (r < l)%nat -> (s < l)%nat -> u p q r s = (RtoC (1 - t) * u0 p q r s + RtoC t * u1 p q r s)%C) ->
  forall m d0 d1 d E0 E1 E Psi0 Psi1 Psi, (m <= spin_orbitals k l)%nat -> spectrum (spin_orbitals k l) (many_body k l h0 u0) m d0 E0 Psi0 ->
  spectrum (spin_orbitals k l) (many_body k l h1 u1) m d1 E1 Psi1 -> spectrum (spin_orbitals k l) (many_body k l h u) m d E Psi -> (1 - t) * E0 O + t * E1 O <= E O.
Proof. exact ground_average. Qed.
Print Assumptions C134_concave.
(** When a repulsion is stronger *)
Theorem C134_stronger :
  (forall alpha alpha' a, a <> 0 -> alpha <= alpha' -> stronger alpha a alpha' a) /\
  (forall alpha alpha' a a', a' <> 0 -> Rabs a' <= Rabs a -> 0 <= alpha <= alpha' -> stronger alpha a alpha' a').
Proof. exact (conj stronger_alpha stronger_shield). Qed.
Print Assumptions C134_stronger.
Theorem C134_ODHO :
  forall npm spin anti l L N omega a a' alpha alpha' beta b b', stronger alpha a alpha' a' ->
  odho npm spin anti l L N omega a alpha beta = (Ok tt, b) -> odho npm spin anti l L N omega a' alpha' beta = (Ok tt, b') -> energies_below l 0 1 1 b b'.
Proof. exact line_stronger. Qed.
Print Assumptions C134_ODHO.
Theorem C134_ODQD :
  forall npm spin anti l L N a a' alpha alpha' beta V eigh b b', stronger alpha a alpha' a' ->
  odqd npm spin anti l L N a alpha beta V eigh = (Ok tt, b) -> odqd npm spin anti l L N a' alpha' beta V eigh = (Ok tt, b') -> energies_below l 0 1 1 b b'.
Proof. exact dot_stronger. Qed.
Print Assumptions C134_ODQD.
(** In the sinc-DVR basis also a potential that is higher by c at every grid point *)
Theorem C134_sinc_dvr :
  forall npm spin anti l L a a' alpha alpha' beta V V' c b b', stronger alpha a alpha' a' ->
  (forall i, (i < l)%nat -> V (OneDimSpec.point L l i) + c <= V' (OneDimSpec.point L l i)) ->
  odsincdvr npm spin anti l L a alpha beta V U4d = (Ok tt, b) -> odsincdvr npm spin anti l L a' alpha' beta V' U4d = (Ok tt, b') -> energies_below l c 1 1 b b'.
Proof. exact dvr_stronger. Qed.
Print Assumptions C134_sinc_dvr.
(** Two dimensions: with the trap frequency, energies in units of omega fall and in units of the
    square root of omega rise. *)
Theorem C134_TwoDim :
  forall npm spin anti npm' spin' anti' l L L' N N' omega omega' mass mass' e e' (files files' : fs) b b' t t', 0 < omega <= omega' ->
  (forall d n f, files d n = Some f -> f = image n) -> (forall d n f, files' d n = Some f -> f = image n) ->
  oscillator npm spin anti l L N omega mass e files = (Ok b, t) -> oscillator npm' spin' anti' l L' N' omega' mass' e' files' = (Ok b', t') ->
  energies_below l 0 (/ omega') (/ omega) b' b /\ energies_below l 0 (/ sqrt omega) (/ sqrt omega') b b'.
Proof. exact plane_stronger. Qed.
Print Assumptions C134_TwoDim.
Theorem C134_concave_ODHO :
  forall npm spin anti l L N omega a alpha0 alpha1 beta t b0 b1 b, 0 <= t <= 1 ->
  odho npm spin anti l L N omega a alpha0 beta = (Ok tt, b0) -> odho npm spin anti l L N omega a alpha1 beta = (Ok tt, b1) ->
  odho npm spin anti l L N omega a ((1 - t) * alpha0 + t * alpha1) beta = (Ok tt, b) -> ground_concave l t b0 b1 b.
Proof. exact line_concave. Qed.
Print Assumptions C134_concave_ODHO.
Theorem C134_concave_ODQD :
  forall npm spin anti l L N a alpha0 alpha1 beta V eigh t b0 b1 b, 0 <= t <= 1 ->
  odqd npm spin anti l L N a alpha0 beta V eigh = (Ok tt, b0) -> odqd npm spin anti l L N a alpha1 beta V eigh = (Ok tt, b1) ->
  odqd npm spin anti l L N a ((1 - t) * alpha0 + t * alpha1) beta V eigh = (Ok tt, b) -> ground_concave l t b0 b1 b.
Proof. exact dot_concave. Qed.
Print Assumptions C134_concave_ODQD.
Theorem C134_concave_sinc_dvr :
  forall npm spin anti l L a alpha0 alpha1 beta V0 V1 t b0 b1 b, 0 <= t <= 1 ->
  odsincdvr npm spin anti l L a alpha0 beta V0 U4d = (Ok tt, b0) -> odsincdvr npm spin anti l L a alpha1 beta V1 U4d = (Ok tt, b1) ->
  odsincdvr npm spin anti l L a ((1 - t) * alpha0 + t * alpha1) beta (fun x => (1 - t) * V0 x + t * V1 x) U4d = (Ok tt, b) -> ground_concave l t b0 b1 b.
Proof. exact dvr_concave. Qed.
Print Assumptions C134_concave_sinc_dvr.
(** Calls that meet the hypotheses *)
Example C134_instance :
  stronger 1 1 2 (1 / 4) /\
  (exists b b', odho 0 false false 6 10 401 1 1 1 0 = (Ok tt, b) /\ odho 0 false false 6 10 401 1 (1 / 4) 2 0 = (Ok tt, b')) /\
  (exists b b', odqd 0 false false 2 1 5 1 1 0 (fun _ => 0) eigh1 = (Ok tt, b) /\ odqd 0 false false 2 1 5 (1 / 4) 2 0 (fun _ => 0) eigh1 = (Ok tt, b')) /\
  (exists b b', odsincdvr 0 false false 11 10 1 1 0 (fun x => x ^ 2) U4d = (Ok tt, b) /\ odsincdvr 0 false false 11 10 (1 / 4) 2 0 (fun x => x ^ 2 + 1) U4d = (Ok tt, b')) /\
  (exists b t b' t', oscillator 0 false false 6 8 201 1 1 (Setting false 0 true) no_files = (Ok b, t) /\ oscillator 0 false false 6 8 201 4 1 (Setting false 0 true) no_files = (Ok b', t')).
Proof.
  split; [apply stronger_shield; [lra | rewrite !Rabs_pos_eq; lra | lra]|]. split; [|split; [|split]].
  - eexists _, _. split; apply odho_ok; repeat constructor.
  - eexists _, _. split; apply dot_ok; lia.
  - destruct (dvr_ok 0 false false 11 10 1 1 0 (fun x => x ^ 2) U4d) as (b & E & _); [discriminate | lia |].
    destruct (dvr_ok 0 false false 11 10 (1 / 4) 2 0 (fun x => x ^ 2 + 1) U4d) as (b' & E' & _); [discriminate | lia |]. eauto.
  - destruct (plane_oscillator 0 false false 6 8 201 1 1 (Setting false 0 true) no_files ltac:(lra) ltac:(lra) ltac:(discriminate) ltac:(left; reflexivity)) as (b & t & E & _).
    destruct (plane_oscillator 0 false false 6 8 201 4 1 (Setting false 0 true) no_files ltac:(lra) ltac:(lra) ltac:(discriminate) ltac:(left; reflexivity)) as (b' & t' & E' & _). eauto 6.
Qed.
