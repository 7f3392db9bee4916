(** C122, C123: positive interactions and bounded kinetic energies in one dimension. *)
From Coq Require Import List Arith ZArith Reals Lra Lia Bool.
From Coquelicot Require Import Coquelicot.
From Verif Require Import Scalar ScalarC Py Numpy BasisSet Spec BasisSpec OneDim OneDimSpec OneDimProofs DotProofs LineProofs GridSpec GridExamples.
From Verif Require Import DvrSpec SincDvr SincProofs DvrSystem PositiveSpec PositiveTheorems KineticSpec KineticProofs.
Import ListNotations.
Open Scope R_scope.

(** C122. *)
Theorem C122_dot :
  forall npm spin anti l L N a alpha beta V eigh b,
  odqd npm spin anti l L N a alpha beta V eigh = (Ok tt, b) -> 0 <= alpha -> a <> 0 ->
  exists u, b_arr b F_u = Some u /\ shape u = [l; l; l; l] /\ positive_interaction l (ten u).
Proof. exact dot_positive. Qed.
Print Assumptions C122_dot.
Theorem C122_oscillator :
  forall npm spin anti l L N omega a alpha beta b,
  odho npm spin anti l L N omega a alpha beta = (Ok tt, b) -> 0 <= alpha -> a <> 0 ->
  exists u, b_arr b F_u = Some u /\ shape u = [l; l; l; l] /\ positive_interaction l (ten u).
Proof. exact line_positive. Qed.
Print Assumptions C122_oscillator.
Theorem C122_dvr_full :
  forall npm spin anti l L a alpha beta V, 0 <= alpha -> a <> 0 -> forall b,
  odsincdvr npm spin anti l L a alpha beta V U4d = (Ok tt, b) ->
  exists u, b_arr b F_u = Some u /\ shape u = [l; l; l; l] /\ positive_interaction l (ten u).
Proof. exact full_positive. Qed.
Print Assumptions C122_dvr_full.
Theorem C122_dvr_compact :
  forall npm spin anti l L a alpha beta V, 0 <= alpha -> a <> 0 -> forall b,
  odsincdvr npm spin anti l L a alpha beta V U2d = (Ok tt, b) ->
  exists u, b_arr b F_u = Some u /\ shape u = [l; l] /\ positive_matrix l (mat u).
Proof. exact compact_positive. Qed.
Print Assumptions C122_dvr_compact.
(** Any change of basis, square or not, unitary or not, keeps it as long as C_tilde is
    left to be the adjoint of C. *)
Theorem C122_change_basis :
  forall (b : basis CC) l k (c u : arr CC), ready b l -> shape c = [l; k] -> b_arr b F_u = Some u -> positive_interaction l (ten u) ->
  exists b' u', change_basis c None b = (Ok tt, b') /\ b_arr b' F_u = Some u' /\ shape u' = [k; k; k; k] /\ positive_interaction k (ten u').
Proof. exact change_positive. Qed.
Print Assumptions C122_change_basis.
Theorem C122_change_compact :
  forall (b : basis CC) l k (c u : arr CC), compact b l -> shape c = [l; k] -> b_arr b F_u = Some u -> positive_matrix l (mat u) ->
  exists b' u', change_basis c None b = (Ok tt, b') /\ b_arr b' F_u = Some u' /\ shape u' = [k; k; k; k] /\ positive_interaction k (ten u').
Proof. exact change_compact_positive. Qed.
Print Assumptions C122_change_compact.
(** What it is used for: exchange elements are not negative, and the elements u[p,r,r,p]
    bound all others (Schwarz screening). *)
Theorem C122_elements :
  forall l u, positive_interaction l u -> forall p q r s, (p < l)%nat -> (q < l)%nat -> (r < l)%nat -> (s < l)%nat ->
  nonneg (u p q q p) /\ Cmod (u p q r s) ^ 2 <= Re (u p r r p) * Re (u s q q s).
Proof. exact positive_elements. Qed.
Print Assumptions C122_elements.
Example C122_instance : (exists b, odho 0 false false 3 10 401 1 1 1 0 = (Ok tt, b)) /\
  (exists b, odsincdvr 0 false false 2 1 1 1 0 (fun _ => 0) U2d = (Ok tt, b) /\ compact b 2) /\
  ~ positive_interaction 1 (fun _ _ _ _ => RtoC (-1)).
Proof.
  split; [eexists; apply odho_ok; repeat constructor|]. split.
  - exists small_dvr. split; [exact small_dvr_ok|]. exact (dvr_compact _ _ _ _ _ _ _ _ _ _ _ small_dvr_ok eq_refl).
  - intros H. destruct (H (fun _ _ => RtoC 1)) as [_ H0]. cbn in H0. lra.
Qed.

(** C123. *)
Theorem C123_spectrum :
  forall npm spin anti l L a alpha beta V repr b m M,
  odsincdvr npm spin anti l L a alpha beta V repr = (Ok tt, b) -> 0 < L -> (forall i, (i < l)%nat -> m <= V (point L l i) <= M) ->
  exists h, b_arr b F_h = Some h /\ shape h = [l; l] /\ form_between l (mat h) m (M + PI ^ 2 / (2 * spacing L l ^ 2)) /\
    forall E, eigenvalue l (mat h) E -> Im E = 0 /\ m <= Re E <= M + PI ^ 2 / (2 * spacing L l ^ 2).
Proof. exact dvr_between. Qed.
Print Assumptions C123_spectrum.
Example C123_instance : (exists b, odsincdvr 0 false false 11 10 1 1 0 (fun x => x ^ 2 / 2) U4d = (Ok tt, b)) /\
  (forall i, (i < 11)%nat -> 0 <= (fun x => x ^ 2 / 2) (point 10 11 i) <= 50).
Proof.
  split; [destruct (dvr_ok 0 false false 11 10 1 1 0 (fun x => x ^ 2 / 2) U4d) as (b & E & _); [discriminate | lia | eauto]|].
  intros i Hi. cbv beta. assert (B : -10 <= point 10 11 i <= 10).
  { unfold point. change (11 - 1)%nat with 10%nat. assert (I : 0 <= INR i <= 10) by (split; [apply pos_INR | replace 10 with (INR 10) by (cbn; lra); apply le_INR; lia]). replace (INR 10) with 10 by (cbn; lra). lra. }
  pose proof (pow2_ge_0 (point 10 11 i)). assert (point 10 11 i ^ 2 <= 10 ^ 2). { rewrite <- (pow2_abs (point 10 11 i)). apply pow_incr. split; [apply Rabs_pos | apply Rabs_le; lra]. } lra.
Qed.
