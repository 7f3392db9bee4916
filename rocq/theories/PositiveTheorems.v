(** The interactions of the one-dimensional basis sets are positive. *)
From Coq Require Import List Arith ZArith Reals Lra Lia Bool.
From Coquelicot Require Import Coquelicot.
From Verif Require Import Scalar ScalarC Py Numpy BasisSet Spec BasisSpec BasisFacts OneDim OneDimProofs DotProofs LineProofs GridSpec GridProofs.
From Verif Require Import ChangeProofs DvrSpec DvrProofs SincDvr SincProofs PositiveSpec PositiveKernel PositiveForms.
Import ListNotations.
Open Scope R_scope.
Local Notation S_ := (sumn (K := CC)).

Lemma dot_positive npm spin anti l L N a alpha beta V eigh b :
  odqd npm spin anti l L N a alpha beta V eigh = (Ok tt, b) -> 0 <= alpha -> a <> 0 ->
  exists u, b_arr b F_u = Some u /\ shape u = [l; l; l; l] /\ positive_interaction l (ten u).
Proof.
  intros Hb Ha Hs. destruct (dot_result _ _ _ _ _ _ _ _ _ _ _ _ Hb) as (-> & _). eexists. split; [reflexivity|]. split; [reflexivity|]. apply orbitals_positive; assumption.
Qed.
Lemma line_positive npm spin anti l L N omega a alpha beta b :
  odho npm spin anti l L N omega a alpha beta = (Ok tt, b) -> 0 <= alpha -> a <> 0 ->
  exists u, b_arr b F_u = Some u /\ shape u = [l; l; l; l] /\ positive_interaction l (ten u).
Proof.
  intros Hb Ha Hs. destruct (odho_result _ _ _ _ _ _ _ _ _ _ _ Hb) as (-> & _). eexists. split; [reflexivity|]. split; [reflexivity|]. apply orbitals_positive; assumption.
Qed.

(** ** Elements between points *)
Lemma positive_matrix_ext l v v' : (forall i j, (i < l)%nat -> (j < l)%nat -> v i j = v' i j) -> positive_matrix l v -> positive_matrix l v'.
Proof.
  intros E P z. specialize (P z). match goal with |- nonneg ?w => match type of P with nonneg ?w' => replace w with w' end end; [exact P|].
  apply csum_ext; intros i Hi. apply csum_ext; intros j Hj. rewrite E by assumption. reflexivity.
Qed.
Lemma positive_interaction_ext l u u' : (forall p q r s, (p < l)%nat -> (q < l)%nat -> (r < l)%nat -> (s < l)%nat -> u p q r s = u' p q r s) ->
  positive_interaction l u -> positive_interaction l u'.
Proof.
  intros E P z. specialize (P z). match goal with |- nonneg ?w => match type of P with nonneg ?w' => replace w with w' end end; [exact P|].
  unfold self_energy. apply csum_ext; intros p Hp. apply csum_ext; intros q Hq. apply csum_ext; intros r Hr. apply csum_ext; intros s Hs. rewrite E by assumption. reflexivity.
Qed.
Lemma spread_positive l v : positive_matrix l v -> positive_interaction l (spread (K := CC) v).
Proof.
  intros P x. specialize (P (fun i => x i i)). match goal with |- nonneg ?w => match type of P with nonneg ?w' => replace w with w' end end; [exact P|].
  unfold self_energy. apply csum_ext; intros p Hp. apply csum_ext; intros q Hq.
  rewrite (sumn_pick CC l p); [|exact Hp|].
  - rewrite (sumn_pick CC l q); [|exact Hq|].
    + unfold spread. rewrite !Nat.eqb_refl. reflexivity.
    + intros k _ Nk. unfold spread. rewrite (proj2 (Nat.eqb_neq q k)) by congruence. rewrite andb_false_r. change (@s0 CC) with (RtoC 0). cx. ring.
  - intros k _ Nk. apply csum_zero; intros s _. unfold spread. rewrite (proj2 (Nat.eqb_neq p k)) by congruence. cbn [andb]. change (@s0 CC) with (RtoC 0). cx. ring.
Qed.
Section Dvr.
  Variables (npm : nat) (spin anti : bool) (l : nat) (L a alpha beta : R) (V : R -> R).
  Hypothesis Halpha : 0 <= alpha.
  Hypothesis Ha : a <> 0.
  Lemma dvr_data_positive : positive_matrix l (fun p q => RtoC (dvr_data l L a alpha p q)).
  Proof. apply (shielded_matrix (linspace L l)); assumption. Qed.
  Lemma full_positive b : odsincdvr npm spin anti l L a alpha beta V U4d = (Ok tt, b) ->
    exists u, b_arr b F_u = Some u /\ shape u = [l; l; l; l] /\ positive_interaction l (ten u).
  Proof.
    intros Hb. destruct (dvr_result _ _ _ _ _ _ _ _ _ _ _ Hb) as ([_ _ _ _ _ _ A _] & _ & _). rewrite A. eexists. split; [reflexivity|]. split; [reflexivity|].
    apply (positive_interaction_ext l (spread (K := CC) (fun p q => RtoC (dvr_data l L a alpha p q)))); [reflexivity|]. apply spread_positive, dvr_data_positive.
  Qed.
  Lemma compact_positive b : odsincdvr npm spin anti l L a alpha beta V U2d = (Ok tt, b) ->
    exists u, b_arr b F_u = Some u /\ shape u = [l; l] /\ positive_matrix l (mat u).
  Proof.
    intros Hb. destruct (dvr_result _ _ _ _ _ _ _ _ _ _ _ Hb) as ([_ _ _ _ _ _ A _] & _ & _). rewrite A. eexists. split; [reflexivity|]. split; [reflexivity|].
    exact dvr_data_positive.
  Qed.
End Dvr.

(** ** Changes of basis *)
Lemma changed_positive (b b' : basis CC) l k (c u : arr CC) : shape c = [l; k] -> basis_changed l k c (default_tilde c None) b b' ->
  b_arr b F_u = Some u -> positive_interaction l (ten u) ->
  exists u', b_arr b' F_u = Some u' /\ shape u' = [k; k; k; k] /\ positive_interaction k (ten u').
Proof.
  intros Sc B Hu P. pose proof (bc_u B) as Q. rewrite Hu in Q. destruct (b_arr b' F_u) as [u'|]; [|destruct Q]. destruct Q as [Su Q].
  exists u'. split; [reflexivity|]. split; [exact Su|]. apply (transformed_positive l k (ten u) (ten u') (mat c) P).
  intros p q r s Hp Hq Hr Hs. rewrite Q by assumption. unfold T2. apply csum_ext; intros x Hx. apply csum_ext; intros y Hy. apply csum_ext; intros z Hz. apply csum_ext; intros t Ht.
  destruct (default_tilde_spec CC c None l k k Sc Sc) as [_ G]. rewrite !G by assumption. reflexivity.
Qed.
Lemma change_positive (b : basis CC) l k (c u : arr CC) : ready b l -> shape c = [l; k] -> b_arr b F_u = Some u -> positive_interaction l (ten u) ->
  exists b' u', change_basis c None b = (Ok tt, b') /\ b_arr b' F_u = Some u' /\ shape u' = [k; k; k; k] /\ positive_interaction k (ten u').
Proof.
  intros R Sc Hu P. destruct (default_tilde_spec CC c None l k k Sc Sc) as [SD _].
  destruct (change_basis_ok CC l k c _ Sc SD b R) as (b' & E & B). destruct (changed_positive b b' l k c u Sc B Hu P) as (u' & E' & Su & P').
  exists b', u'. split; [rewrite change_basis_default; exact E | auto].
Qed.
Lemma change_compact_positive (b : basis CC) l k (c u : arr CC) : compact b l -> shape c = [l; k] -> b_arr b F_u = Some u -> positive_matrix l (mat u) ->
  exists b' u', change_basis c None b = (Ok tt, b') /\ b_arr b' F_u = Some u' /\ shape u' = [k; k; k; k] /\ positive_interaction k (ten u').
Proof.
  intros Cp Sc Hu P. destruct (change_compact_ok CC b c None l k Cp Sc Sc) as (b' & E & B).
  destruct (changed_positive (widened l b) b' l k c (spread_arr l u) Sc B) as (u' & E' & Su & P').
  - unfold widened. rewrite Hu. reflexivity.
  - apply (positive_interaction_ext l (spread (K := CC) (mat u))); [reflexivity | apply spread_positive, P].
  - exists b', u'. auto.
Qed.

(** ** What it gives *)
Lemma positive_elements l u : positive_interaction l u -> forall p q r s, (p < l)%nat -> (q < l)%nat -> (r < l)%nat -> (s < l)%nat ->
  nonneg (u p q q p) /\ Cmod (u p q r s) ^ 2 <= Re (u p r r p) * Re (u s q q s).
Proof. intros P p q r s Hp Hq Hr Hs. split; [apply (exchange_nonneg l); assumption | apply (schwarz l); assumption]. Qed.
