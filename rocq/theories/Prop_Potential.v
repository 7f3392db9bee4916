(** C135: The levels of a quantum dot follow its potential. *)
From Coq Require Import List Arith ZArith Reals Lra Lia.
From Coquelicot Require Import Coquelicot.
From Verif Require Import Scalar ScalarC Py Numpy BasisSet OneDim OneDimSpec DotProofs ParitySpec BoxTheorems LevelOrder.
Import ListNotations.
Open Scope R_scope.

(** The same grid or a longer one with the same spacing: a potential that is at most c higher at
    the inner points of the shorter grid raises no level by more than c.  With c = 0 and
    the same potential: a wider box raises no level. *)
Theorem C135_order :
  forall npm spin anti npm' spin' anti' l l' L L' N k a a' alpha alpha' beta beta' V V' c eigh eigh' b b',
  odqd npm spin anti l L N a alpha beta V eigh = (Ok tt, b) -> odqd npm' spin' anti' l' L' (N + 2 * k) a' alpha' beta' V' eigh' = (Ok tt, b') ->
  solves L N V eigh -> solves L' (N + 2 * k) V' eigh' -> spacing L' (N + 2 * k) = spacing L N ->
  (forall i, (0 < i)%nat -> (i + 1 < N)%nat -> V' (point L N i) <= V (point L N i) + c) ->
  exists h h', b_arr b F_h = Some h /\ b_arr b' F_h = Some h' /\ forall p, (p < l)%nat -> (p < l')%nat -> Re (mat h' p p) <= Re (mat h p p) + c.
Proof. exact dot_order. Qed.
Print Assumptions C135_order.
(** No level moves by more than the potential does. *)
Theorem C135_close :
  forall npm spin anti npm' spin' anti' l l' L N a a' alpha alpha' beta beta' V V' c eigh eigh' b b',
  odqd npm spin anti l L N a alpha beta V eigh = (Ok tt, b) -> odqd npm' spin' anti' l' L N a' alpha' beta' V' eigh' = (Ok tt, b') ->
  solves L N V eigh -> solves L N V' eigh' -> (forall i, (0 < i)%nat -> (i + 1 < N)%nat -> Rabs (V' (point L N i) - V (point L N i)) <= c) ->
  exists h h', b_arr b F_h = Some h /\ b_arr b' F_h = Some h' /\ forall p, (p < l)%nat -> (p < l')%nat -> Rabs (Re (mat h' p p) - Re (mat h p p)) <= c.
Proof. exact dot_close. Qed.
Print Assumptions C135_close.
(** A constant added to the potential is added to every level. *)
Theorem C135_shift :
  forall npm spin anti npm' spin' anti' l l' L N a a' alpha alpha' beta beta' V V' c eigh eigh' b b',
  odqd npm spin anti l L N a alpha beta V eigh = (Ok tt, b) -> odqd npm' spin' anti' l' L N a' alpha' beta' V' eigh' = (Ok tt, b') ->
  solves L N V eigh -> solves L N V' eigh' -> (forall i, (0 < i)%nat -> (i + 1 < N)%nat -> V' (point L N i) = V (point L N i) + c) ->
  exists h h', b_arr b F_h = Some h /\ b_arr b' F_h = Some h' /\ forall p, (p < l)%nat -> (p < l')%nat -> Re (mat h' p p) = Re (mat h p p) + c.
Proof. exact dot_shift. Qed.
Print Assumptions C135_shift.
(** A potential between m and M gives levels between those of the boxes with bottoms m and M. *)
Theorem C135_between :
  forall npm spin anti l L N a alpha beta V eigh b m M, odqd npm spin anti l L N a alpha beta V eigh = (Ok tt, b) -> 0 < L -> solves L N V eigh ->
  (forall i, (0 < i)%nat -> (i + 1 < N)%nat -> m <= V (point L N i) <= M) ->
  exists h, b_arr b F_h = Some h /\ forall p, (p < l)%nat ->
    let e := (1 - cos (INR (p + 1) * PI / INR (N - 1))) / spacing L N ^ 2 in m + e <= Re (mat h p p) <= M + e.
Proof. exact dot_boxes. Qed.
Print Assumptions C135_between.
(** Calls that meet the hypotheses: the small well, also in a wider box and with another bottom *)
Example C135_instance :
  (exists b, odqd 0 false false 2 (3 / 2) 4 1 1 0 small_well eigh2 = (Ok tt, b)) /\ solves (3 / 2) 4 small_well eigh2 /\
  (exists b, odqd 0 false false 4 (15 / 2) (4 + 2 * 6) 1 1 0 (fun _ => 3) (box_solver (15 / 2) 3) = (Ok tt, b)) /\ solves (15 / 2) (4 + 2 * 6) (fun _ => 3) (box_solver (15 / 2) 3) /\
  spacing (15 / 2) (4 + 2 * 6) = spacing (3 / 2) 4 /\ (forall i, (0 < i)%nat -> (i + 1 < 4)%nat -> 0 <= small_well (point (3 / 2) 4 i) <= 1).
Proof.
  split; [eexists; apply dot_ok; repeat constructor|]. split; [exact eigh2_right|]. split; [eexists; apply dot_ok; lia|]. split; [apply box_solver_right; lra|].
  split; [unfold spacing; cbn; field|]. intros i Hi Hi'. assert (Ei : i = 1%nat \/ i = 2%nat) by lia. unfold small_well, point. destruct Ei as [-> | ->]; cbn; lra.
Qed.
