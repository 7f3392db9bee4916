(** Independence of copies, and concrete object graphs. *)
From Coq Require Import List Arith Lia Bool String.
From Verif Require Import Py PyHeap HeapSpec HeapProofs HeapFrame HeapCopy HeapLib.
Import ListNotations.
Local Open Scope string_scope.
Local Open Scope list_scope.

Section Indep.
  Variable data : Type.
  Notation obj := (obj data). Notation heap := (heap data). Notation value := (value data).
  Variables (conj : data -> data) (compact : nat -> data -> bool).
  Implicit Types (H : heap).

  (** No program working on one of them changes anything held by the other. *)
  Definition programs_apart H (a b : nat) : Prop :=
    (forall H', program (eq a) H H' -> forall x, holds H b x -> nth_error H' x = nth_error H x) /\
    (forall H', program (eq b) H H' -> forall x, holds H a x -> nth_error H' x = nth_error H x).
  Lemma copy_apart H a b : closed H -> copy_of H a b -> pure_functions H a -> programs_apart H a b.
  Proof.
    intros C Cp Pf. pose proof (copy_separate data H a b Cp Pf) as S.
    assert (V : a < List.length H /\ b < List.length H).
    { destruct Cp as (R & Hr & G & _). destruct (sg_match _ _ _ G a b Hr) as (x1 & x2 & Ha & Hb & _). split; eapply nth_valid; eassumption. }
    destruct V as [Va Vb]. split; intros H' P x Hx.
    - exact (program_frame data (eq a) H H' P (eq b) C ltac:(intros ? <-; exact Va) ltac:(intros ? <-; exact Vb) S b x eq_refl Hx).
    - exact (program_frame data (eq b) H H' P (eq a) C ltac:(intros ? <-; exact Vb) ltac:(intros ? <-; exact Va) (separate_sym data H _ _ S) a x eq_refl Hx).
  Qed.
  Lemma copy_basis_independent H a k : closed H -> basis_object data H a k -> module_free (without_np data H a) a ->
    exists H' b, copy_basis conj compact a H = (Ok b, H') /\ copy_of H' a b /\ List.length H <= b /\
      (forall x, x < List.length H -> x <> a -> nth_error H' x = nth_error H x) /\ unchanged_basis data H H' a /\
      (pure_functions H a -> programs_apart H' a b).
  Proof.
    intros C B Mf. destruct (copy_basis_ok data conj compact H a k C B Mf) as (H' & b & E & Cp & Nb & C' & O & _ & U & Pf).
    exists H', b. repeat (split; [assumption|]). intros P. exact (copy_apart H' a b C' Cp (Pf P)).
  Qed.
  Lemma copy_system_independent H s a k : closed H -> system_object data H s a k -> module_free (without_np data (without_np data H s) a) s ->
    exists H' s', copy_system conj compact s H = (Ok s', H') /\ copy_of H' s s' /\ List.length H <= s' /\
      (forall x, x < List.length H -> x <> s -> x <> a -> nth_error H' x = nth_error H x) /\
      unchanged_basis data H H' a /\ unchanged_basis data H H' s /\ (pure_functions H s -> programs_apart H' s s').
  Proof.
    intros C B Mf. destruct (copy_system_ok data conj compact H s a k C B Mf) as (H' & b & E & Cp & Nb & C' & O & _ & U & U' & Pf).
    exists H', b. repeat (split; [assumption|]). intros P. exact (copy_apart H' s b C' Cp (Pf P)).
  Qed.
  Lemma operator_redirected H s s' o c l co lo : copy_of H s s' ->
    nth_error H s = Some (Inst c l) -> assoc "_time_evolution_operator" l = Some (Ref o) ->
    nth_error H o = Some (Inst co lo) -> assoc "_system" lo = Some (Ref s) ->
    exists l' o' lo', nth_error H s' = Some (Inst c l') /\ assoc "_time_evolution_operator" l' = Some (Ref o') /\ o' <> o /\
      nth_error H o' = Some (Inst co lo') /\ assoc "_system" lo' = Some (Ref s').
  Proof.
    intros (R & Hr & G & Im & Ds) Es Ho Eo Hs.
    destruct (sg_match _ _ _ G s s' Hr) as (x1 & x2 & E1 & E2 & M). rewrite Es in E1. injection E1 as <-.
    destruct (match_inst data R x2 c l M) as (l' & -> & F). pose proof (match_assoc data R l l' "_time_evolution_operator" F) as Mo. rewrite Ho in Mo.
    destruct (assoc "_time_evolution_operator" l') as [[|d|o']|] eqn:Ho'; cbn in Mo; try contradiction.
    destruct (sg_match _ _ _ G o o' Mo) as (y1 & y2 & E3 & E4 & M'). rewrite Eo in E3. injection E3 as <-.
    destruct (match_inst data R y2 co lo M') as (lo' & -> & F'). pose proof (match_assoc data R lo lo' "_system" F') as Ms. rewrite Hs in Ms.
    destruct (assoc "_system" lo') as [[|d|z]|] eqn:Hz; cbn in Ms; try contradiction.
    exists l', o', lo'. split; [exact E2|]. split; [exact Ho'|]. split; [|split; [exact E4|rewrite Hz, (sg_fun _ _ _ G s z s' Ms Hr); reflexivity]].
    intros ->. destruct (Ds o o o Mo Mo) as (w & Hw & Hi). rewrite Eo in Hw. injection Hw as <-. discriminate Hi.
  Qed.
  Lemma copy_basis_iff H a k : closed H -> basis_object data H a k ->
    ((exists b H', copy_basis conj compact a H = (Ok b, H')) <-> module_free (without_np data H a) a).
  Proof.
    intros C B. split.
    - intros (b & H' & E) x m Rx Ex. destruct (copy_basis_fails data conj compact H a k x m C B Rx Ex) as (H2 & E2 & _). rewrite E in E2. discriminate E2.
    - intros Mf. destruct (copy_basis_ok data conj compact H a k C B Mf) as (H' & b & E & _). eauto.
  Qed.
  Lemma copy_system_iff H s a k : closed H -> system_object data H s a k ->
    ((exists b H', copy_system conj compact s H = (Ok b, H')) <-> module_free (without_np data (without_np data H s) a) s).
  Proof.
    intros C B. split.
    - intros (b & H' & E) x m Rx Ex. destruct (copy_system_fails data conj compact H s a k x m C B Rx Ex) as (H2 & E2 & _). rewrite E in E2. discriminate E2.
    - intros Mf. destruct (copy_system_ok data conj compact H s a k C B Mf) as (H' & b & E & _). eauto.
  Qed.
  Lemma set_operator_ok H s o c l co lo : nth_error H s = Some (Inst c l) -> nth_error H o = Some (Inst co lo) -> s <> o ->
    exists H' l' lo', set_operator s o H = (Ok tt, H') /\
      nth_error H' s = Some (Inst c l') /\ assoc "_time_evolution_operator" l' = Some (Ref o) /\
      nth_error H' o = Some (Inst co lo') /\ assoc "_system" lo' = Some (Ref s).
  Proof.
    intros Es Eo N. pose proof (nth_valid _ _ _ _ Es) as Vs. pose proof (nth_valid _ _ _ _ Eo) as Vo.
    eexists _, (assign "_time_evolution_operator" (Ref o) l), (assign "_system" (Ref s) lo).
    split; [unfold set_operator; unfold bind, setattr; rewrite Es; rewrite hset_other by auto; rewrite Eo; reflexivity|].
    split; [rewrite hset_other by exact N; apply hset_same; exact Vs|]. split; [apply assoc_assign_same|].
    split; [apply hset_same; rewrite hset_length; exact Vo|apply assoc_assign_same].
  Qed.
End Indep.

(** A double well with a laser field.  Pulse and polarization are functions; the latter may
    be the one h_t stores for a constant polarization (operator.py:94-96), holding an array. *)
Definition ex_heap (pot : potential_class) (captured : list nat) : heap nat :=
  [ Module 0; Buffer 5;
    Inst 0 [("np", Ref 0); ("_u", PyNone); ("_spf", Ref 1); ("_bra_spf", PyNone); ("potential", Ref 3)];
    Inst 1 (potential_attrs nat pot 0 (fun i => i));
    Inst 2 [("np", Ref 0); ("_basis_set", Ref 2); ("_time_evolution_operator", Ref 5)];
    Inst 3 [("_laser_pulse", Ref 6); ("_polarization", Ref 8); ("_system", Ref 4)];
    Func 0 []; Buffer 9; Func 1 captured ].
Definition ex_H : heap nat := ex_heap DW [].

Lemma ex_closed pot cs : (forall c, In c cs -> c < 9) -> closed (ex_heap pot cs).
Proof.
  intros Hc x o y Hx Hy. cbn [ex_heap List.length].
  do 9 (destruct x as [|x]; [cbn in Hx; injection Hx as <-; try (destruct pot; cbn in Hy); cbn in Hy; try exact (Hc y Hy); lia|]).
  cbn in Hx. destruct x; discriminate Hx.
Qed.
Lemma ex_basis_ok pot cs : library_basis nat (ex_heap pot cs) 2 0 (Some (3, pot)).
Proof.
  split.
  - eexists _, _. split; [reflexivity|]. split; [reflexivity|]. split; [exists 0; reflexivity|]. split; [discriminate|]. split; [discriminate|].
    exists (Ref 1). split; [reflexivity|]. right. exists 1, 5. split; reflexivity.
  - eexists _, _. split; [reflexivity|]. split; [|split].
    + cbn. repeat constructor; cbn; intuition discriminate.
    + intros key v Hin. cbn in Hin. destruct Hin as [E|[E|[E|[E|[E|[]]]]]]; injection E as <- <-; cbn; auto.
      * right. left. exists (Buffer 5). auto.
      * right. right. split; [reflexivity|]. exists 3, pot. auto.
    + intros p cl E. injection E as <- <-. split; [discriminate|]. split; [cbn; do 4 right; left; reflexivity|]. exists 1, (fun i => i). reflexivity.
Qed.
Lemma ex_system_ok pot cs : library_system nat (ex_heap pot cs) 4 2 0 (Some (3, pot)) (Some (5, 4)).
Proof.
  split; [|split; [apply ex_basis_ok|]].
  - split; [discriminate|]. split; [apply ex_basis_ok|]. eexists _, _. split; [reflexivity|]. split; reflexivity.
  - eexists _, _. split; [reflexivity|]. split; [|split; [|split]].
    + cbn. repeat constructor; cbn; intuition discriminate.
    + intros key v Hin. cbn in Hin. destruct Hin as [E|[E|[E|[]]]]; injection E as <- <-; auto.
      right. right. right. exists 5, 4. auto.
    + intros p cl E. injection E as <- <-. discriminate.
    + intros o t E. injection E as <- <-. split; [discriminate|]. split; [discriminate|]. split; [reflexivity|].
      eexists _, _. split; [reflexivity|]. split; [reflexivity|]. intros key v Hin. cbn in Hin. destruct Hin as [E|[E|[E|[]]]]; injection E as <- <-; auto.
      * left. exists (Func 0 []). auto.
      * left. exists (Func 1 cs). auto.
Qed.
Lemma ex_case : closed ex_H /\ library_system nat ex_H 4 2 0 (Some (3, DW)) (Some (5, 4)) /\
  module_free (without_np nat (without_np nat ex_H 4) 2) 4 /\ pure_functions ex_H 4.
Proof.
  split; [apply ex_closed; intros ? []|]. split; [apply ex_system_ok|]. split.
  - apply (library_system_free nat ex_H 4 2 0 (Some (3, DW)) (Some (5, 4))); [apply ex_system_ok|discriminate|].
    intros o t E. injection E as _ <-. reflexivity.
  - intros x f cs y Rx Ex (c & Hc & _). do 9 (destruct x as [|x]; [cbn in Ex; try discriminate Ex; injection Ex as <- <-; destruct Hc|]).
    cbn in Ex. destruct x; discriminate Ex.
Qed.

Lemma independence_refuted : ~ (forall data conj compact (H : heap data) s a k pot o s' H', closed H -> library_system data H s a k pot (Some (o, s)) ->
  copy_system conj compact s H = (Ok s', H') -> programs_apart data H' s s').
Proof.
  intros Cl. set (H := ex_heap DW [7]).
  destruct (library_copy_system nat (fun d => d) (fun _ _ => false) H 4 2 0 (Some (3, DW)) (Some (5, 4))) as (H' & s' & E).
  - apply ex_closed. intros c [<-|[]]. lia.
  - apply ex_system_ok.
  - discriminate.
  - intros o t E. injection E as _ <-. reflexivity.
  - pose proof (Cl nat _ _ H 4 2 0 (Some (3, DW)) 5 s' H' (ex_closed DW [7] ltac:(intros c [<-|[]]; lia)) (ex_system_ok DW [7]) E) as [A _].
    vm_compute in E. injection E as <- <-.
    match type of A with forall H', program _ ?h _ -> _ => set (G := h) in A end.
    specialize (A (hset 7 (Buffer 0) G)).
    assert (P : program (eq 4) G (hset 7 (Buffer 0) G)).
    { eapply (prog_buffer nat _ G _ 7 9 0); [|reflexivity|apply prog_stop]. exists 4. split; [reflexivity|].
      eapply (reach_step _ _ G 4 8 _ 7); [eapply (reach_step _ _ G 4 5 _ 8); [eapply (reach_step _ _ G 4 4 _ 5 (reach_refl _ _ G 4) eq_refl)|reflexivity|]|reflexivity|]; cbn; auto. }
    assert (Hd : holds G 9 7).
    { eapply (reach_step _ _ G 9 8 _ 7); [eapply (reach_step _ _ G 9 13 _ 8); [eapply (reach_step _ _ G 9 9 _ 13 (reach_refl _ _ G 9) eq_refl)|reflexivity|]|reflexivity|]; cbn; auto. }
    specialize (A P 7 Hd). discriminate A.
Qed.
Lemma copy_basis_refuted : ~ (forall data conj compact (H : heap data) a k pot, closed H -> library_basis data H a k pot -> exists H' b, copy_basis conj compact a H = (Ok b, H')).
Proof.
  intros Cl. destruct (Cl nat (fun d => d) (fun _ _ => false) (ex_heap Gaussian []) 2 0 (Some (3, Gaussian))) as (H' & b & E); [apply ex_closed; intros ? []|apply ex_basis_ok|].
  destruct (gaussian_fails nat (fun d => d) (fun _ _ => false) (ex_heap Gaussian []) 2 0 3) as (H2 & c & l & E2 & _); [apply ex_closed; intros ? []|apply ex_basis_ok|].
  rewrite E in E2. discriminate E2.
Qed.
Lemma construct_general_refuted : ~ (forall data conj compact init (H : heap data) s a k pot op, closed H -> library_system data H s a k pot op -> (forall p, pot <> Some (p, Gaussian)) ->
  (forall o t, op = Some (o, t) -> t = s) -> builds data init ->
  exists H' g, construct_general conj compact init s H = (Ok g, H')).
Proof.
  intros Cl. assert (B : builds nat (fun b => ret b)).
  { intros b H C Hb. exists b, H. split; [reflexivity|]. split; [exact C|]. split; [apply le_n|]. intros; reflexivity. }
  destruct (Cl nat (fun d => d) (fun _ _ => false) (fun b => ret b) ex_H 4 2 0 (Some (3, DW)) (Some (5, 4))) as (H' & g & E);
    [apply ex_closed; intros ? []|apply ex_system_ok|discriminate|intros o t E; injection E as _ <-; reflexivity|exact B|].
  destruct (operator_spin_fails nat (fun d => d) (fun _ _ => false) (fun b => ret b) ex_H 4 2 0 (Some (3, DW)) 5) as (H2 & E2);
    [apply ex_closed; intros ? []|apply ex_system_ok|discriminate|exact B|].
  rewrite E in E2. discriminate E2.
Qed.
(** The same operator set on a second system *)
Definition ex_shared : heap nat :=
  snd (set_operator 9 5 (ex_heap DW [] ++ [Inst 2 [("np", Ref 0); ("_basis_set", Ref 2); ("_time_evolution_operator", PyNone)]])).
Lemma shared_case : closed ex_shared /\ library_system nat ex_shared 4 2 0 (Some (3, DW)) (Some (5, 9)) /\
  exists c l j m, nth_error ex_shared 9 = Some (Inst c l) /\ assoc "np" l = Some (Ref j) /\ nth_error ex_shared j = Some (Module m).
Proof.
  split; [|split].
  - intros x o y Hx Hy. change (List.length ex_shared) with 10.
    do 10 (destruct x as [|x]; [cbn in Hx; injection Hx as <-; cbn in Hy; lia|]). cbn in Hx. destruct x; discriminate Hx.
  - assert (B : basis_object nat ex_shared 2 0).
    { eexists _, _. split; [reflexivity|]. split; [reflexivity|]. split; [exists 0; reflexivity|]. split; [discriminate|]. split; [discriminate|].
      exists (Ref 1). split; [reflexivity|]. right. exists 1, 5. split; reflexivity. }
    split; [|split; [split; [exact B|]|]].
    + split; [discriminate|]. split; [exact B|]. eexists _, _. split; [reflexivity|]. split; reflexivity.
    + eexists _, _. split; [reflexivity|]. split; [cbn; repeat constructor; cbn; intuition discriminate|]. split.
      * intros key v Hin. cbn in Hin. destruct Hin as [E|[E|[E|[E|[E|[]]]]]]; injection E as <- <-; cbn; auto.
        -- right. left. exists (Buffer 5). auto.
        -- right. right. split; [reflexivity|]. exists 3, DW. auto.
      * intros p cl E. injection E as <- <-. split; [discriminate|]. split; [cbn; do 4 right; left; reflexivity|]. exists 1, (fun i => i). reflexivity.
    + eexists _, _. split; [reflexivity|]. split; [cbn; repeat constructor; cbn; intuition discriminate|]. split; [|split].
      * intros key v Hin. cbn in Hin. destruct Hin as [E|[E|[E|[]]]]; injection E as <- <-; auto. right. right. right. exists 5, 9. auto.
      * intros p cl E. injection E as <- <-. discriminate.
      * intros o t E. injection E as <- <-. split; [discriminate|]. split; [discriminate|]. split; [reflexivity|].
        eexists _, _. split; [reflexivity|]. split; [reflexivity|]. intros key v Hin. cbn in Hin. destruct Hin as [E|[E|[E|[]]]]; injection E as <- <-; auto.
        -- left. exists (Func 0 []). auto.
        -- left. exists (Func 1 []). auto.
  - eexists _, _, 0, 0. split; [reflexivity|]. split; reflexivity.
Qed.
