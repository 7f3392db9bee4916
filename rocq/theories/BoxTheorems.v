(** The constructor ODQD: independence of the eigensolver, and the particle in a box. *)
From Coq Require Import List Arith Reals Lra Lia Bool.
From Coquelicot Require Import Coquelicot.
From Verif Require Import Scalar ScalarC Py Numpy BasisSet Spec BasisSpec OneDim OneDimSpec OneDimProofs DotProofs GridSpec GridProofs QuadProofs SpectrumProofs NodeSpec NodeProofs ParityProofs ParitySpec ParityTheorems BoxProofs.
From Verif Require Import EnergySpec EnergyFacts Systems SystemFacts SystemProofs.
Import ListNotations.
Open Scope R_scope.

Lemma choose_signs (P : nat -> R -> Prop) n : (forall p, (p < n)%nat -> exists e, (e = 1 \/ e = -1) /\ P p e) -> exists e : nat -> R, (forall p, e p = 1 \/ e p = -1) /\ forall p, (p < n)%nat -> P p (e p).
Proof.
  induction n as [|n IH]; intros H; [exists (fun _ => 1); split; [left; reflexivity | lia]|]. destruct IH as (e & He & HP); [intros p Hp; apply H; lia|].
  destruct (H n ltac:(lia)) as (x & Hx & HPx). exists (fun p => if (p =? n)%nat then x else e p). split; [intros p; destruct (p =? n)%nat; auto|].
  intros p Hp. destruct (Nat.eqb_spec p n) as [->|]; [exact HPx | apply HP; lia].
Qed.
Lemma trapezoid_near n f g x : (forall i, (i < n)%nat -> f i = g i) -> trapezoid n f x = trapezoid n g x.
Proof.
  induction n as [|k IH]; intros H; [reflexivity|]. cbn [trapezoid]. destruct k as [|j]; [reflexivity|]. rewrite IH by (intros i Hi; apply H; lia). rewrite (H j), (H (S j)) by lia. reflexivity.
Qed.
Section Solver.
  Variables (npm : nat) (spin anti : bool) (l : nat) (L : R) (N : nat) (a alpha beta : R) (V : R -> R).
  Variables eigh eigh' : nat -> (nat -> nat -> R) -> (nat -> R) * (nat -> nat -> R).
  Variables b b' : basis CC.
  Hypothesis Hb : odqd npm spin anti l L N a alpha beta V eigh = (Ok tt, b).
  Hypothesis Hb' : odqd npm spin anti l L N a alpha beta V eigh' = (Ok tt, b').
  Hypothesis HL : 0 < L.
  Hypotheses (HE : solves L N V eigh) (HE' : solves L N V eigh').
  Lemma phi_sign : exists e : nat -> R, (forall p, e p = 1 \/ e p = -1) /\ forall p, (p < N - 2)%nat -> forall i, (i < N)%nat -> odqd_spf L N V eigh' p i = (RtoC (e p) * odqd_spf L N V eigh p i)%C.
  Proof.
    destruct (dot_result _ _ _ _ _ _ _ _ _ _ _ _ Hb) as (_ & H3 & _).
    apply (choose_signs (fun p e => forall i, (i < N)%nat -> odqd_spf L N V eigh' p i = (RtoC e * odqd_spf L N V eigh p i)%C)). intros p Hp.
    destruct (vectors_unique L N V _ _ _ _ HL H3 HE HE' p Hp) as (e & He & Ev). exists e. split; [exact He|]. intros i HiN.
    destruct i as [|i]; [rewrite !phi_first; cr|]. destruct (Nat.lt_ge_cases i (N - 2)) as [Hi|Hi].
    - rewrite !phi_inner by exact Hi. rewrite Ev by exact Hi. rewrite <- RtoC_mult. f_equal. unfold Rdiv. ring.
    - replace (S i) with (N - 1)%nat by lia. rewrite !phi_last. cr.
  Qed.
  Lemma dot_signs : exists (e : nat -> R) spf spf' h h' u u' d d', (forall p, e p = 1 \/ e p = -1) /\
    b_arr b F_spf = Some spf /\ b_arr b' F_spf = Some spf' /\ b_arr b F_h = Some h /\ b_arr b' F_h = Some h' /\
    b_arr b F_u = Some u /\ b_arr b' F_u = Some u' /\ b_arr b F_dip = Some d /\ b_arr b' F_dip = Some d' /\
    (forall p i, (p < l)%nat -> (i < N)%nat -> get spf' [p; i] = (RtoC (e p) * get spf [p; i])%C) /\
    (forall p q, (p < l)%nat -> (q < l)%nat -> mat h' p q = mat h p q) /\
    (forall p q r s, (p < l)%nat -> (q < l)%nat -> (r < l)%nat -> (s < l)%nat -> ten u' p q r s = (RtoC (e p * e q * e r * e s) * ten u p q r s)%C) /\
    (forall p q, (p < l)%nat -> (q < l)%nat -> get d' [0; p; q]%nat = (RtoC (e p * e q) * get d [0; p; q]%nat)%C).
  Proof.
    destruct phi_sign as (e & He & Ep). destruct (dot_result _ _ _ _ _ _ _ _ _ _ _ _ Hb) as (Eb & H3 & Hl). destruct (dot_result _ _ _ _ _ _ _ _ _ _ _ _ Hb') as (Eb' & _ & _).
    destruct (dot_spf _ _ _ _ _ _ _ _ _ _ _ _ Hb) as (f & Ef & _ & G). destruct (dot_spf _ _ _ _ _ _ _ _ _ _ _ _ Hb') as (f' & Ef' & _ & G').
    destruct (dot_two_body_value _ _ _ _ _ _ _ _ _ _ _ _ Hb) as (f1 & u & Ef1 & Eu & Gu). rewrite Ef in Ef1. injection Ef1 as <-.
    destruct (dot_two_body_value _ _ _ _ _ _ _ _ _ _ _ _ Hb') as (f1 & u' & Ef1 & Eu' & Gu'). rewrite Ef' in Ef1. injection Ef1 as <-.
    destruct (dot_dipole _ _ _ _ _ _ _ _ _ _ _ _ Hb) as (f1 & d & Ef1 & Ed & _ & Gd & _). rewrite Ef in Ef1. injection Ef1 as <-.
    destruct (dot_dipole _ _ _ _ _ _ _ _ _ _ _ _ Hb') as (f1 & d' & Ef1 & Ed' & _ & Gd' & _). rewrite Ef' in Ef1. injection Ef1 as <-.
    assert (Gs : forall p i, (p < l)%nat -> (i < N)%nat -> get f' [p; i] = (RtoC (e p) * get f [p; i])%C) by (intros p i Hp Hi; rewrite G, G' by exact Hp; apply Ep; lia).
    exists e, f, f'. eexists. eexists. exists u, u', d, d'. split; [exact He|]. split; [exact Ef|]. split; [exact Ef'|]. split; [rewrite Eb; reflexivity|]. split; [rewrite Eb'; reflexivity|].
    split; [exact Eu|]. split; [exact Eu'|]. split; [exact Ed|]. split; [exact Ed'|]. split; [exact Gs|]. split; [|split].
    - intros p q Hp Hq. change ((if (p =? q)%nat then RtoC (odqd_energy L N V eigh' p) else RtoC 0) = (if (p =? q)%nat then RtoC (odqd_energy L N V eigh p) else RtoC 0)).
      unfold odqd_energy. rewrite (levels_unique _ _ _ _ _ _ (grid_hamiltonian_sym L N V) HE HE' p) by lia. reflexivity.
    - intros p q r s Hp Hq Hr Hs. rewrite Gu, Gu' by assumption. cbv zeta. rewrite <- trapezoid_scal. apply trapezoid_near. intros i Hi.
      rewrite (trapezoid_near N _ (fun j => (RtoC (e q * e s) * (Cconj (get f [q; j]) * RtoC (alpha / sqrt ((point L N i - point L N j) ^ 2 + a ^ 2)) * get f [s; j]))%C)).
      + rewrite trapezoid_scal, (Gs p), (Gs r) by assumption. rewrite C_conj_mul, RtoC_conj, !RtoC_mult. cr.
      + intros j Hj. rewrite (Gs q), (Gs s) by assumption. rewrite C_conj_mul, RtoC_conj, !RtoC_mult. cr.
    - intros p q Hp Hq. rewrite Gd, Gd' by assumption. cbv zeta. rewrite <- trapezoid_scal. apply trapezoid_near. intros i Hi.
      rewrite (Gs p), (Gs q) by assumption. rewrite C_conj_mul, RtoC_conj, !RtoC_mult. cr.
  Qed.
  Lemma dot_same_energy (w w' : world CC) s s' n x x' : sys_at w s Spatial n l x b -> sys_at w' s' Spatial n l x' b' ->
    exists E, reference_energy s w = (Ok E, w) /\ reference_energy s' w' = (Ok E, w').
  Proof.
    intros A A'. destruct dot_signs as (e & f & f' & h & h' & u & u' & d & d' & He & _ & _ & Eh & Eh' & Eu & Eu' & _ & _ & _ & Gh & Gu & _).
    destruct (r_h _ _ _ (at_ready _ _ _ _ _ _ _ _ A)) as (x1 & E1 & Sh). rewrite Eh in E1. injection E1 as <-.
    destruct (r_u _ _ _ (at_ready _ _ _ _ _ _ _ _ A)) as (x1 & E1 & Su). rewrite Eu in E1. injection E1 as <-.
    destruct (r_h _ _ _ (at_ready _ _ _ _ _ _ _ _ A')) as (x1 & E1 & Sh'). rewrite Eh' in E1. injection E1 as <-.
    destruct (r_u _ _ _ (at_ready _ _ _ _ _ _ _ _ A')) as (x1 & E1 & Su'). rewrite Eu' in E1. injection E1 as <-.
    pose proof (at_le _ _ _ _ _ _ _ _ A) as Hle.
    eexists. split; [apply (reference_energy_ok CC w s Spatial n l x b h u A Eh Eu Sh Su)|]. rewrite (reference_energy_ok CC w' s' Spatial n l x' b' h' u' A' Eh' Eu' Sh' Su'). f_equal. f_equal.
    assert (Sq : forall p, e p * e p = 1) by (intros p; destruct (He p) as [->| ->]; ring).
    unfold E_restricted. f_equal; [f_equal; apply csum_ext; intros i Hi; apply Gh; lia|]. apply csum_ext. intros i Hi. apply csum_ext. intros j Hj.
    rewrite (Gu i j i j), (Gu i j j i) by lia. replace (e i * e j * e i * e j) with ((e i * e i) * (e j * e j)) by ring. replace (e i * e j * e j * e i) with ((e i * e i) * (e j * e j)) by ring. rewrite !Sq, Rmult_1_l.
    f_equal; [f_equal|]; cr.
  Qed.
End Solver.

(** ** The particle in a box *)
Section BoxDot.
  Variables (npm : nat) (spin anti : bool) (l : nat) (L : R) (N : nat) (a alpha beta c : R).
  Variable eigh : nat -> (nat -> nat -> R) -> (nat -> R) * (nat -> nat -> R).
  Variable b : basis CC.
  Hypothesis Hb : odqd npm spin anti l L N a alpha beta (fun _ => c) eigh = (Ok tt, b).
  Hypothesis HL : 0 < L.
  Hypothesis HE : solves L N (fun _ => c) eigh.
  Lemma box_values : exists spf h, b_arr b F_spf = Some spf /\ b_arr b F_h = Some h /\ forall p, (p < l)%nat ->
    mat h p p = RtoC (c + (1 - cos (INR (p + 1) * PI / INR (N - 1))) / spacing L N ^ 2) /\
    exists e, (e = 1 \/ e = -1) /\ forall i, (i < N)%nat -> get spf [p; i] = RtoC (e * (sqrt (/ L) * sin (INR (p + 1) * PI * (point L N i + L) / (2 * L)))).
  Proof.
    destruct (dot_result _ _ _ _ _ _ _ _ _ _ _ _ Hb) as (Eb & H3 & Hl). destruct (dot_spf _ _ _ _ _ _ _ _ _ _ _ _ Hb) as (f & Ef & _ & G).
    pose proof (spacing_pos L N HL ltac:(lia)) as D. assert (M : 0 < INR (N - 1)) by (apply lt_0_INR; lia).
    exists f. eexists. split; [exact Ef|]. split; [rewrite Eb; reflexivity|]. intros p Hp. replace (p + 1)%nat with (S p) by lia. split.
    - change ((if (p =? p)%nat then RtoC (odqd_energy L N (fun _ => c) eigh p) else RtoC 0) = RtoC (box_level L N c p)). rewrite Nat.eqb_refl. f_equal.
      unfold odqd_energy. apply (levels_unique _ _ _ _ _ _ (grid_hamiltonian_sym L N (fun _ => c)) HE (box_right' L N c HL H3)). lia.
    - destruct (vectors_unique L N (fun _ => c) _ _ _ _ HL H3 (box_right' L N c HL H3) HE p ltac:(lia)) as (e & He & Ev). exists e. split; [exact He|]. intros i Hi. rewrite G by exact Hp.
      rewrite (phi_yv _ _ _ _ _ _ _ _ _ _ _ _ Hb HL) by exact Hi. f_equal.
      assert (Ang : INR (S p) * PI * (point L N i + L) / (2 * L) = INR i * box_angle N p) by (unfold point, box_angle; field; lra). rewrite Ang.
      assert (Amp : sqrt (2 / INR (N - 1)) / sqrt (spacing L N) = sqrt (/ L)).
      { rewrite <- sqrt_div_alt by exact D. f_equal. unfold spacing. field. lra. }
      destruct i as [|i]; [cbn; rewrite Rmult_0_l, sin_0; unfold Rdiv; ring|]. destruct (Nat.lt_ge_cases i (N - 2)) as [Hi'|Hi'].
      + rewrite yv_S by exact Hi'. rewrite Ev by exact Hi'. unfold box_vector. rewrite <- Amp. unfold Rdiv. ring.
      + replace (S i) with (S (N - 2)) by lia. rewrite yv_n. unfold box_angle. replace (INR (S (N - 2)) * (INR (S p) * PI / INR (N - 1))) with (INR (S p) * PI) by (replace (S (N - 2)) with (N - 1)%nat by lia; field; lra).
        rewrite sin_multiple. unfold Rdiv. ring.
  Qed.
  Lemma box_error : exists h, b_arr b F_h = Some h /\ forall p, (p < l)%nat ->
    let k := INR (p + 1) * PI / (2 * L) in c + k ^ 2 / 2 - k ^ 4 / 24 * spacing L N ^ 2 <= Re (mat h p p) <= c + k ^ 2 / 2.
  Proof.
    destruct (dot_result _ _ _ _ _ _ _ _ _ _ _ _ Hb) as (_ & H3 & Hl). destruct box_values as (f & h & _ & Eh & G). exists h. split; [exact Eh|]. intros p Hp k.
    rewrite (proj1 (G p Hp)). cbn [Re RtoC fst]. unfold k. replace (p + 1)%nat with (S p) by lia. apply (level_taylor L N c p HL H3). lia.
  Qed.
End BoxDot.
Lemma box_limit npm spin anti a alpha beta c eigh L p eps : 0 < L -> 0 < eps -> (forall N, solves L N (fun _ => c) eigh) ->
  exists N0, forall N l b, (N0 <= N)%nat -> (p < l)%nat -> odqd npm spin anti l L N a alpha beta (fun _ => c) eigh = (Ok tt, b) ->
  exists h, b_arr b F_h = Some h /\ Rabs (Re (mat h p p) - (c + (INR (p + 1) * PI / (2 * L)) ^ 2 / 2)) < eps.
Proof.
  intros HL He HE. set (k := INR (p + 1) * PI / (2 * L)). set (B := k ^ 4 / 24 * (2 * L) ^ 2). assert (B0 : 0 <= B).
  { unfold B. apply Rmult_le_pos; [|apply pow2_ge_0]. assert (0 <= k ^ 4) by (replace (k ^ 4) with ((k ^ 2) ^ 2) by ring; apply pow2_ge_0). lra. }
  destruct (archimed_cor1 (eps / (B + 1)) ltac:(apply Rdiv_lt_0_compat; lra)) as (m & Hm & Hm0). exists (m + 1)%nat. intros N l b HN Hp Hb.
  destruct (dot_result _ _ _ _ _ _ _ _ _ _ _ _ Hb) as (_ & H3 & _).
  destruct (box_error _ _ _ _ _ _ _ _ _ _ _ b Hb HL (HE N)) as (h & Eh & G). exists h. split; [exact Eh|]. specialize (G p Hp). cbv zeta in G. fold k in G.
  assert (M : 0 < INR m) by (apply lt_0_INR; lia). assert (M1 : INR m <= INR (N - 1)) by (apply le_INR; lia).
  assert (D : k ^ 4 / 24 * spacing L N ^ 2 < eps).
  { replace (k ^ 4 / 24 * spacing L N ^ 2) with (B * (/ INR (N - 1)) ^ 2) by (unfold B, spacing; field; lra).
    assert (I1 : / INR (N - 1) <= / INR m) by (apply Rinv_le_contravar; lra). assert (I0 : 0 < / INR (N - 1)) by (apply Rinv_0_lt_compat; lra).
    assert (I2 : / INR (N - 1) <= 1) by (rewrite <- Rinv_1; apply Rinv_le_contravar; [lra|]; change 1 with (INR 1); apply le_INR; lia).
    assert (I3 : (/ INR (N - 1)) ^ 2 <= / INR m). { replace ((/ INR (N - 1)) ^ 2) with (/ INR (N - 1) * / INR (N - 1)) by ring. apply Rle_trans with (/ INR m * 1); [|lra]. apply Rmult_le_compat; lra. }
    apply Rle_lt_trans with (B * / INR m); [apply Rmult_le_compat_l; assumption|]. assert (Q : (B + 1) * / INR m < eps).
    { apply Rmult_lt_compat_l with (r := B + 1) in Hm; [|lra]. replace ((B + 1) * (eps / (B + 1))) with eps in Hm by (field; lra). exact Hm. }
    assert (0 < / INR m) by (apply Rinv_0_lt_compat; lra). lra. }
  apply Rabs_def1; lra.
Qed.
(** An eigensolver that is right for every box. *)
Definition box_solver (L c : R) (n : nat) (h : nat -> nat -> R) : (nat -> R) * (nat -> nat -> R) := (box_level L (n + 2) c, box_vector (n + 2)).
Lemma box_solver_right L c N : 0 < L -> solves L N (fun _ => c) (box_solver L c).
Proof.
  intros HL. destruct (Nat.lt_ge_cases N 3) as [H|H].
  - unfold solves. replace (N - 2)%nat with 0%nat by lia. split; intros; lia.
  - unfold solves, box_solver. cbn [fst snd]. replace (N - 2 + 2)%nat with N by lia. apply box_right'; assumption.
Qed.
(** Two solvers with different signs *)
Definition other_solver (n : nat) (h : nat -> nat -> R) : (nat -> R) * (nat -> nat -> R) := (fst (eigh2 n h), fun i p => (if (p =? 0)%nat then -1 else 1) * snd (eigh2 n h) i p).
Lemma other_right : solves (3 / 2) 4 small_well other_solver.
Proof.
  destruct eigh2_right as [O E A]. unfold solves. split; [intros p q Hp Hq | intros i p Hi Hp | exact A].
  - rewrite <- (O p q Hp Hq). assert (S0 : forall i, (RtoC (snd (other_solver 2 (grid_hamiltonian (3 / 2) 4 small_well)) i p) * RtoC (snd (other_solver 2 (grid_hamiltonian (3 / 2) 4 small_well)) i q))%C = (RtoC ((if (p =? 0)%nat then -1 else 1) * (if (q =? 0)%nat then -1 else 1)) * (RtoC (snd (eigh2 2 (grid_hamiltonian (3 / 2) 4 small_well)) i p) * RtoC (snd (eigh2 2 (grid_hamiltonian (3 / 2) 4 small_well)) i q)))%C) by (intros i; unfold other_solver; cbn [snd]; rewrite !RtoC_mult; cr).
    change (4 - 2)%nat with 2%nat. rewrite (csum_ext 2 _ _ (fun i _ => S0 i)), <- csum_scal. rewrite (O p q Hp Hq). unfold kronecker. destruct (Nat.eqb_spec p q) as [->|_]; [destruct (q =? 0)%nat|]; rewrite <- RtoC_mult; f_equal; ring.
  - change (4 - 2)%nat with 2%nat. rewrite (csum_ext 2 _ (fun j => (RtoC (if (p =? 0)%nat then -1 else 1) * (RtoC (grid_hamiltonian (3 / 2) 4 small_well i j) * RtoC (snd (eigh2 2 (grid_hamiltonian (3 / 2) 4 small_well)) j p)))%C)) by (intros j _; unfold other_solver; cbn [snd]; rewrite !RtoC_mult; cr).
    rewrite <- csum_scal, (E i p Hi Hp). unfold other_solver. cbn [fst snd]. rewrite !RtoC_mult. cr.
Qed.
