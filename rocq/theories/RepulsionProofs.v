(** Energies of systems on one-dimensional quantum dots with a repulsive interaction, and
    Hermiticity at all times. *)
From Coq Require Import List Arith ZArith Reals Lra Lia Bool.
From Coquelicot Require Import Coquelicot.
From Verif Require Import Scalar ScalarC Py Numpy BasisSet Spec BasisSpec EnergySpec OneDim OneDimSpec OneDimProofs DotProofs LineProofs GridSpec GridProofs.
From Verif Require Import Systems SystemFacts SystemProofs Worlds OperatorSpec OperatorProofs.
Import ListNotations.
Open Scope R_scope.

Lemma grid_step_nonneg L N : 0 <= L -> (2 <= N)%nat -> 0 <= linspace L N 1 - linspace L N 0.
Proof. intros H H2. rewrite (linspace_step L N 0). apply Rmult_le_pos; [lra|]. left. apply Rinv_0_lt_compat, lt_0_INR. lia. Qed.
Lemma dot_repulsive npm spin anti l L N a alpha beta V eigh b :
  odqd npm spin anti l L N a alpha beta V eigh = (Ok tt, b) -> 0 <= L -> 0 <= alpha -> a <> 0 ->
  exists u, b_arr b F_u = Some u /\ shape u = [l; l; l; l] /\ repulsive l (ten u).
Proof.
  intros Hb HL Ha Hs. destruct (dot_result _ _ _ _ _ _ _ _ _ _ _ _ Hb) as (-> & H3 & _). eexists. split; [reflexivity|]. split; [reflexivity|].
  intros p q _ _. pose proof (grid_step_nonneg L N HL ltac:(lia)). split; [apply direct_nonneg; assumption | apply exchange_below; assumption].
Qed.
Lemma line_repulsive npm spin anti l L N omega a alpha beta b :
  odho npm spin anti l L N omega a alpha beta = (Ok tt, b) -> 0 <= L -> 0 <= alpha -> a <> 0 ->
  exists u, b_arr b F_u = Some u /\ shape u = [l; l; l; l] /\ repulsive l (ten u).
Proof.
  intros Hb HL Ha Hs. destruct (odho_result _ _ _ _ _ _ _ _ _ _ _ Hb) as (-> & H2). eexists. split; [reflexivity|]. split; [reflexivity|].
  intros p q _ _. pose proof (grid_step_nonneg L N HL H2). split; [apply direct_nonneg; assumption | apply exchange_below; assumption].
Qed.

(** ** Energies *)
Lemma nonneg_plus (y z : C) : nonneg y -> nonneg z -> nonneg (y + z)%C.
Proof. intros [A B] [D E]. destruct y, z. cbn in *. split; cbn; lra. Qed.
Lemma restricted_bound n h u : repulsive n u -> nonneg (E_restricted (K := CC) n h u - RtoC 2 * csum n (fun i => h i i))%C.
Proof.
  intros R. assert (E : (E_restricted (K := CC) n h u - RtoC 2 * csum n (fun i => h i i))%C = csum n (fun i => csum n (fun j => (u i j i j + (u i j i j - u i j j i))%C))).
  { unfold E_restricted. rewrite (csum_ext n (fun i => csum n (fun j => (u i j i j + (u i j i j - u i j j i))%C)) (fun i => csum n (fun j => @ssub CC (@smul CC (@sadd CC (@s1 CC) (@s1 CC)) (u i j i j)) (u i j j i)))).
    - set (x := csum n (fun i => h i i)). set (y := csum n _). change (@sadd CC) with Cplus. change (@smul CC) with Cmult. change (@s1 CC) with (RtoC 1). rewrite <- RtoC_plus. replace (1 + 1) with 2 by ring. cr.
    - intros i _. apply csum_ext. intros j _. change (@ssub CC) with Cminus. change (@sadd CC) with Cplus. change (@smul CC) with Cmult. change (@s1 CC) with (RtoC 1). cr. }
  rewrite E. apply nonneg_sum. intros i Hi. apply nonneg_sum. intros j Hj. apply nonneg_plus; apply (R i j Hi Hj).
Qed.
Lemma repulsive_le n m u : (m <= n)%nat -> repulsive n u -> repulsive m u.
Proof. intros H R p q Hp Hq. apply R; lia. Qed.
Lemma spatial_energy (w : world CC) s n l x (b : basis CC) (h u : carr) : sys_at w s Spatial n l x b ->
  b_arr b F_h = Some h -> b_arr b F_u = Some u -> repulsive l (ten u) ->
  exists e, reference_energy s w = (Ok e, w) /\ nonneg (e - RtoC 2 * csum n (fun i => mat h i i))%C.
Proof.
  intros A Hh Hu R. pose proof (at_ready _ _ _ _ _ _ _ _ A) as Rd.
  destruct (r_h _ _ _ Rd) as (h' & Eh & Sh). destruct (r_u _ _ _ Rd) as (u' & Eu & Su). rewrite Hh in Eh. injection Eh as <-. rewrite Hu in Eu. injection Eu as <-.
  eexists. split; [apply (reference_energy_ok CC w s Spatial n l x b h u A Hh Hu Sh Su)|]. apply restricted_bound. apply (repulsive_le l); [exact (at_le _ _ _ _ _ _ _ _ A) | exact R].
Qed.

(** ** Hermiticity at all times *)
Section Hermitian.
  Variable K : scalar.
  Local Open Scope K_scope.
  Lemma hermitian_term n (h A : nat -> nat -> K) (c : K) (f : nat -> nat -> K) : hermitian n h -> hermitian n A -> sconj c = c ->
    (forall p q, (p < n)%nat -> (q < n)%nat -> f p q = h p q + c * A p q) -> hermitian n f.
  Proof.
    intros Hh HA Hc E p q Hp Hq. rewrite !E by assumption. rewrite (Hh p q Hp Hq), (HA p q Hp Hq), conj_add, conj_mul, Hc. reflexivity.
  Qed.
  Lemma hermitian_dipole n dim (eps : nat -> K) (d : arr K) : (forall i, (i < dim)%nat -> sconj (eps i) = eps i) ->
    (forall i, (i < dim)%nat -> hermitian n (fun p q => get d [i; p; q])) -> hermitian n (fun p q => sumn dim (fun i => eps i * get d [i; p; q])).
  Proof.
    intros He Hd p q Hp Hq. rewrite (sumn_conj K). apply (sumn_ext K). intros i Hi. rewrite conj_mul, He, (Hd i Hi p q Hp Hq) by exact Hi. reflexivity.
  Qed.
  Lemma hermitian2_scaled n (u f : nat -> nat -> nat -> nat -> K) c : hermitian2 n u -> sconj c = c ->
    (forall p q r s, (p < n)%nat -> (q < n)%nat -> (r < n)%nat -> (s < n)%nat -> f p q r s = c * u p q r s) -> hermitian2 n f.
  Proof. intros Hu Hc E p q r s Hp Hq Hr Hs. rewrite !E by assumption. rewrite (Hu p q r s Hp Hq Hr Hs), conj_mul, Hc. reflexivity. Qed.
  Lemma hermitian_aeq n (a b : arr K) : shape b = [n; n] -> aeq a b -> hermitian n (mat b) -> hermitian n (mat a).
  Proof. intros Sb [Ss Ge] H p q Hp Hq. unfold mat in *. rewrite !Ge by (rewrite Ss, Sb; repeat constructor; assumption). apply H; assumption. Qed.
  Lemma hermitian2_aeq n (a b : arr K) : shape b = [n; n; n; n] -> aeq a b -> hermitian2 n (ten b) -> hermitian2 n (ten a).
  Proof. intros Sb [Ss Ge] H p q r s Hp Hq Hr Hs. unfold ten in *. rewrite !Ge by (rewrite Ss, Sb; repeat constructor; assumption). apply H; assumption. Qed.
  Section World.
    Variables (w : world K) (s o : nat) (x : system) (b : basis K) (l : nat) (h u : arr K) (y : option nat).
    Hypothesis H1 : nth_error (w_sy w) s = Some x.
    Hypothesis H2 : sy_np x <> None.
    Hypothesis H3 : nth_error (w_bs w) (sy_bs x) = Some b.
    Hypothesis Hh : b_arr b F_h = Some h.
    Hypothesis Hu : b_arr b F_u = Some u.
    Hypothesis Sh : shape h = [l; l].
    Hypothesis Su : shape u = [l; l; l; l].
    Hypothesis Rh : hermitian l (mat h).
    Hypothesis Ru : hermitian2 l (ten u).
    (** h(t) and u(t) at time t after any reads *)
    Definition hermitian_at (w1 : world K) (t : K) : Prop := forall ops, List.Forall reads ops -> exists ht w2 ut,
      sys_h_t s t (wrun_any ops w1) = (Ok (Some ht), w2) /\ shape ht = [l; l] /\ hermitian l (mat ht) /\
      sys_u_t s t (wrun_any ops w1) = (Ok (Some ut), wrun_any ops w1) /\ shape ut = [l; l; l; l] /\ hermitian2 l (ten ut).
    Lemma laser_hermitian dim (d : arr K) pulse pol E eps : b_arr b F_dip = Some d -> shape d = [dim; l; l] -> (0 < dim)%nat ->
      nth_error (w_op w) o = Some (Tevo (laser_field pulse pol) y) -> number_of [] pulse E -> polarization_of [] pol dim eps ->
      (callable pulse = true \/ exists v, pol = Some v /\ callable v = true) ->
      (forall i, (i < dim)%nat -> hermitian l (fun p q => get d [i; p; q])) ->
      exists w1, set_time_evolution_operator s (Some o) w = (Ok tt, w1) /\
        forall t, sconj (E t) = E t -> (forall i, (i < dim)%nat -> sconj (eps t i) = eps t i) -> hermitian_at w1 t.
    Proof.
      intros Hd Sd Hp Ho HE He Hc Rd. destruct (laser_semantics K w s o x b l dim h u d pulse pol E eps y) as (w1 & A & B); try assumption.
      exists w1. split; [exact A|]. intros t RE Re ops Hr. destruct (B ops t Hr) as (ht & w2 & ut & B1 & B2 & B3 & B4 & B5). exists ht, w2, ut.
      split; [exact B1|]. split; [exact B2|]. split.
      - apply (hermitian_term l (mat h) (fun p q => sumn dim (fun i => eps t i * get d [i; p; q])) (E t)); [exact Rh | apply hermitian_dipole; [exact Re | exact Rd] | exact RE | exact B3].
      - split; [exact B4|]. split; [rewrite (proj1 B5); exact Su|]. apply (hermitian2_aeq l ut u Su B5 Ru).
    Qed.
    Lemma switching_hermitian f E : nth_error (w_op w) o = Some (Tevo (adiabatic_switching f) y) -> number_of [] f E ->
      exists w1, set_time_evolution_operator s (Some o) w = (Ok tt, w1) /\ forall t, sconj (E t) = E t -> hermitian_at w1 t.
    Proof.
      intros Ho HE. destruct (switching_semantics K w s o x b l h u f E y) as (w1 & A & B); try assumption.
      exists w1. split; [exact A|]. intros t RE ops Hr. destruct (B ops t Hr) as (ht & w2 & ut & B1 & B2 & B3 & B4 & B5). exists ht, w2, ut.
      split; [exact B1|]. split; [rewrite (proj1 B2); exact Sh|]. split; [apply (hermitian_aeq l ht h Sh B2 Rh)|]. split; [exact B3|]. split; [exact B4|].
      apply (hermitian2_scaled l (ten u) (ten ut) (E t) Ru RE B5).
    Qed.
    Lemma custom_hermitian wt (A : arr K) E : shape A = [l; l] -> nth_error (w_op w) o = Some (Tevo (custom_one_body wt A) y) -> number_of [] wt E ->
      hermitian l (mat A) ->
      exists w1, set_time_evolution_operator s (Some o) w = (Ok tt, w1) /\ forall t, sconj (E t) = E t -> hermitian_at w1 t.
    Proof.
      intros SA Ho HE RA. destruct (custom_semantics K w s o x b l h u wt A E y) as (w1 & A' & B); try assumption.
      exists w1. split; [exact A'|]. intros t RE ops Hr. destruct (B ops t Hr) as (ht & w2 & ut & B1 & B2 & B3 & B4 & B5). exists ht, w2, ut.
      split; [exact B1|]. split; [exact B2|]. split; [apply (hermitian_term l (mat h) (mat A) (E t)); [exact Rh | exact RA | exact RE | exact B3]|].
      split; [exact B4|]. split; [rewrite (proj1 B5); exact Su|]. apply (hermitian2_aeq l ut u Su B5 Ru).
    Qed.
  End World.
End Hermitian.
(** ** The spin-doubled system *)
Lemma general_energy (w : world CC) s n l x (b : basis CC) (h u ov : carr) (va vb : list CC) : sys_at w s Spatial n l x b ->
  b_arr b F_h = Some h -> b_arr b F_u = Some u -> repulsive l (ten u) ->
  b_cls b = Base -> b_spin b = false -> b_asym b = false -> b_arr b F_s = Some ov -> (b_arr b F_spf = None -> b_arr b F_bra = None) ->
  sy_op x = None -> orthonormal_pair va vb ->
  exists w' g e, construct_general s va vb true w = (Ok g, w') /\ reference_energy g w' = (Ok e, w') /\
    nonneg (e - RtoC 2 * csum n (fun i => mat h i i))%C.
Proof.
  intros A Hh Hu R Hc Hs Ha Ho Hf Hop Hp. destruct (spatial_energy w s n l x b h u A Hh Hu R) as (e & E & B).
  destruct (reference_energies_agree CC s va vb w n l x b ov A Hc Hp Hs Ha Ho Hf Hop) as (w' & g & e' & C1 & C2 & _ & C3).
  rewrite E in C2. injection C2 as <-. exists w', g, e. auto.
Qed.
