(** The constructors of one-dim_qd.py and the systems made from their basis sets. *)
From Coq Require Import List Arith Reals Lra Lia Bool.
From Coquelicot Require Import Coquelicot.
From Verif Require Import Scalar ScalarC Py Numpy BasisSet Spec BasisSpec OneDim OneDimSpec OneDimProofs DotProofs LineProofs GridSpec GridProofs QuadProofs SpectrumProofs NodeSpec NodeProofs ParitySpec ParityProofs Potentials.
From Verif Require Import EnergySpec EnergyFacts Systems SystemFacts SystemProofs DensitySpec DensityProofs.
Import ListNotations.
Open Scope R_scope.

Section Dot.
  Variables (npm : nat) (spin anti : bool) (l : nat) (L : R) (N : nat) (a alpha beta : R) (V : R -> R).
  Variable eigh : nat -> (nat -> nat -> R) -> (nat -> R) * (nat -> nat -> R).
  Notation grid := (linspace L N).
  Notation dot := (odqd npm spin anti l L N a alpha beta V eigh).
  Notation phi := (odqd_spf L N V eigh).
  Notation hg := (grid_hamiltonian L N V).
  Notation w := (fst (eigh (N - 2)%nat hg)).
  Notation v := (snd (eigh (N - 2)%nat hg)).
  Notation dx := (spacing L N).
  Variable b : basis CC.
  Hypothesis Hb : dot = (Ok tt, b).
  Hypothesis HL : 0 < L.
  Hypothesis HE : eigenbasis (N - 2) hg w v.

  Definition yv (p k : nat) : R := match k with O => 0 | S i => if (i <? N - 2)%nat then v i p else 0 end.
  Lemma H3 : (3 <= N)%nat.
  Proof. apply (dot_result _ _ _ _ _ _ _ _ _ _ _ _ Hb). Qed.
  Lemma dx_pos : 0 < dx.
  Proof. apply spacing_pos; [exact HL|]. pose proof H3. lia. Qed.
  Lemma t_pos : 0 < / (2 * dx ^ 2).
  Proof. pose proof dx_pos. apply Rinv_0_lt_compat, Rmult_lt_0_compat; [lra | apply pow_lt; lra]. Qed.
  Definition av (k : nat) : R := / dx ^ 2 + V (point L N (S k)).
  Lemma yv_0 p : yv p 0 = 0. Proof. reflexivity. Qed.
  Lemma yv_n p : yv p (S (N - 2)) = 0.
  Proof. cbn [yv]. rewrite Nat.ltb_irrefl. reflexivity. Qed.
  Lemma yv_S p i : (i < N - 2)%nat -> yv p (S i) = v i p.
  Proof. intros H. cbn [yv]. apply Nat.ltb_lt in H. rewrite H. reflexivity. Qed.
  Lemma yv_rec p k : (p < N - 2)%nat -> (k < N - 2)%nat -> (av k - w p) * yv p (S k) = / (2 * dx ^ 2) * (yv p k + yv p (S (S k))).
  Proof.
    intros Hp Hk. pose proof H3 as H. pose proof dx_pos as Hd.
    pose proof (matrix_difference L N V HL (yv p) k H Hk (yv_0 p)) as E. replace (N - 1)%nat with (S (N - 2)) in E by lia. specialize (E (yv_n p)).
    unfold apply_h in E. rewrite (rsum_ext (N - 2) _ (fun j => hg k j * v j p)) in E by (intros j Hj; rewrite yv_S by exact Hj; reflexivity).
    rewrite (eb_e (N - 2) hg w v HE k p Hk Hp) in E. rewrite <- (yv_S p k Hk) in E. unfold av.
    transitivity ((/ dx ^ 2 + V (point L N (S k))) * yv p (S k) - w p * yv p (S k)); [ring|]. rewrite E. field. lra.
  Qed.
  Lemma yv_orth p q : (p < N - 2)%nat -> (q < N - 2)%nat -> rsum (N - 2) (fun k => yv p (S k) * yv q (S k)) = rdelta p q.
  Proof. intros Hp Hq. rewrite <- (eb_o (N - 2) hg w v HE p q Hp Hq). apply rsum_ext. intros k Hk. rewrite !yv_S by exact Hk. reflexivity. Qed.
  Lemma yv_asc p q : (p <= q)%nat -> (q < N - 2)%nat -> w p <= w q.
  Proof. apply (eb_ascending _ _ _ _ HE). Qed.
  Lemma root_pos : 0 < sqrt dx. Proof. apply sqrt_lt_R0, dx_pos. Qed.
  Lemma phi_yv p i : (i < N)%nat -> phi p i = RtoC (yv p i / sqrt dx).
  Proof.
    intros Hi. pose proof H3 as H. destruct i as [|i]; [cbn; f_equal; pose proof root_pos; field; lra|].
    destruct (Nat.eq_dec (S i) (N - 1)) as [E|E]; [rewrite E, phi_last; replace (N - 1)%nat with (S (N - 2)) by lia; rewrite yv_n; f_equal; pose proof root_pos; field; lra|].
    rewrite phi_inner by lia. rewrite yv_S by lia. rewrite linspace_spacing. reflexivity.
  Qed.

  Lemma dot_simple : exists h, b_arr b F_h = Some h /\ forall p q, (p < q)%nat -> (q < l)%nat -> Re (mat h p p) < Re (mat h q q).
  Proof.
    destruct (dot_result _ _ _ _ _ _ _ _ _ _ _ _ Hb) as (Eb & _ & Hl). eexists. split; [rewrite Eb; reflexivity|]. intros p q Hpq Hq.
    change (Re (if (p =? p)%nat then RtoC (w p) else RtoC 0) < Re (if (q =? q)%nat then RtoC (w q) else RtoC 0)). rewrite !Nat.eqb_refl. cbn.
    apply (strict (N - 2) (/ (2 * dx ^ 2)) av w yv t_pos yv_0 yv_rec yv_orth yv_asc p q Hpq). lia.
  Qed.
  Lemma flips_scale c l0 : 0 < c -> forall x, flips (x * c) (map (fun z => z * c) l0) = flips x l0.
  Proof.
    intros Hc. induction l0 as [|z l0 IH]; intros x; [reflexivity|]. cbn [map flips]. f_equal.
    - replace (x * c * (z * c)) with ((x * z) * (c * c)) by ring. assert (P : 0 < c * c) by (apply Rmult_lt_0_compat; lra).
      destruct (Rlt_dec (x * z * (c * c)) 0) as [A|A], (Rlt_dec (x * z) 0) as [B|B]; try reflexivity; exfalso.
      + apply B. apply Rmult_lt_reg_r with (c * c); lra.
      + apply A. replace 0 with (0 * (c * c)) by ring. apply Rmult_lt_compat_r; assumption.
    - destruct (Req_EM_T (z * c) 0) as [A|A], (Req_EM_T z 0) as [B|B]; try apply IH; exfalso; [apply Rmult_integral in A; destruct A; [auto|lra] | apply A; rewrite B; ring].
  Qed.
  Lemma dot_nodes : exists spf, b_arr b F_spf = Some spf /\ forall p, (p < l)%nat -> nodes N (fun i => Re (get spf [p; i])) = p.
  Proof.
    destruct (dot_spf _ _ _ _ _ _ _ _ _ _ _ _ Hb) as (spf & E & _ & G). destruct (dot_result _ _ _ _ _ _ _ _ _ _ _ _ Hb) as (_ & H3' & Hl).
    exists spf. split; [exact E|]. intros p Hp. pose proof (nodes_right (N - 2) (/ (2 * dx ^ 2)) av w yv t_pos yv_0 yv_n yv_rec yv_orth yv_asc p ltac:(lia)) as Z.
    replace (S (S (N - 2))) with N in Z by lia. transitivity (nodes N (yv p)); [|exact Z]. unfold nodes. rewrite <- (flips_scale (/ sqrt dx) (map (yv p) (seq 0 N)) (Rinv_0_lt_compat _ root_pos) 0), Rmult_0_l, map_map. f_equal.
    apply map_ext_in. intros i Hi. apply in_seq in Hi. rewrite (G p i Hp), phi_yv by lia. reflexivity.
  Qed.
  Lemma dot_ground : (0 < l)%nat -> exists spf, b_arr b F_spf = Some spf /\ forall i, (0 < i)%nat -> (i + 2 < N)%nat -> 0 < Re (get spf [0; i]%nat) * Re (get spf [0; S i]%nat).
  Proof.
    intros H0. destruct (dot_spf _ _ _ _ _ _ _ _ _ _ _ _ Hb) as (spf & E & _ & G). destruct (dot_result _ _ _ _ _ _ _ _ _ _ _ _ Hb) as (_ & H3' & Hl).
    exists spf. split; [exact E|]. intros i Hi Hn. assert (P0 : (0 < N - 2)%nat) by lia.
    pose proof (nodes_right (N - 2) (/ (2 * dx ^ 2)) av w yv t_pos yv_0 yv_n yv_rec yv_orth yv_asc 0 P0) as Z.
    destruct (nodes_count (N - 2) (/ (2 * dx ^ 2)) av w yv t_pos yv_0 yv_n yv_rec yv_orth 0 P0) as [E1 _]. rewrite Z in E1.
    rewrite (G 0%nat i H0), (G 0%nat (S i) H0), !phi_yv by lia. cbn [Re fst RtoC].
    assert (Empty : forall f k m j, length (filter f (seq k m)) = 0%nat -> (k <= j < k + m)%nat -> f j = false).
    { intros f k m j Hf Hj. destruct (f j) eqn:X; [|reflexivity]. exfalso. assert (In j (filter f (seq k m))) by (apply filter_In; split; [apply in_seq; lia | exact X]).
      destruct (filter f (seq k m)); [contradiction | discriminate Hf]. }
    assert (Ni : isneg yv 0 i = false) by (apply (Empty _ 1%nat (N - 2 - 1)%nat); lia).
    assert (Nz : forall j, (1 <= j <= N - 2)%nat -> yv 0 j <> 0).
    { intros j Hj. destruct (Nat.eq_dec j 1) as [->|]; [apply (first_nonzero (N - 2) (/ (2 * dx ^ 2)) av w yv t_pos yv_0 yv_rec yv_orth 0 P0)|].
      assert (X : iszero yv 0 j = false) by (apply (Empty _ 2%nat (N - 2 - 1)%nat); lia). unfold iszero in X. destruct (Req_EM_T (yv 0 j) 0); [discriminate X | assumption]. }
    unfold isneg in Ni. destruct (Rlt_dec (yv 0 i * yv 0 (S i)) 0) as [?|A]; [discriminate Ni|].
    assert (B : yv 0 i * yv 0 (S i) <> 0) by (apply Rmult_integral_contrapositive; split; apply Nz; lia).
    replace (yv 0 i / sqrt dx * (yv 0 (S i) / sqrt dx)) with ((yv 0 i * yv 0 (S i)) / (sqrt dx * sqrt dx)) by (pose proof root_pos; field; lra).
    apply Rdiv_lt_0_compat; [lra|]. apply Rmult_lt_0_compat; apply root_pos.
  Qed.

  Section Even.
    Hypothesis HV : forall x, - L <= x <= L -> V (- x) = V x.
    Lemma point_in k : (k < N)%nat -> - L <= point L N k <= L.
    Proof.
      intros Hk. pose proof H3 as H. assert (0 < INR (N - 1)) by (apply lt_0_INR; lia). assert (0 <= INR k <= INR (N - 1)) by (split; [apply pos_INR | apply le_INR; lia]).
      unfold point. assert (A : 0 <= INR k / INR (N - 1) <= 1).
      { split; [apply Rmult_le_pos; [lra | apply Rlt_le, Rinv_0_lt_compat; lra]|]. apply Rmult_le_reg_r with (INR (N - 1)); [lra|]. replace (INR k / INR (N - 1) * INR (N - 1)) with (INR k) by (field; lra). lra. }
      replace (2 * L * INR k / INR (N - 1)) with (2 * L * (INR k / INR (N - 1))) by (field; lra).
      split; [|apply Rmult_le_compat_l with (r := 2 * L) in A as A1 || idtac].
      - pose proof (Rmult_le_pos (2 * L) (INR k / INR (N - 1)) ltac:(lra) (proj1 A)). lra.
      - pose proof (Rmult_le_compat_l (2 * L) _ _ ltac:(lra) (proj2 A)). lra.
    Qed.
    Lemma av_even k : (k < N - 2)%nat -> av (N - 2 - 1 - k) = av k.
    Proof.
      intros Hk. unfold av. f_equal. rewrite <- (HV (point L N (S k))) by (apply point_in; lia). f_equal. rewrite <- !linspace_point. replace (S (N - 2 - 1 - k)) with (N - 1 - S k)%nat by lia. apply linspace_mirror; lia.
    Qed.
    Lemma phi_alternates p i : (p < N - 2)%nat -> (i < N)%nat -> phi p (N - 1 - i)%nat = (RtoC (sign p) * phi p i)%C.
    Proof.
      intros Hp Hi. pose proof H3 as H. rewrite !phi_yv by lia. rewrite <- RtoC_mult. f_equal. replace (N - 1 - i)%nat with (S (N - 2) - i)%nat by lia.
      rewrite (alternate (N - 2) (/ (2 * dx ^ 2)) av w yv t_pos yv_0 yv_n yv_rec yv_orth yv_asc av_even p i Hp ltac:(lia)). unfold Rdiv. ring.
    Qed.
    Lemma dot_alternates : alternates l N b.
    Proof.
      destruct (dot_spf _ _ _ _ _ _ _ _ _ _ _ _ Hb) as (spf & E & S1 & G). destruct (dot_result _ _ _ _ _ _ _ _ _ _ _ _ Hb) as (_ & _ & Hl).
      exists spf. split; [exact E|]. split; [exact S1|]. intros p i Hp Hi. rewrite !G by exact Hp. apply phi_alternates; lia.
    Qed.
    Lemma dot_interaction : interaction_rule l b.
    Proof.
      destruct (dot_result _ _ _ _ _ _ _ _ _ _ _ _ Hb) as (Eb & H & Hl). eexists. split; [rewrite Eb; reflexivity|]. intros p q r s Hp Hq Hr Hs Od.
      apply (u_rule phi (N - 2) N L alpha a ltac:(lia) phi_alternates); lia || assumption.
    Qed.
    Lemma dot_dipole_rule : exists spf d, b_arr b F_spf = Some spf /\ b_arr b F_dip = Some d /\ forall p q, (p < l)%nat -> (q < l)%nat ->
      let x := point L N in let mean (g : R -> R) := trapezoid N (fun i => (Cconj (get spf [p; i]) * RtoC (g (x i)) * get spf [q; i])%C) x in
      get d [0; p; q]%nat = if Nat.odd (p + q) then mean (fun x => x) else (RtoC beta * mean (fun x => x ^ 2)%R)%C.
    Proof.
      destruct (dot_dipole _ _ _ _ _ _ _ _ _ _ _ _ Hb) as (spf & d & E & Ed & _ & G & _). destruct (dot_result _ _ _ _ _ _ _ _ _ _ _ _ Hb) as (_ & H & Hl).
      destruct (dot_spf _ _ _ _ _ _ _ _ _ _ _ _ Hb) as (spf' & E' & _ & P). rewrite E in E'. injection E' as <-.
      exists spf, d. split; [exact E|]. split; [exact Ed|]. intros p q Hp Hq x mean. rewrite (G p q Hp Hq).
      assert (Sp : trapezoid N (fun i => (Cconj (get spf [p; i]) * RtoC (x i + beta * x i ^ 2) * get spf [q; i])%C) x = (mean (fun x => x) + RtoC beta * mean (fun x => x ^ 2)%R)%C).
      { unfold mean. rewrite <- trapezoid_scal, !trapezoid_sum, <- csum_add. apply csum_ext. intros i _. rewrite !RtoC_plus, !RtoC_mult. cr. }
      fold x. rewrite Sp. assert (Rule : forall (g : R -> R) sg, (forall z, g (- z) = sg * g z) -> sign (p + q) * sg = -1 -> mean g = RtoC 0).
      { intros g sg Hg Es. unfold mean. rewrite <- (trapezoid_rule phi (N - 2) N L ltac:(lia) phi_alternates g sg p q ltac:(lia) ltac:(lia) Hg Es).
        apply trapezoid_ext; [|intros; symmetry; apply linspace_point]. intros i. rewrite !P, linspace_point by assumption. reflexivity. }
      destruct (Nat.odd (p + q)) eqn:Od.
      - rewrite (Rule (fun x => x ^ 2) 1); [cr | intros; ring | rewrite sign_odd by exact Od; ring].
      - rewrite (Rule (fun x => x) (-1)); [cr | intros; ring | rewrite sign_even by exact Od; ring].
    Qed.
  End Even.
End Dot.

(** ** The harmonic oscillator *)
Lemma hermite_pair_mirror n x : hermite_pair n (- x) = (sign n * fst (hermite_pair n x), - sign n * snd (hermite_pair n x)).
Proof.
  induction n as [|n IH]; [cbn; unfold sign; cbn; f_equal; ring|]. cbn [hermite_pair]. rewrite IH. destruct (hermite_pair n x) as [h h']. cbn [fst snd]. rewrite sign_S. f_equal; ring.
Qed.
Lemma ho_function_mirror omega x n : ho_function omega (- x) n = sign n * ho_function omega x n.
Proof.
  unfold ho_function, hermite. replace (sqrt omega * - x) with (- (sqrt omega * x)) by ring. rewrite hermite_pair_mirror. cbn [fst]. replace ((- x) ^ 2) with (x ^ 2) by ring. ring.
Qed.
Section Line.
  Variables (npm : nat) (spin anti : bool) (l : nat) (L : R) (N : nat) (omega a alpha beta : R) (b : basis CC).
  Hypothesis Hb : odho npm spin anti l L N omega a alpha beta = (Ok tt, b).
  Lemma odho_spf_mirror p i : (2 <= N)%nat -> (i < N)%nat -> odho_spf L N omega p (N - 1 - i) = (RtoC (sign p) * odho_spf L N omega p i)%C.
  Proof. intros H Hi. unfold odho_spf. rewrite linspace_mirror, ho_function_mirror, RtoC_mult by assumption. reflexivity. Qed.
  Lemma line_alternates : alternates l N b.
  Proof.
    destruct (odho_result _ _ _ _ _ _ _ _ _ _ _ Hb) as (-> & H). eexists. split; [reflexivity|]. split; [reflexivity|].
    intros p i Hp Hi. apply odho_spf_mirror; assumption.
  Qed.
  Lemma line_interaction : interaction_rule l b.
  Proof.
    destruct (odho_result _ _ _ _ _ _ _ _ _ _ _ Hb) as (-> & H). eexists. split; [reflexivity|]. intros p q r s Hp Hq Hr Hs Od.
    apply (u_rule (odho_spf L N omega) l N L alpha a H); try assumption. intros; apply odho_spf_mirror; assumption.
  Qed.
End Line.

(** ** Systems *)
Lemma parity_fock (w : world CC) s n l x (b : basis CC) (h u : arr CC) f :
  sys_at w s Spatial n l x b -> b_arr b F_h = Some h -> b_arr b F_u = Some u -> shape h = [l; l] -> shape u = [l; l; l; l] -> buffer_ok f h u ->
  odd_zero l (mat h) -> interaction_rule l b -> exists F, fock_matrix s h u f w = (Ok F, w) /\ odd_zero l (mat F).
Proof.
  intros A Hh Hu Sh Su Hf Zh (u' & Hu' & Zu). rewrite Hu in Hu'. injection Hu' as <-.
  destruct (fock_matrix_ok CC w s Spatial n l x b h u f A Sh Su Hf) as (F & EF & _ & GF). exists F. split; [exact EF|].
  intros p q Hp Hq Od. rewrite (GF p q Hp Hq). unfold F_restricted. change (@sadd CC) with Cplus. rewrite (Zh p q Hp Hq Od). pose proof (at_le _ _ _ _ _ _ _ _ A) as Hle.
  rewrite (csum_zero n); [cr|]. intros i Hi.
  assert (O1 : Nat.odd (p + i + q + i) = true) by (replace (p + i + q + i)%nat with (p + q + 2 * i)%nat by lia; rewrite Nat.odd_add_mul_2; exact Od).
  assert (O2 : Nat.odd (p + i + i + q) = true) by (replace (p + i + i + q)%nat with (p + q + 2 * i)%nat by lia; rewrite Nat.odd_add_mul_2; exact Od).
  rewrite (Zu p i q i), (Zu p i i q) by (lia || assumption). change (@ssub CC) with Cminus. change (@smul CC) with Cmult. cr.
Qed.
Lemma parity_density (b : basis CC) l N (rho d : arr CC) b' npm : b_np b = Some npm -> b_arr b F_bra = None -> alternates l N b -> shape rho = [l; l] ->
  odd_zero l (mat rho) -> compute_particle_density rho None None b = (Ok d, b') ->
  forall i, (i < N)%nat -> get d [mirror N i] = get d [i].
Proof.
  intros Hnp Hbra (a & Ea & Sa & Ga) Sr Hr E i Hi.
  destruct (cpd_eval CC b rho a npm Hnp Ea) as (bra & b1 & Hv & _ & E'). rewrite E in E'. injection E' as E' _.
  unfold bra_view in Hv. rewrite Ea, Hbra in Hv. injection Hv as <-.
  assert (Hd : dt (aconj a) = dt a) by reflexivity. assert (Sb : shape (aconj a) = [l; N]) by exact Sa.
  assert (Hc : (0 < l)%nat -> castable (dt rho) (dt a) = true).
  { intros Hl. destruct (castable (dt rho) (dt a)) eqn:Ec; [reflexivity|]. rewrite (particle_density_cast CC rho a (aconj a) l l l [N] Sa Sb Sr Hl (le_n l) (le_n l) Hd Ec) in E'. discriminate E'. }
  destruct (particle_density_ok CC rho a (aconj a) l l l [N] Sa Sb Sr (le_n l) (le_n l) Hd Hc) as (d' & Ed & _ & _ & Gd). rewrite Ed in E'. injection E' as <-.
  assert (Vd : forall k, (k < N)%nat -> valid [N] [k]) by (intros k Hk; repeat constructor; assumption).
  rewrite (Gd [i] (Vd i Hi)), (Gd [mirror N i]) by (apply Vd; unfold mirror; lia). unfold density_at, orb. apply csum_ext. intros p Hp. apply csum_ext. intros q Hq.
  unfold aconj. cbn [get]. rewrite (Ga p i Hp Hi), (Ga q i Hq Hi). change (@smul CC) with Cmult. change (@sconj CC) with Cconj. rewrite C_conj_mul, RtoC_conj.
  destruct (Nat.odd (p + q)) eqn:Od.
  - rewrite (Hr q p Hq Hp) by (rewrite Nat.add_comm; exact Od). cr.
  - transitivity (RtoC (sign (p + q)) * (Cconj (get a [p; i]) * mat rho q p * get a [q; i]))%C; [rewrite sign_add, RtoC_mult; cr | rewrite sign_even by exact Od; cr].
Qed.
Lemma diag_odd_zero l e : odd_zero l (mat (diag l Complex128 e)).
Proof. intros p q _ _ Od. cbn [mat diag arr2 get]. destruct (Nat.eqb_spec p q) as [->|_]; [|reflexivity]. replace (q + q)%nat with (0 + 2 * q)%nat in Od by lia. rewrite Nat.odd_add_mul_2 in Od. discriminate Od. Qed.

Section Systems.
  Variables (w : world CC) (s n l : nat) (x : system) (b : basis CC) (h u : arr CC) (f : buffer CC).
  Hypotheses (A : sys_at w s Spatial n l x b) (Hh : b_arr b F_h = Some h) (Hu : b_arr b F_u = Some u) (Hf : buffer_ok f h u).
  Lemma dot_fock npm spin anti L N a alpha beta V eigh : odqd npm spin anti l L N a alpha beta V eigh = (Ok tt, b) -> 0 < L ->
    eigenbasis (N - 2) (grid_hamiltonian L N V) (fst (eigh (N - 2)%nat (grid_hamiltonian L N V))) (snd (eigh (N - 2)%nat (grid_hamiltonian L N V))) ->
    (forall x, - L <= x <= L -> V (- x) = V x) ->
    exists F, fock_matrix s h u f w = (Ok F, w) /\ odd_zero l (mat F).
  Proof.
    intros Hb HL HE HV. pose proof (dot_interaction _ _ _ _ _ _ _ _ _ _ _ _ Hb HL HE HV) as Ir. destruct (dot_result _ _ _ _ _ _ _ _ _ _ _ _ Hb) as (Eb & _ & _).
    rewrite Eb in Hh, Hu. injection Hh as <-. injection Hu as <-.
    apply (parity_fock w s n l x b); try assumption; try reflexivity; try (rewrite Eb; reflexivity). apply diag_odd_zero.
  Qed.
  Lemma line_fock npm spin anti L N omega a alpha beta : odho npm spin anti l L N omega a alpha beta = (Ok tt, b) ->
    exists F, fock_matrix s h u f w = (Ok F, w) /\ odd_zero l (mat F).
  Proof.
    intros Hb. pose proof (line_interaction _ _ _ _ _ _ _ _ _ _ _ Hb) as Ir. destruct (odho_result _ _ _ _ _ _ _ _ _ _ _ Hb) as (Eb & _).
    rewrite Eb in Hh, Hu. injection Hh as <-. injection Hu as <-.
    apply (parity_fock w s n l x b); try assumption; try reflexivity; try (rewrite Eb; reflexivity). apply diag_odd_zero.
  Qed.
End Systems.
Lemma dot_density npm spin anti l L N a alpha beta V eigh b (rho d : arr CC) b' : odqd npm spin anti l L N a alpha beta V eigh = (Ok tt, b) -> 0 < L ->
  eigenbasis (N - 2) (grid_hamiltonian L N V) (fst (eigh (N - 2)%nat (grid_hamiltonian L N V))) (snd (eigh (N - 2)%nat (grid_hamiltonian L N V))) ->
  (forall x, - L <= x <= L -> V (- x) = V x) -> shape rho = [l; l] -> odd_zero l (mat rho) -> compute_particle_density rho None None b = (Ok d, b') ->
  forall i, (i < N)%nat -> get d [mirror N i] = get d [i].
Proof.
  intros Hb HL HE HV. pose proof (dot_alternates _ _ _ _ _ _ _ _ _ _ _ _ Hb HL HE HV) as Al. destruct (dot_result _ _ _ _ _ _ _ _ _ _ _ _ Hb) as (Eb & _ & _).
  apply (parity_density b l N rho d b' npm); [rewrite Eb; reflexivity | rewrite Eb; reflexivity | exact Al].
Qed.
Lemma line_density npm spin anti l L N omega a alpha beta b (rho d : arr CC) b' : odho npm spin anti l L N omega a alpha beta = (Ok tt, b) ->
  shape rho = [l; l] -> odd_zero l (mat rho) -> compute_particle_density rho None None b = (Ok d, b') ->
  forall i, (i < N)%nat -> get d [mirror N i] = get d [i].
Proof.
  intros Hb. pose proof (line_alternates _ _ _ _ _ _ _ _ _ _ _ Hb) as Al. destruct (odho_result _ _ _ _ _ _ _ _ _ _ _ Hb) as (Eb & _).
  apply (parity_density b l N rho d b' npm); [rewrite Eb; reflexivity | rewrite Eb; reflexivity | exact Al].
Qed.

(** ** The library's potentials *)
Lemma symmetric_even p x : symmetric p -> Potentials.call p (- x) = Potentials.call p x.
Proof.
  destruct p; cbn [symmetric Potentials.call]; intros H; try ring.
  - rewrite Rabs_Ropp. ring.
  - rewrite H. ring.
  - destruct H as [->| ->]; [|ring]. replace ((- x - 0) ^ 2) with ((x - 0) ^ 2) by ring. reflexivity.
  - rewrite Rabs_Ropp. destruct H as [->| ->]; [|f_equal; ring]. replace ((- x - 0) ^ 2) with ((x - 0) ^ 2) by ring. reflexivity.
  - replace ((- x) ^ 2) with (x ^ 2) by ring. reflexivity.
Qed.
