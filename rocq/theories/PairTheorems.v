(** The two-body elements of the two-dimensional basis sets as Coulomb integrals, and what
    follows for energies. *)
From Coq Require Import List Arith ZArith Reals Lra Lia Bool.
From Coquelicot Require Import Coquelicot.
From Verif Require Import Scalar ScalarC Numpy BasisSet Spec BasisSpec GridSpec CoulombSpec OrbitalSpec PlaneSpec.
From Verif Require Import AngularProofs Gauss Orbitals OrbitalProofs MatrixProofs TwoDim Coulomb CoulombProofs CacheExamples PairSpec PairProofs.
From Verif Require Import Py Systems SystemFacts SystemProofs Worlds RepulsionProofs.
Import ListNotations.
Open Scope R_scope.

Lemma coulomb_unique F u v : coulomb_integral F u -> coulomb_integral F v -> u = v.
Proof.
  intros (G & G1 & G2) (H & H1 & H2). eapply plane_unique; [exact G2|]. eapply plane_ext; [|exact H2].
  intros r t Hr. cbv beta. f_equal. eapply plane_unique; [apply H1 | apply G1]; exact Hr.
Qed.

(** ** The elements *)
Section Elements.
  Variables mass omega : R.
  Hypothesis Hm : 0 < mass.
  Hypothesis Hw : 0 < omega.
  Lemma interaction_ext p q r s p' q' r' s' v : (forall z, p' z = p z) -> (forall z, q' z = q z) -> (forall z, r' z = r z) -> (forall z, s' z = s z) ->
    interaction p q r s v -> interaction p' q' r' s' v.
  Proof.
    intros Ep Eq Er Es (G & G1 & G2). exists G. split; [|exact G2]. intros x t Hx. eapply plane_ext; [|apply G1; exact Hx].
    intros. cbv beta. rewrite Ep, Eq, Er, Es. reflexivity.
  Qed.
  Lemma orbital_interaction n0 m0 n1 m1 n2 m2 n3 m3 P0 P1 P2 P3 :
    on_plane (spf_state n0 m0 mass omega) P0 -> on_plane (spf_state n1 m1 mass omega) P1 ->
    on_plane (spf_state n2 m2 mass omega) P2 -> on_plane (spf_state n3 m3 mass omega) P3 ->
    interaction P0 P1 P2 P3 (RtoC (sqrt (mass * omega) * coulomb_ho n0 m0 n1 m1 n2 m2 n3 m3)).
  Proof.
    intros H0 H1 H2 H3. pose proof (pair_integral mass omega Hm Hw n0 m0 n1 m1 n3 m3 n2 m2) as I.
    eapply interaction_ext; [| | | |exact I]; apply (on_plane_psi mass omega); assumption.
  Qed.
  Variables (l N : nat) (L larmor : R) (V : R -> R -> R) (state : nat -> Z * Z) (b : basis CC).
  Hypothesis B : plane_basis l N L mass larmor (sqrt omega) V state (fun p => orbital mass omega (state p)) b.
  Lemma basis_interaction (u : arr CC) (Phi : nat -> C -> C) : b_arr b F_u = Some u -> (forall p, (p < l)%nat -> on_plane (orbital mass omega (state p)) (Phi p)) ->
    forall p q r s, (p < l)%nat -> (q < l)%nat -> (r < l)%nat -> (s < l)%nat ->
    interaction (Phi p) (Phi q) (Phi r) (Phi s) (RtoC (sqrt mass) * ten u p q r s)%C.
  Proof.
    intros Hu HP p q r s Hp Hq Hr Hs. destruct (pb_arrays _ _ _ _ _ _ _ _ _ _ B) as (h & s' & u' & d & spf & _ & _ & Eu & X). rewrite Hu in Eu. injection Eu as <-.
    do 9 apply proj2 in X. 
    assert (E : forall Gam p q r s, is_gamma Gam -> (p < l)%nat -> (q < l)%nat -> (r < l)%nat -> (s < l)%nat ->
      let n x := Z.to_nat (fst (state x)) in let m x := snd (state x) in
      ten u p q r s = RtoC (sqrt omega * anisimovas_matulis Gam (n p) (m p) (n q) (m q) (n s) (m s) (n r) (m r))) by tauto.
    rewrite (E half_gamma p q r s half_gamma_ok Hp Hq Hr Hs), <- (formula half_gamma _ _ _ _ _ _ _ _ half_gamma_ok), <- RtoC_mult, <- Rmult_assoc, <- sqrt_mult by lra.
    apply orbital_interaction; [apply (HP p Hp) | apply (HP q Hq) | apply (HP r Hr) | apply (HP s Hs)].
  Qed.
End Elements.

(** ** Signs *)
Lemma half_line_nonneg f v : (forall x, 0 < x -> 0 <= f x) -> half_line f v -> 0 <= v.
Proof.
  intros Hf H. destruct (Rle_or_lt 0 v) as [|Hv]; [assumption|]. exfalso.
  assert (P : locally v (fun y => y < 0)) by (apply (open_lt 0); exact Hv).
  destruct (H _ P) as [Q Q' HQ (M & HM) HH]. destruct (HH 0 (Rmax 1 (M + 1)) HQ) as (y & Iy & Ly).
  - apply HM. pose proof (Rmax_r 1 (M + 1)). lra.
  - cbn [fst snd] in Iy. pose proof (Rmax_l 1 (M + 1)). apply (Rlt_not_le _ _ Ly).
    apply (is_RInt_le (fun _ => 0) f 0 (Rmax 1 (M + 1)) 0 y); [lra | | exact Iy | intros x Hx; apply Hf; lra].
    apply int_zero.
Qed.
Lemma int_nonneg f a b v : a <= b -> (forall x, a < x < b -> 0 <= f x) -> is_RInt f a b v -> 0 <= v.
Proof.
  intros Hab Hf H. apply (is_RInt_le (fun _ => 0) f a b 0 v Hab); [|exact H | exact Hf].
  apply int_zero.
Qed.
Lemma int_null (f : R -> R) a b (v : R) : (forall x, f x = 0) -> is_RInt f a b v -> v = 0.
Proof.
  intros Hf H. assert (Z : is_RInt f a b 0) by (eapply is_RInt_ext; [|apply int_zero]; intros x _; symmetry; apply Hf).
  apply (is_RInt_unique (V := R_CompleteNormedModule)) in H, Z. congruence.
Qed.
Lemma half_line_null f v : (forall x, 0 < x -> f x = 0) -> half_line f v -> v = 0.
Proof. intros Hf H. eapply half_line_unique; [exact H|]. eapply half_line_ext; [|apply half_line_zero]. intros x Hx. symmetry. apply Hf, Hx. Qed.
Lemma plane_nonneg f v : (forall r t, 0 < r -> nonneg (f r t)) -> plane_integral f v -> nonneg v.
Proof.
  intros Hf (g & G1 & G2 & G3). pose proof PI_RGT_0 as HP.
  assert (A : forall r, 0 < r -> nonneg (g r)).
  { intros r Hr. pose proof (G1 r (Rlt_le _ _ Hr)) as I. pose proof (is_RInt_fct_extend_fst _ _ _ _ I) as I1. pose proof (is_RInt_fct_extend_snd _ _ _ _ I) as I2. split.
    - apply (int_null (fun t => snd (f r t)) 0 (2 * PI)); [intros t; apply (Hf r t Hr) | exact I2].
    - apply (int_nonneg (fun t => fst (f r t)) 0 (2 * PI)); [lra | intros t _; apply (Hf r t Hr) | exact I1]. }
  split.
  - apply (half_line_null _ _) in G3; [exact G3|]. intros r Hr. destruct (A r Hr) as [A1 _]. unfold Im in A1. rewrite A1. ring.
  - apply (half_line_nonneg _ _) in G2; [exact G2|]. intros r Hr. destruct (A r Hr) as [_ A1]. apply Rmult_le_pos; [lra | exact A1].
Qed.
Lemma nonneg_scal c z : 0 <= c -> nonneg z -> nonneg (RtoC c * z)%C.
Proof. intros Hc [A B]. destruct z as [x y]. unfold nonneg in *. cbn in *. subst y. split; [ring|]. ring_simplify. apply Rmult_le_pos; assumption. Qed.
Lemma coulomb_nonneg F v : (forall x1 x2, nonneg (F x1 x2)) -> coulomb_integral F v -> nonneg v.
Proof.
  intros HF (G & G1 & G2). eapply plane_nonneg; [|exact G2]. intros r t Hr. cbv beta. apply nonneg_scal; [left; apply Rinv_0_lt_compat, Hr|].
  eapply plane_nonneg; [|apply G1; left; exact Hr]. intros; apply HF.
Qed.
Lemma nonneg_square z : nonneg (Cconj z * z)%C.
Proof. destruct z as [x y]. split; cbn; [ring|]. pose proof (Rle_0_sqr x) as X. pose proof (Rle_0_sqr y) as Y. unfold Rsqr in *. lra. Qed.
Lemma direct_positive P Q v : interaction P Q P Q v -> nonneg v.
Proof.
  apply coulomb_nonneg. intros x1 x2. replace (Cconj (P x1) * Cconj (Q x2) * P x1 * Q x2)%C with (Cconj (P x1 * Q x2) * (P x1 * Q x2))%C by (rewrite conj_mul; ring).
  apply nonneg_square.
Qed.
Definition pairs (P Q P' Q' : C -> C) (X x : C) : C :=
  (Cconj (P (X + x / RtoC 2)) * Cconj (Q (X - x / RtoC 2)) * P' (X + x / RtoC 2) * Q' (X - x / RtoC 2))%C.
Lemma interaction_com P Q P' Q' v : interaction P Q P' Q' v -> com_integral (pairs P Q P' Q') v.
Proof. intros H. exact H. Qed.
(** |P(x1) Q(x2) - Q(x1) P(x2)|^2 >= 0 *)
Lemma exchange_smaller P Q v1 v2 v3 v4 : interaction P Q P Q v1 -> interaction Q P Q P v2 -> interaction P Q Q P v3 -> interaction Q P P Q v4 -> nonneg (v1 + v2 - (v3 + v4))%C.
Proof.
  intros H1 H2 H3 H4.
  assert (I : coulomb_integral (fun x1 x2 => (Cconj (P x1 * Q x2 - Q x1 * P x2) * (P x1 * Q x2 - Q x1 * P x2))%C) (v1 + v2 - (v3 + v4))%C).
  { change (com_integral (fun X x => (fun x1 x2 => (Cconj (P x1 * Q x2 - Q x1 * P x2) * (P x1 * Q x2 - Q x1 * P x2))%C) (X + x / RtoC 2)%C (X - x / RtoC 2)%C) (v1 + v2 - (v3 + v4))%C).
    apply interaction_com in H1, H2, H3, H4. pose proof (com_add _ _ _ _ (com_add _ _ _ _ H1 H2) (com_scal (- RtoC 1)%C _ _ (com_add _ _ _ _ H3 H4))) as H.
    apply (com_val _ _ (v1 + v2 - (v3 + v4))%C) in H; [|ring].
    refine (com_ext _ _ _ _ H). intros X x. unfold pairs. rewrite conj_sub, !conj_mul. ring. }
  eapply coulomb_nonneg; [|exact I]. intros x1 x2. apply nonneg_square.
Qed.
Lemma nonneg_cancel c z : 0 < c -> nonneg (RtoC c * z)%C -> nonneg z.
Proof.
  intros Hc H. replace z with (RtoC (/ c) * (RtoC c * z))%C; [apply nonneg_scal; [left; apply Rinv_0_lt_compat, Hc | exact H]|].
  rewrite Cmult_assoc, <- RtoC_mult, Rinv_l by lra. ring.
Qed.
Lemma plane_repulsive mass omega l N L larmor V state (b : basis CC) (u : arr CC) : 0 < mass -> 0 < omega ->
  plane_basis l N L mass larmor (sqrt omega) V state (fun p => orbital mass omega (state p)) b -> b_arr b F_u = Some u -> repulsive l (ten u).
Proof.
  intros Hm Hw B Hu p q Hp Hq.
  assert (I : forall p q r s, (p < l)%nat -> (q < l)%nat -> (r < l)%nat -> (s < l)%nat -> interaction (psi mass omega (qn (state p)) (qm (state p)))
    (psi mass omega (qn (state q)) (qm (state q))) (psi mass omega (qn (state r)) (qm (state r))) (psi mass omega (qn (state s)) (qm (state s))) (RtoC (sqrt mass) * ten u p q r s)%C).
  { apply (basis_interaction mass omega Hm Hw l N L larmor V state b B u (fun p => psi mass omega (qn (state p)) (qm (state p))) Hu). intros k _. apply (psi_on_plane mass omega). }
  assert (Sym : particle_sym l (ten u)).
  { destruct (pb_arrays _ _ _ _ _ _ _ _ _ _ B) as (h & s' & u' & d & spf & _ & _ & Eu & X). rewrite Hu in Eu. injection Eu as <-. tauto. }
  pose proof (sqrt_lt_R0 mass Hm) as Hs. split.
  - apply (nonneg_cancel (sqrt mass)); [exact Hs|]. eapply direct_positive. apply I; assumption.
  - pose proof (exchange_smaller _ _ _ _ _ _ (I p q p q Hp Hq Hp Hq) (I q p q p Hq Hp Hq Hp) (I p q q p Hp Hq Hq Hp) (I q p p q Hq Hp Hp Hq)) as E.
    rewrite <- (Sym p q p q Hp Hq Hp Hq), <- (Sym p q q p Hp Hq Hq Hp) in E.
    apply (nonneg_cancel (2 * sqrt mass)); [lra|]. eapply eq_ind; [exact E|]. rewrite RtoC_mult. change (RtoC 2) with (RtoC (1 + 1)). rewrite RtoC_plus. ring.
Qed.

(** ** Energies *)
Lemma plane_energy (w : world CC) s n l x (b : basis CC) (h : arr CC) mass omega N L larmor V state : 0 < mass -> 0 < omega ->
  plane_basis l N L mass larmor (sqrt omega) V state (fun p => orbital mass omega (state p)) b ->
  sys_at w s Spatial n l x b -> b_arr b F_h = Some h ->
  exists e, reference_energy s w = (Ok e, w) /\ nonneg (e - RtoC 2 * sumn (K := CC) n (fun i => mat h i i))%C.
Proof.
  intros Hm Hw B A Hh. destruct (r_u _ _ _ (pb_ready _ _ _ _ _ _ _ _ _ _ B)) as (u & Eu & _).
  apply (spatial_energy w s n l x b h u A Hh Eu). apply (plane_repulsive mass omega l N L larmor V state b u Hm Hw B Eu).
Qed.
Lemma plane_general_energy (w : world CC) s n l x (b : basis CC) (h ov : arr CC) (va vb : list CC) mass omega N L larmor V state : 0 < mass -> 0 < omega ->
  plane_basis l N L mass larmor (sqrt omega) V state (fun p => orbital mass omega (state p)) b ->
  sys_at w s Spatial n l x b -> b_arr b F_h = Some h ->
  b_cls b = Base -> b_spin b = false -> b_asym b = false -> b_arr b F_s = Some ov -> (b_arr b F_spf = None -> b_arr b F_bra = None) ->
  sy_op x = None -> orthonormal_pair va vb ->
  exists w' g e, construct_general s va vb true w = (Ok g, w') /\ reference_energy g w' = (Ok e, w') /\
    nonneg (e - RtoC 2 * sumn (K := CC) n (fun i => mat h i i))%C.
Proof.
  intros Hm Hw B A Hh. destruct (r_u _ _ _ (pb_ready _ _ _ _ _ _ _ _ _ _ B)) as (u & Eu & _).
  apply (general_energy w s n l x b h u ov va vb A Hh Eu). apply (plane_repulsive mass omega l N L larmor V state b u Hm Hw B Eu).
Qed.
