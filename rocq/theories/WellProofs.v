(** Mass, parity and construction of the double wells. *)
From Coq Require Import List ZArith Reals Lra Lia Arith Bool.
From Coquelicot Require Import Coquelicot.
From Verif Require Import Py TwoDim TwoDimProofs FieldProofs TwoDimExamples Angular AngularSpec AngularProofs Gauss Moments Coulomb Orbitals OrbitalSpec Laguerre OrbitalProofs Schroedinger MatrixProofs Wells CacheExamples.
Import ListNotations.
Open Scope R_scope.

(** ** The mass *)
Lemma interaction_needs_product : exists mass omega mass' omega', 0 < mass /\ 0 < omega /\ 0 < mass' /\ 0 < omega' /\
  (forall s r t, orbital mass omega s r t = orbital mass' omega' s r t) /\ interaction_element mass omega 0 0 0 0 <> interaction_element mass' omega' 0 0 0 0.
Proof.
  exists 4, 1, 1, 4. repeat (split; [lra|]). split.
  - intros s r t. unfold orbital, spf_state, spf_norm, spf_radial, bohr_radius. rewrite Rmult_1_l, Rmult_1_r. reflexivity.
  - unfold interaction_element. replace (coulomb_of shell_state 0 0 0 0) with (sqrt (PI / 2)) by (symmetry; exact ground_element). rewrite sqrt_1. replace 4 with (2 * 2) by ring. rewrite sqrt_square by lra.
    assert (0 < sqrt (PI / 2)) by (apply sqrt_lt_R0; pose proof PI_RGT_0; lra). lra.
Qed.
Lemma orbitals_of_product mass omega mass' omega' : mass * omega = mass' * omega' -> forall s r t, orbital mass omega s r t = orbital mass' omega' s r t.
Proof. intros E s r t. unfold orbital, spf_state, spf_norm, spf_radial, bohr_radius. rewrite E. reflexivity. Qed.

(** The average distance |x| in the ground state *)
Lemma ground_radial mass omega o : 0 < mass -> 0 < omega -> radial_integral (spf_radial 0 0 mass omega) (spf_radial 0 0 mass omega) o = moment (bohr_radius mass omega) (1 + o).
Proof. intros Hm Hw. rewrite radial_integral_value by assumption. unfold radial_value, lag. cbn. rewrite Nat.add_0_r. field. Qed.
Lemma gamma2_pos k : (0 < k)%nat -> 0 < gamma2 k.
Proof.
  induction k as [[|[|[|k]]] IH] using lt_wf_ind; intros H; [lia| | |].
  - cbn. apply sqrt_lt_R0, PI_RGT_0.
  - cbn. lra.
  - change (gamma2 (S (S (S k)))) with (INR (S k) / 2 * gamma2 (S k)). apply Rmult_lt_0_compat; [pose proof (lt_0_INR (S k) ltac:(lia)); lra|]. apply IH; lia.
Qed.
Lemma moment_pos a k : 0 < a -> 0 < moment a k.
Proof. intros H. unfold moment. apply Rdiv_lt_0_compat; [apply gamma2_pos; lia|]. pose proof (pow_lt a (S k) H). lra. Qed.
Lemma norm_pos n m mass omega : 0 < mass -> 0 < omega -> 0 < spf_norm n m mass omega.
Proof.
  intros Hm Hw. unfold spf_norm. apply Rmult_lt_0_compat; [apply a_pos; assumption|]. apply sqrt_lt_R0. apply Rdiv_lt_0_compat; [apply fact_pos|]. apply Rmult_lt_0_compat; [apply PI_RGT_0 | apply fact_pos].
Qed.

(** The whole potential, when the mass multiplies all of it *)
Definition well_potential (mass omega b : R) (axis : Z) (x y : R) : R :=
  mass * omega ^ 2 / 2 * (x ^ 2 + y ^ 2 + b ^ 2 / 4 - b * Rabs (if (axis =? 0)%Z then x else y)).
Definition is_matrix_of (mass omega b : R) (V : R -> R -> R) (h : nat -> nat -> R) : Prop :=
  forall p q, exists g, hamiltonian mass b V (orbital mass omega (shell_state q)) g /\ bracket (orbital mass omega (shell_state p)) g (RtoC (h p q)).

Lemma hamiltonian_ext mass b V W f g : (forall x y, V x y = W x y) -> hamiltonian mass b V f g -> hamiltonian mass b W f g.
Proof. intros E (fr & frr & ft & ftt & A & B & C & D & F). exists fr, frr, ft, ftt. do 4 (split; [assumption|]). intros r t Hr. rewrite (F r t Hr), E. reflexivity. Qed.
Lemma unit_mass omega b axis : 0 < omega -> is_matrix_of 1 omega 0 (well_potential 1 omega b axis) (double_well_element omega 1 b axis).
Proof.
  intros Hw p q. destruct (double_well_right 1 omega ltac:(lra) Hw b axis p q) as (g & H & B). exists g. split; [|exact B].
  eapply hamiltonian_ext; [|exact H]. intros x y. unfold trap, barrier_potential, well_potential. field.
Qed.

(** Derivatives determine the Hamiltonian away from the origin *)
Lemma partial_r_unique f f1 f2 : partial_r f f1 -> partial_r f f2 -> forall r t, 0 < r -> f1 r t = f2 r t.
Proof.
  intros A B r t Hr. destruct (A r t Hr) as [A1 A2], (B r t Hr) as [B1 B2]. apply is_derive_unique in A1, A2, B1, B2. destruct (f1 r t), (f2 r t). cbn in *. congruence.
Qed.
Lemma partial_t_unique f f1 f2 : partial_t f f1 -> partial_t f f2 -> forall r t, 0 < r -> f1 r t = f2 r t.
Proof.
  intros A B r t Hr. destruct (A r t Hr) as [A1 A2], (B r t Hr) as [B1 B2]. apply is_derive_unique in A1, A2, B1, B2. destruct (f1 r t), (f2 r t). cbn in *. congruence.
Qed.
Lemma partial_r_ext f g f' : (forall r t, 0 < r -> f r t = g r t) -> partial_r f f' -> partial_r g f'.
Proof.
  intros E H r t Hr. destruct (H r t Hr) as [H1 H2]. assert (L : locally r (fun x => 0 < x)) by (apply (open_gt 0); exact Hr).
  split; [eapply is_derive_ext_loc; [|exact H1] | eapply is_derive_ext_loc; [|exact H2]]; (eapply filter_imp; [|exact L]); intros x Hx; cbv beta; rewrite E by exact Hx; reflexivity.
Qed.
Lemma partial_t_ext f g f' : (forall r t, 0 < r -> f r t = g r t) -> partial_t f f' -> partial_t g f'.
Proof.
  intros E H r t Hr. destruct (H r t Hr) as [H1 H2]. split; [eapply is_derive_ext; [|exact H1] | eapply is_derive_ext; [|exact H2]]; intros x; cbv beta; rewrite E by exact Hr; reflexivity.
Qed.
Lemma hamiltonian_unique mass b V f g g' : hamiltonian mass b V f g -> hamiltonian mass b V f g' -> forall r t, 0 < r -> g r t = g' r t.
Proof.
  intros (fr & frr & ft & ftt & A & B & C & D & F) (fr' & frr' & ft' & ftt' & A' & B' & C' & D' & F') r t Hr.
  rewrite (F r t Hr), (F' r t Hr).
  pose proof (partial_r_unique _ _ _ A A') as E1. pose proof (partial_t_unique _ _ _ C C') as E2.
  pose proof (partial_r_unique _ _ _ (partial_r_ext _ _ _ E1 B) B') as E3. pose proof (partial_t_unique _ _ _ (partial_t_ext _ _ _ E2 D) D') as E4.
  rewrite E1, E2, E3, E4 by exact Hr. reflexivity.
Qed.
Lemma plane_unique_off f g u v : (forall r t, 0 < r -> f r t = g r t) -> plane_integral f u -> plane_integral g v -> u = v.
Proof.
  intros E (F & F1 & F2 & F3) (G & G1 & G2 & G3).
  assert (E' : forall r, 0 < r -> F r = G r).
  { intros r Hr. pose proof (F1 r (Rlt_le _ _ Hr)) as A. pose proof (G1 r (Rlt_le _ _ Hr)) as B. 
    assert (A' : is_RInt (V := C_R_NormedModule) (fun t => g r t) 0 (2 * PI) (F r)) by (eapply is_RInt_ext; [|exact A]; intros t _; apply E, Hr).
    pose proof (is_RInt_fct_extend_fst _ _ _ _ A') as A1. pose proof (is_RInt_fct_extend_fst _ _ _ _ B) as B1. pose proof (is_RInt_fct_extend_snd _ _ _ _ A') as A2. pose proof (is_RInt_fct_extend_snd _ _ _ _ B) as B2.
    apply (is_RInt_unique (V := R_CompleteNormedModule)) in A1, B1, A2, B2. destruct (F r), (G r). cbn in *. congruence. }
  destruct u as [u1 u2], v as [v1 v2]. f_equal.
  - eapply half_line_unique; [exact F2|]. eapply half_line_ext; [|exact G2]. intros r Hr. cbn. destruct (Req_dec r 0) as [->|N]; [ring|]. rewrite E' by lra. reflexivity.
  - eapply half_line_unique; [exact F3|]. eapply half_line_ext; [|exact G3]. intros r Hr. cbn. destruct (Req_dec r 0) as [->|N]; [ring|]. rewrite E' by lra. reflexivity.
Qed.
(** So a Hamiltonian has at most one matrix *)
Lemma matrix_unique mass omega b V h h' : is_matrix_of mass omega b V h -> is_matrix_of mass omega b V h' -> forall p q, h p q = h' p q.
Proof.
  intros A B p q. destruct (A p q) as (g & H & I), (B p q) as (g' & H' & I'). pose proof (hamiltonian_unique _ _ _ _ _ _ H H') as E.
  assert (X : RtoC (h p q) = RtoC (h' p q)). { eapply plane_unique_off; [|exact I|exact I']. intros r t Hr. cbv beta. rewrite E by exact Hr. reflexivity. }
  injection X. auto.
Qed.
(** The barrier has to be multiplied by the mass *)
Lemma heavy_well mass omega b axis : 0 < mass -> 0 < omega ->
  is_matrix_of mass omega 0 (well_potential mass omega b axis) (fun p q => oscillator_element omega p q + mass * (double_well_element omega mass b axis p q - oscillator_element omega p q)).
Proof.
  intros Hm Hw p q.
  assert (M : matrix_element (orbital mass omega (shell_state p)) (orbital mass omega (shell_state q)) (fun x y => mass * barrier_potential omega b axis x y)
    (RtoC (mass * (double_well_element omega mass b axis p q - oscillator_element omega p q)))).
  { rewrite RtoC_mult. eapply plane_ext; [|exact (plane_scal mass _ _ (barrier_element mass omega Hm Hw b axis p q))]. intros r t Hr. cbv beta. rewrite (RtoC_mult mass). ring. }
  destruct (oscillator_with mass omega Hm Hw _ _ _ _ M) as (g & H & B). exists g. split; [|exact B].
  eapply hamiltonian_ext; [|exact H]. intros x y. unfold trap, barrier_potential, well_potential. field.
Qed.
Lemma ground_well mass omega b axis : 0 < mass -> 0 < omega -> b < 0 -> oscillator_element omega 0 0 < double_well_element omega mass b axis 0 0.
Proof.
  intros Hm Hw Hb. rewrite double_well_value. change (shell_state 0) with (0, 0)%Z. unfold qn, qm, oscillator_element. change (shell_state 0) with (0, 0)%Z. cbn [fst snd Z.to_nat Nat.eqb].
  rewrite ground_radial by assumption. pose proof (norm_pos 0 0 mass omega Hm Hw) as N. pose proof (moment_pos (bohr_radius mass omega) (1 + 1) (a_pos mass omega Hm Hw)) as P.
  assert (T : (if (axis =? 0)%Z then theta_1_tilde_integral 0 0 else theta_2_tilde_integral 0 0) = 4) by (unfold theta_1_tilde_integral, theta_2_tilde_integral; cbn; destruct (axis =? 0)%Z; field). rewrite T.
  set (E := IZR (get_shell_energy 0 0)). set (k := spf_norm 0 0 mass omega * spf_norm 0 0 mass omega * moment (bohr_radius mass omega) (1 + 1) * 4).
  assert (0 < k). { unfold k. apply Rmult_lt_0_compat; [|lra]. apply Rmult_lt_0_compat; [|exact P]. apply Rmult_lt_0_compat; exact N. }
  assert (0 < omega ^ 2) by (apply pow_lt; exact Hw). assert (0 < b ^ 2) by (apply pow2_gt_0; lra). assert (0 < omega ^ 2 * b ^ 2) by (apply Rmult_lt_0_compat; assumption).
  assert (0 < omega ^ 2 * (- b) * k) by (apply Rmult_lt_0_compat; [apply Rmult_lt_0_compat; lra | assumption]). lra.
Qed.
Lemma mass_ignored mass omega b axis : 0 < mass -> 0 < omega -> mass <> 1 -> b < 0 -> ~ is_matrix_of mass omega 0 (well_potential mass omega b axis) (double_well_element omega mass b axis).
Proof.
  intros Hm Hw H1 Hb M. pose proof (matrix_unique _ _ _ _ _ _ M (heavy_well mass omega b axis Hm Hw) 0%nat 0%nat) as E. cbv beta in E.
  pose proof (ground_well mass omega b axis Hm Hw Hb) as L. set (d := double_well_element omega mass b axis 0 0) in *. set (o := oscillator_element omega 0 0) in *.
  assert (Z : (mass - 1) * (d - o) = 0) by lra. apply Rmult_integral in Z. destruct Z; lra.
Qed.

(** ** The smooth double well *)
Definition smooth_potential (omega a b : R) (x y : R) : R := omega ^ 2 * a ^ 2 / 64 + omega ^ 2 / 4 * (x ^ 4 / a ^ 2 - 5 * b / 2 * x ^ 2).
Section Smooth.
  Variables mass omega : R.
  Hypotheses (Hm : 0 < mass) (Hw : 0 < omega).
  Notation orb := (orbital mass omega).
  Definition smooth_sum (a b : R) (s t : Z * Z) (i1 i2 : R) : R :=
    omega ^ 2 / 4 * (1 / a ^ 2) * (spf_norm (qn s) (qm s) mass omega * spf_norm (qn t) (qm t) mass omega) * radial_integral (spf_radial (qn s) (qm s) mass omega) (spf_radial (qn t) (qm t) mass omega) 4 * i1
    - omega ^ 2 / 4 * (5 * b / 2) * (spf_norm (qn s) (qm s) mass omega * spf_norm (qn t) (qm t) mass omega) * radial_integral (spf_radial (qn s) (qm s) mass omega) (spf_radial (qn t) (qm t) mass omega) 2 * i2.
  Lemma smooth_true a b p q i1 i2 : a <> 0 ->
    angular_integral (fun t => cos t ^ 4) (qm (shell_state p)) (qm (shell_state q)) (RtoC i1) -> angular_integral (fun t => cos t ^ 2) (qm (shell_state p)) (qm (shell_state q)) (RtoC i2) ->
    exists g, hamiltonian mass 0 (fun x y => trap mass omega x y + smooth_potential omega a b x y) (orb (shell_state q)) g /\
      bracket (orb (shell_state p)) g (RtoC (oscillator_element omega p q + (omega ^ 2 * a ^ 2 / 64 * overlap_element p q + smooth_sum a b (shell_state p) (shell_state q) i1 i2))).
  Proof.
    intros Ha A1 A2. apply oscillator_with; [assumption..|].
    pose proof (plane_elem mass omega Hm Hw (qn (shell_state p)) (qm (shell_state p)) (qn (shell_state q)) (qm (shell_state q)) 4 (fun t => cos t ^ 4) (fun x _ => x ^ 4) _ ltac:(intros; apply Rpow_mult_distr) A1) as E1.
    pose proof (plane_elem mass omega Hm Hw (qn (shell_state p)) (qm (shell_state p)) (qn (shell_state q)) (qm (shell_state q)) 2 (fun t => cos t ^ 2) (fun x _ => x ^ 2) _ ltac:(intros; apply Rpow_mult_distr) A2) as E2.
    assert (M : matrix_element (orb (shell_state p)) (orb (shell_state q)) (smooth_potential omega a b)
      (RtoC (omega ^ 2 * a ^ 2 / 64) * RtoC (overlap_element p q) + (RtoC (omega ^ 2 / 4 * (1 / a ^ 2)) * elem mass omega (qn (shell_state p)) (qm (shell_state p)) (qn (shell_state q)) (qm (shell_state q)) 4 (RtoC i1) + RtoC (- (omega ^ 2 / 4 * (5 * b / 2))) * elem mass omega (qn (shell_state p)) (qm (shell_state p)) (qn (shell_state q)) (qm (shell_state q)) 2 (RtoC i2)))%C).
    { eapply plane_ext; [|exact (plane_add _ _ _ _ (plane_scal _ _ _ (oscillator_overlap mass omega Hm Hw p q)) (plane_add _ _ _ _ (plane_scal (omega ^ 2 / 4 * (1 / a ^ 2)) _ _ E1) (plane_scal (- (omega ^ 2 / 4 * (5 * b / 2))) _ _ E2)))].
      intros r u Hr. cbv beta. unfold smooth_potential. fold (orb (shell_state p)) (orb (shell_state q)). set (x := r * cos u).
      replace (omega ^ 2 * a ^ 2 / 64 + omega ^ 2 / 4 * (x ^ 4 / a ^ 2 - 5 * b / 2 * x ^ 2)) with (omega ^ 2 * a ^ 2 / 64 + ((omega ^ 2 / 4 * (1 / a ^ 2)) * x ^ 4 + - (omega ^ 2 / 4 * (5 * b / 2)) * x ^ 2)) by (field; exact Ha).
      set (c0 := omega ^ 2 * a ^ 2 / 64). set (c1 := omega ^ 2 / 4 * (1 / a ^ 2)). set (c2 := - (omega ^ 2 / 4 * (5 * b / 2))). rewrite !RtoC_plus, !RtoC_mult. unfold orbital. set (f := Cconj _). set (g := spf_state (qn (shell_state q)) _ _ _ _ _). ring. }
    match type of M with matrix_element _ _ _ ?x => match goal with |- matrix_element _ _ _ ?y => replace y with x; [exact M|] end end.
    unfold smooth_sum, elem, RtoC, Cmult, Cplus. cbn [fst snd]. f_equal; ring.
  Qed.
  Lemma smooth_value a b p q : smooth_well_element omega mass a b p q =
    oscillator_element omega p q + (omega ^ 2 * a ^ 2 / 64 * overlap_element p q + smooth_sum a b (shell_state p) (shell_state q) (smooth_theta_integral_1 (qm (shell_state p)) (qm (shell_state q))) (smooth_theta_integral_2 (qm (shell_state p)) (qm (shell_state q)))).
  Proof. unfold smooth_well_element, oscillator_element, overlap_element, smooth_sum. cbv zeta. fold (qm (shell_state p)). destruct (p =? q)%nat; ring. Qed.
End Smooth.

(** ** Powers of the cosine *)
Fixpoint cos_integral (j : nat) (k : Z) : R :=
  match j with O => turn k | S j => (cos_integral j (k + 1) + cos_integral j (k - 1)) / 2 end.
Lemma rint_ext (f g : R -> R) (a b v : R) : (forall x : R, f x = g x) -> is_RInt f a b v -> is_RInt g a b v.
Proof. intros E. apply is_RInt_ext. intros x _. apply E. Qed.
Lemma cos_integral_ok j : forall k, is_RInt (fun t => cos t ^ j * cos (IZR k * t)) 0 (2 * PI) (cos_integral j k) /\ is_RInt (fun t => cos t ^ j * sin (IZR k * t)) 0 (2 * PI) 0.
Proof.
  induction j as [|j IH]; intros k.
  - cbn [pow cos_integral]. split; (eapply rint_ext; [intros x; symmetry; apply Rmult_1_l|]); [apply turn_cos | apply turn_sin].
  - destruct (IH (k + 1)%Z) as [C1 S1], (IH (k - 1)%Z) as [C2 S2]. split.
    + eapply rint_ext; [|exact (half_sum _ _ _ _ _ _ C1 C2)]. intros x. cbv beta. transitivity (cos x ^ j * (cos x * cos (IZR k * x))); [rewrite prod_cc; field | cbn [pow]; ring].
    + eapply is_RInt_val; [eapply rint_ext; [|exact (half_sum _ _ _ _ _ _ S1 S2)]|field]. intros x. cbv beta. transitivity (cos x ^ j * (cos x * sin (IZR k * x))); [rewrite prod_cs; field | cbn [pow]; ring].
Qed.
Lemma cos_angular j m m' : angular_integral (fun t => cos t ^ j) m m' (RtoC (cos_integral j (m' - m))).
Proof. destruct (cos_integral_ok j (m' - m)) as [A B]. apply angular_of; assumption. Qed.
Lemma cos_integral_odd j : forall k, Z.even (Z.of_nat j + k) = false -> cos_integral j k = 0.
Proof.
  induction j as [|j IH]; intros k H.
  - cbn. unfold turn. destruct (Z.eqb_spec k 0) as [->|]; [discriminate H | reflexivity].
  - cbn [cos_integral]. rewrite !IH; [field| |].
    + rewrite <- H. replace (Z.of_nat (S j) + k)%Z with (Z.of_nat j + (k - 1) + 2)%Z by lia. rewrite (Z.even_add _ 2). change (Z.even 2) with true. destruct (Z.even (Z.of_nat j + (k - 1))); reflexivity.
    + rewrite <- H. f_equal. lia.
Qed.
Lemma smooth_same_m m : smooth_theta_integral_1 m m = cos_integral 4 (m - m) /\ smooth_theta_integral_2 m m = cos_integral 2 (m - m).
Proof. unfold smooth_theta_integral_1, smooth_theta_integral_2. rewrite !Z.sub_diag. cbn. unfold turn. cbn. split; field. Qed.

Section SmoothWell.
  Variables mass omega : R.
  Hypotheses (Hm : 0 < mass) (Hw : 0 < omega).
  (** Right between orbitals with the same m *)
  Lemma smooth_right_same a b p q : a <> 0 -> snd (shell_state p) = snd (shell_state q) ->
    exists g, hamiltonian mass 0 (fun x y => trap mass omega x y + smooth_potential omega a b x y) (orbital mass omega (shell_state q)) g /\
      bracket (orbital mass omega (shell_state p)) g (RtoC (smooth_well_element omega mass a b p q)).
  Proof.
    intros Ha E. rewrite smooth_value. apply smooth_true; try assumption.
    - unfold qm. rewrite E. rewrite (proj1 (smooth_same_m _)). apply cos_angular.
    - unfold qm. rewrite E. rewrite (proj2 (smooth_same_m _)). apply cos_angular.
  Qed.
  (** The true matrix does not couple different parities; the computed one does *)
  Lemma smooth_true_odd a b p q : a <> 0 -> Z.even (snd (shell_state p) - snd (shell_state q)) = false ->
    exists g, hamiltonian mass 0 (fun x y => trap mass omega x y + smooth_potential omega a b x y) (orbital mass omega (shell_state q)) g /\
      bracket (orbital mass omega (shell_state p)) g (RtoC 0).
  Proof.
    intros Ha E. destruct (smooth_true mass omega Hm Hw a b p q _ _ Ha (cos_angular 4 _ _) (cos_angular 2 _ _)) as (g & H & B). exists g. split; [exact H|].
    unfold qm in B. assert (E' : Z.even (snd (shell_state q) - snd (shell_state p)) = false) by (rewrite Z.even_sub in E |- *; destruct (Z.even (snd (shell_state p))), (Z.even (snd (shell_state q))); assumption).
    rewrite !cos_integral_odd in B by (rewrite Z.even_add; cbn [Z.of_nat]; change (Z.even 4) with true; change (Z.even 2) with true; rewrite E'; reflexivity).
    assert (D : p <> q) by (intros <-; rewrite Z.sub_diag in E; discriminate E). unfold oscillator_element, overlap_element, smooth_sum in B. destruct (Nat.eqb_spec p q) as [F|_]; [destruct (D F)|].
    match type of B with bracket _ _ (RtoC ?x) => replace x with 0 in B by ring end. exact B.
  Qed.
End SmoothWell.
Lemma default_01 : smooth_well_element 1 1 2 2 0 1 <> 0.
Proof.
  rewrite smooth_value. unfold oscillator_element, overlap_element, smooth_sum. cbn [Nat.eqb]. change (shell_state 0) with (0, 0)%Z. change (shell_state 1) with (0, -1)%Z. unfold qn, qm. cbn [fst snd Z.to_nat].
  rewrite !radial_integral_value by lra. set (a := bohr_radius 1 1). assert (A : a = 1) by (unfold a, bohr_radius; rewrite Rmult_1_r; apply sqrt_1).
  unfold radial_value, lag. cbn [sum_f_R0 Z.abs_nat Pos.to_nat Pos.iter_op]. fold a. rewrite A. unfold moment. cbn [Nat.add Nat.mul gamma2 fact].
  pose proof (norm_pos 0 0 1 1 ltac:(lra) ltac:(lra)) as N. pose proof (norm_pos 0 (-1) 1 1 ltac:(lra) ltac:(lra)) as N'. set (c := spf_norm 0 0 1 1) in *. set (c' := spf_norm 0 (-1) 1 1) in *.
  unfold smooth_theta_integral_1, smooth_theta_integral_2. cbn [Z.sub Z.opp Z.add Z.abs Z.modulo Z.pow]. 
  pose proof PI_RGT_0 as P. pose proof (sqrt_lt_R0 PI P) as S. set (g := sqrt PI) in *.
  cbn. intros H. assert (0 < c * c' * g * PI) by (apply Rmult_lt_0_compat; [apply Rmult_lt_0_compat; [apply Rmult_lt_0_compat|]|]; assumption).
  match type of H with ?x = 0 => assert (X : x = c * c' * g * PI * (435 / 1024)) by (change (Pos.to_nat 1) with 1%nat; cbn; fold g; field) end. lra.
Qed.
Lemma smooth_never {Args S} (args : Args) f (s : S) : fst (smooth_init args f s) = Err (if Rle_dec 1 f then NameError else AssertionError) /\ snd (smooth_init args f s) = s.
Proof. unfold smooth_init, py_assert. destruct (Rle_dec 1 f); split; reflexivity. Qed.
Lemma ground_at_origin mass omega : 0 < mass -> 0 < omega -> orbital mass omega (0, 0)%Z 0 0 = RtoC (sqrt (mass * omega) * sqrt (1 / PI)).
Proof.
  intros Hm Hw. unfold orbital, spf_state, spf_norm, spf_theta, spf_radial, qn, qm, laguerre, bohr_radius. set (a := sqrt (mass * omega)). cbn.
  replace (- (a * (a * 1)) * (0 * (0 * 1)) / 2) with 0 by field. rewrite Rmult_0_l, cos_0, sin_0, exp_0, Rmult_1_r. unfold RtoC, Cmult. cbn. f_equal; field.
Qed.
Lemma equal_mass mass omega omega' p q r s : 0 < mass -> 0 < omega -> 0 < omega' ->
  (forall s r t, orbital mass omega s r t = orbital mass omega' s r t) -> interaction_element mass omega p q r s = interaction_element mass omega' p q r s.
Proof.
  intros Hm Hw Hw' E. specialize (E (0, 0)%Z 0 0). rewrite !ground_at_origin in E by assumption. injection E as E.
  assert (P : 0 < sqrt (1 / PI)) by (apply sqrt_lt_R0; pose proof PI_RGT_0; apply Rdiv_lt_0_compat; lra).
  apply Rmult_eq_reg_r in E; [|lra]. apply sqrt_inj in E; [|left; apply Rmult_lt_0_compat; assumption..]. apply Rmult_eq_reg_l in E; [|lra]. rewrite E. reflexivity.
Qed.
Lemma smooth_wrong : ~ (forall mass omega a b, 0 < mass -> 0 < omega -> a <> 0 ->
  is_matrix_of mass omega 0 (fun x y => mass * omega ^ 2 * (x ^ 2 + y ^ 2) / 2 + smooth_potential omega a b x y) (smooth_well_element omega mass a b)).
Proof.
  intros H. destruct (H 1 1 2 2 ltac:(lra) ltac:(lra) ltac:(lra) 0%nat 1%nat) as (g & A & B).
  destruct (smooth_true_odd 1 1 ltac:(lra) ltac:(lra) 2 2 0 1 ltac:(lra) eq_refl) as (g' & A' & B'). pose proof (hamiltonian_unique _ _ _ _ _ _ A A') as E.
  apply default_01. assert (X : RtoC (smooth_well_element 1 1 2 2 0 1) = RtoC 0). { eapply plane_unique_off; [|exact B|exact B']. intros r t Hr. cbv beta. rewrite E by exact Hr. reflexivity. }
  injection X. auto.
Qed.
Lemma interaction_refuted : ~ (forall mass omega mass' omega', 0 < mass -> 0 < omega -> 0 < mass' -> 0 < omega' ->
  (forall s r t, orbital mass omega s r t = orbital mass' omega' s r t) ->
  forall p q r s, interaction_element mass omega p q r s = interaction_element mass' omega' p q r s).
Proof. intros H. destruct interaction_needs_product as (m & w & m' & w' & A & B & C & D & E & N). apply N. apply H; assumption. Qed.
(** The table of states in a field, row p *)
Lemma field_rows_right mass l omega_0 omega_c rows p q : 0 < mass -> omega_0 <> 0 -> field_states l omega_0 omega_c = Ok rows -> (p < l)%nat -> (q < l)%nat ->
  let nm := fun p => nth p rows (0, 0)%Z in let omega := sqrt (omega_0 ^ 2 + omega_c ^ 2 / 4) in
  bracket (orbital mass omega (nm p)) (orbital mass omega (nm q)) (RtoC (overlap_element p q)) /\
  exists g, hamiltonian mass (omega_c / 2) (trap mass omega) (orbital mass omega (nm q)) g /\
    bracket (orbital mass omega (nm p)) g (RtoC (field_element nm omega_0 omega_c p q)).
Proof.
  intros Hm H0 HF Hp Hq nm omega. destruct (field_lowest' l omega_0 omega_c rows H0 HF) as [L B].
  assert (G : forall p, (p < l)%nat -> nth_error rows p = Some (nm p)) by (intros k Hk; apply nth_error_nth'; rewrite L; exact Hk).
  assert (Hn : forall p, (0 <= fst (nm p))%Z).
  { intros k. destruct (Nat.lt_ge_cases k l) as [Hk|Hk]; [exact (proj1 (B k _ (G k Hk)))|]. unfold nm. rewrite nth_overflow by (rewrite L; exact Hk). cbn. lia. }
  assert (Lt : forall p q, (p < l)%nat -> (q < l)%nat -> nm p = nm q -> ~ (q < p)%nat).
  { intros k k' Hk Hk' E H. destruct (B k _ (G k Hk)) as [_ W]. specialize (W (nm k) (Hn k)). cbv zeta in W.
    assert (X : exists q, (q < k)%nat /\ nth_error rows q = Some (nm k)) by (exists k'; split; [exact H | rewrite (G k' Hk'), E; reflexivity]).
    apply W in X. destruct X as [X|[_ X]]; [lra|lia]. }
  assert (I : nm p = nm q -> p = q) by (intros E; pose proof (Lt p q Hp Hq E); pose proof (Lt q p Hq Hp (eq_sym E)); lia).
  assert (Hw : 0 < omega). { apply sqrt_lt_R0. pose proof (pow2_ge_0 omega_c). assert (0 < omega_0 ^ 2) by (apply pow2_gt_0; exact H0). lra. }
  split; [apply table_overlap; assumption | apply field_right; assumption].
Qed.
