(** The matrices of the two-dimensional systems are those of their Hamiltonians. *)
From Coq Require Import List ZArith Reals Lra Lia Arith Bool.
From Coquelicot Require Import Coquelicot.
From Verif Require Import Py TwoDim TwoDimProofs FieldProofs Angular AngularSpec AngularProofs Gauss Moments Coulomb Orbitals OrbitalSpec Laguerre OrbitalProofs Schroedinger.
Import ListNotations.
Open Scope R_scope.

Definition orbital (mass omega : R) (s : Z * Z) : R -> R -> C := spf_state (qn s) (qm s) mass omega.
(** <f| g> *)
Definition bracket (f g : R -> R -> C) (v : C) : Prop := plane_integral (fun r t => (Cconj (f r t) * g r t)%C) v.

Lemma shell_state_nonneg p : (0 <= fst (shell_state p))%Z.
Proof. destruct (index_of_indices (Z.of_nat p) ltac:(lia)) as (n & m & E & H & _). rewrite shell_state_some in E. injection E as ->. exact H. Qed.
Lemma shell_energy_real s : (0 <= fst s)%Z -> IZR (get_shell_energy (fst s) (snd s)) = 2 * INR (qn s) + INR (Z.abs_nat (qm s)) + 1.
Proof.
  intros H. unfold get_shell_energy, qn, qm. rewrite !INR_IZR_INZ, Z2Nat.id, Zabs2Nat.id_abs by exact H. rewrite !plus_IZR, mult_IZR. reflexivity.
Qed.
Lemma same_state s t : (0 <= fst s)%Z -> (0 <= fst t)%Z -> ((qn s =? qn t)%nat && (qm s =? qm t)%Z) = true <-> s = t.
Proof.
  intros Hs Ht. rewrite andb_true_iff, Nat.eqb_eq, Z.eqb_eq. unfold qn, qm. destruct s, t. cbn in *. split; [intros [E ->]; f_equal; lia | intros E; injection E as -> ->; split; reflexivity].
Qed.

Section Matrices.
  Variables mass omega : R.
  Hypotheses (Hm : 0 < mass) (Hw : 0 < omega).
  Notation orb := (orbital mass omega).

  Lemma state_overlap s t : (0 <= fst s)%Z -> (0 <= fst t)%Z ->
    exists e, bracket (orb s) (orb t) (RtoC e) /\ (s = t -> e = 1) /\ (s <> t -> e = 0).
  Proof.
    intros Hs Ht. pose proof (orthonormal mass omega Hm Hw (qn s) (qm s) (qn t) (qm t)) as O. pose proof (same_state s t Hs Ht) as S.
    exists (if (qn s =? qn t)%nat && (qm s =? qm t)%Z then 1 else 0). split; [|split].
    - destruct ((qn s =? qn t)%nat && (qm s =? qm t)%Z); (eapply plane_ext; [|exact O]; intros r u Hr; cbv beta; unfold orbital; rewrite Cmult_1_r; reflexivity).
    - intros E. apply S in E. rewrite E. reflexivity.
    - intros E. destruct ((qn s =? qn t)%nat && (qm s =? qm t)%Z); [|reflexivity]. destruct E. apply S. reflexivity.
  Qed.
  Lemma table_overlap (nm : nat -> Z * Z) p q : (forall p, 0 <= fst (nm p))%Z -> (nm p = nm q -> p = q) ->
    bracket (orb (nm p)) (orb (nm q)) (RtoC (overlap_element p q)).
  Proof.
    intros H I. destruct (state_overlap (nm p) (nm q) (H p) (H q)) as (e & B & E1 & E0). unfold overlap_element. destruct (Nat.eqb_spec p q) as [<-|D].
    - rewrite <- E1 by reflexivity. exact B.
    - rewrite <- E0; [exact B|]. intros E. apply D, I, E.
  Qed.
  Lemma oscillator_overlap p q : bracket (orb (shell_state p)) (orb (shell_state q)) (RtoC (overlap_element p q)).
  Proof. apply table_overlap; [apply shell_state_nonneg | apply shell_state_inj]. Qed.

  Definition trap (x y : R) : R := mass * omega ^ 2 * (x ^ 2 + y ^ 2) / 2.
  (** H = T + trap + W - b L_z applied to orbital t *)
  Definition applied (b : R) (W : R -> R -> R) (t : Z * Z) (r u : R) : C :=
    (RtoC (omega * (2 * INR (qn t) + INR (Z.abs_nat (qm t)) + 1) - b * IZR (qm t) + W (r * cos u) (r * sin u))%R * orb t r u)%C.
  Lemma applied_ok b W t : hamiltonian mass b (fun x y => trap x y + W x y) (orb t) (applied b W t).
  Proof. exact (oscillator_hamiltonian mass omega Hm Hw (qn t) (qm t) b W). Qed.
  Lemma applied_bracket b W s t c v : bracket (orb s) (orb t) c -> matrix_element (orb s) (orb t) W v ->
    bracket (orb s) (applied b W t) (RtoC (omega * (2 * INR (qn t) + INR (Z.abs_nat (qm t)) + 1) - b * IZR (qm t))%R * c + v)%C.
  Proof.
    intros B M. set (e := omega * (2 * INR (qn t) + INR (Z.abs_nat (qm t)) + 1) - b * IZR (qm t)).
    eapply plane_ext; [|exact (plane_add _ _ _ _ (plane_scal e _ _ B) M)]. intros r u Hr. cbv beta. unfold applied. fold e.
    rewrite RtoC_plus. set (f := Cconj _). set (g := orb t r u). ring.
  Qed.

  (** ** Oscillator *)
  Lemma no_potential s t : matrix_element (orb s) (orb t) (fun _ _ => 0) (RtoC 0).
  Proof.
    exists (fun _ => RtoC 0). split; [|split].
    - intros r Hr. apply (is_RInt_ext (V := C_R_NormedModule) (fun _ => zero)); [intros; cbv beta; rewrite Cmult_0_r, Cmult_0_l; reflexivity|].
      pose proof (is_RInt_const (V := C_R_NormedModule) 0 (2 * PI) zero) as Z. rewrite (scal_zero_r (V := C_R_ModuleSpace)) in Z. exact Z.
    - cbn. eapply half_line_ext; [|apply half_line_zero]. intros; cbv beta; ring.
    - cbn. eapply half_line_ext; [|apply half_line_zero]. intros; cbv beta; ring.
  Qed.
  Lemma oscillator_right p q : exists g, hamiltonian mass 0 trap (orb (shell_state q)) g /\ bracket (orb (shell_state p)) g (RtoC (oscillator_element omega p q)).
  Proof.
    exists (applied 0 (fun _ _ => 0) (shell_state q)). split.
    - destruct (applied_ok 0 (fun _ _ => 0) (shell_state q)) as (fr & frr & ft & ftt & A & B & C & D & E). exists fr, frr, ft, ftt. split; [exact A|]. split; [exact B|]. split; [exact C|]. split; [exact D|].
      intros r t Hr. rewrite (E r t Hr). rewrite Rplus_0_r. reflexivity.
    - pose proof (applied_bracket 0 _ _ _ _ _ (oscillator_overlap p q) (no_potential (shell_state p) (shell_state q))) as B.
      match type of B with bracket _ _ ?x => replace (RtoC (oscillator_element omega p q)) with x; [exact B|] end.
      unfold oscillator_element, overlap_element. destruct (Nat.eqb_spec p q) as [<-|D].
      + rewrite shell_energy_real by apply shell_state_nonneg. unfold RtoC, Cmult, Cplus. cbn. f_equal; ring.
      + unfold RtoC, Cmult, Cplus. cbn. f_equal; ring.
  Qed.
  (** ** Double well *)
  Definition barrier_potential (b : R) (axis : Z) (x y : R) : R :=
    omega ^ 2 / 2 * (b ^ 2 / 4 - b * Rabs (if (axis =? 0)%Z then x else y)).
  Lemma abs_element axis s t :
    matrix_element (orb s) (orb t) (fun x y => Rabs (if (axis =? 0)%Z then x else y))
      (RtoC (spf_norm (qn s) (qm s) mass omega * spf_norm (qn t) (qm t) mass omega * radial_integral (spf_radial (qn s) (qm s) mass omega) (spf_radial (qn t) (qm t) mass omega) 1
        * (if (axis =? 0)%Z then theta_1_tilde_integral (qm s) (qm t) else theta_2_tilde_integral (qm s) (qm t)))).
  Proof.
    rewrite RtoC_mult. destruct (axis =? 0)%Z.
    - apply (plane_elem mass omega Hm Hw _ _ _ _ 1 (fun t => Rabs (cos t))); [|apply theta_1_tilde_right]. intros r u Hr. cbv beta. rewrite Rabs_mult, (Rabs_pos_eq r Hr). ring.
    - apply (plane_elem mass omega Hm Hw _ _ _ _ 1 (fun t => Rabs (sin t))); [|apply theta_2_tilde_right]. intros r u Hr. cbv beta. rewrite Rabs_mult, (Rabs_pos_eq r Hr). ring.
  Qed.
  Lemma tilde_odd_1 m m' : Z.odd (m - m') = true -> theta_1_tilde_integral m m' = 0 /\ theta_2_tilde_integral m m' = 0.
  Proof.
    intros H. assert (E : (Z.abs (m - m') mod 2 = 1)%Z) by (rewrite Zmod_odd, odd_abs, H; reflexivity). unfold theta_1_tilde_integral, theta_2_tilde_integral. rewrite E. split; reflexivity.
  Qed.
  Lemma double_well_value b axis p q : double_well_element omega mass b axis p q =
    (if (p =? q)%nat then omega * IZR (get_shell_energy (fst (shell_state p)) (snd (shell_state p))) + omega ^ 2 * b ^ 2 / 8 else 0) -
    1 / 2 * omega ^ 2 * b * (spf_norm (qn (shell_state p)) (qm (shell_state p)) mass omega * spf_norm (qn (shell_state q)) (qm (shell_state q)) mass omega
      * radial_integral (spf_radial (qn (shell_state p)) (qm (shell_state p)) mass omega) (spf_radial (qn (shell_state q)) (qm (shell_state q)) mass omega) 1
      * (if (axis =? 0)%Z then theta_1_tilde_integral (qm (shell_state p)) (qm (shell_state q)) else theta_2_tilde_integral (qm (shell_state p)) (qm (shell_state q)))).
  Proof.
    unfold double_well_element. cbv zeta. fold (qm (shell_state p)). fold (qm (shell_state q)). destruct (Z.eqb_spec (Z.abs (qm (shell_state p) - qm (shell_state q))) 1) as [E|E]; [|ring].
    destruct (tilde_odd_1 (qm (shell_state p)) (qm (shell_state q))) as [-> ->]; [rewrite <- odd_abs, E; reflexivity|]. destruct (axis =? 0)%Z; ring.
  Qed.
  Lemma barrier_element b axis p q :
    matrix_element (orb (shell_state p)) (orb (shell_state q)) (barrier_potential b axis) (RtoC (double_well_element omega mass b axis p q - oscillator_element omega p q)).
  Proof.
    assert (M : matrix_element (orb (shell_state p)) (orb (shell_state q)) (barrier_potential b axis)
      (RtoC (omega ^ 2 / 2 * (b ^ 2 / 4)) * RtoC (overlap_element p q) + RtoC (- (omega ^ 2 / 2 * b)) * RtoC (spf_norm (qn (shell_state p)) (qm (shell_state p)) mass omega * spf_norm (qn (shell_state q)) (qm (shell_state q)) mass omega
      * radial_integral (spf_radial (qn (shell_state p)) (qm (shell_state p)) mass omega) (spf_radial (qn (shell_state q)) (qm (shell_state q)) mass omega) 1
      * (if (axis =? 0)%Z then theta_1_tilde_integral (qm (shell_state p)) (qm (shell_state q)) else theta_2_tilde_integral (qm (shell_state p)) (qm (shell_state q))))%R)%C).
    { eapply plane_ext; [|exact (plane_add _ _ _ _ (plane_scal _ _ _ (oscillator_overlap p q)) (plane_scal _ _ _ (abs_element axis (shell_state p) (shell_state q))))].
      intros r u Hr. cbv beta. unfold barrier_potential. rewrite Rmult_minus_distr_l, RtoC_minus. set (A := Rabs _). replace (omega ^ 2 / 2 * (b * A)) with (omega ^ 2 / 2 * b * A) by ring. rewrite !RtoC_opp, !(RtoC_mult _ A). ring. }
    match type of M with matrix_element _ _ _ ?x => replace (RtoC (double_well_element omega mass b axis p q - oscillator_element omega p q)) with x; [exact M|] end.
    rewrite double_well_value. unfold overlap_element, oscillator_element. destruct (Nat.eqb_spec p q) as [<-|D].
    - unfold RtoC, Cmult, Cplus. cbn [fst snd]. f_equal; field.
    - unfold RtoC, Cmult, Cplus. cbn [fst snd]. f_equal; field.
  Qed.
  Lemma oscillator_with W p q v : matrix_element (orb (shell_state p)) (orb (shell_state q)) W (RtoC v) ->
    exists g, hamiltonian mass 0 (fun x y => trap x y + W x y) (orb (shell_state q)) g /\ bracket (orb (shell_state p)) g (RtoC (oscillator_element omega p q + v)).
  Proof.
    intros M. exists (applied 0 W (shell_state q)). split; [apply applied_ok|].
    pose proof (applied_bracket 0 _ _ _ _ _ (oscillator_overlap p q) M) as B.
    match type of B with bracket _ _ ?x => replace (RtoC (oscillator_element omega p q + v)) with x; [exact B|] end.
    unfold oscillator_element, overlap_element. destruct (Nat.eqb_spec p q) as [<-|D].
    - rewrite shell_energy_real by apply shell_state_nonneg. unfold RtoC, Cmult, Cplus. cbn [fst snd]. f_equal; field.
    - unfold RtoC, Cmult, Cplus. cbn [fst snd]. f_equal; field.
  Qed.
  Lemma double_well_right b axis p q :
    exists g, hamiltonian mass 0 (fun x y => trap x y + barrier_potential b axis x y) (orb (shell_state q)) g /\
      bracket (orb (shell_state p)) g (RtoC (double_well_element omega mass b axis p q)).
  Proof.
    destruct (oscillator_with _ _ _ _ (barrier_element b axis p q)) as (g & H & B). exists g. split; [exact H|].
    replace (oscillator_element omega p q + (double_well_element omega mass b axis p q - oscillator_element omega p q)) with (double_well_element omega mass b axis p q) in B by ring. exact B.
  Qed.
  Lemma radial_sym n m n' m' o : radial_integral (spf_radial n m mass omega) (spf_radial n' m' mass omega) o = radial_integral (spf_radial n' m' mass omega) (spf_radial n m mass omega) o.
  Proof.
    eapply half_line_unique; [apply radial_integral_ok; assumption|]. eapply half_line_ext; [|apply radial_integral_ok; assumption]. intros; cbv beta; ring.
  Qed.
End Matrices.

Lemma theta_tilde_sym m m' : theta_1_tilde_integral m m' = theta_1_tilde_integral m' m /\ theta_2_tilde_integral m m' = theta_2_tilde_integral m' m.
Proof.
  unfold theta_1_tilde_integral, theta_2_tilde_integral. replace (m' - m)%Z with (- (m - m'))%Z by lia. rewrite Z.abs_opp. replace ((- (m - m')) ^ 2)%Z with ((m - m') ^ 2)%Z by ring. split; reflexivity.
Qed.
Lemma double_well_sym mass omega b axis p q : 0 < mass -> 0 < omega -> double_well_element omega mass b axis p q = double_well_element omega mass b axis q p.
Proof.
  intros Hm Hw. rewrite !double_well_value by assumption. rewrite (radial_sym mass omega Hm Hw). destruct (theta_tilde_sym (qm (shell_state p)) (qm (shell_state q))) as [-> ->].
  rewrite (Nat.eqb_sym q p). destruct (Nat.eqb_spec p q) as [<-|D]; destruct (axis =? 0)%Z; ring.
Qed.
Lemma double_well_zero mass omega axis p q : double_well_element omega mass 0 axis p q = oscillator_element omega p q.
Proof.
  unfold double_well_element, oscillator_element. cbv zeta. fold (qm (shell_state p)). destruct (Z.abs (qm (shell_state p) - qm (shell_state q)) =? 1)%Z; destruct (p =? q)%nat; unfold qm; field.
Qed.
Lemma double_well_even mass omega b axis p q : double_well_element omega mass b axis p q <> 0 -> Z.even (snd (shell_state p) - snd (shell_state q)) = true.
Proof.
  intros H. destruct (Z.even _) eqn:E; [reflexivity|]. destruct H. rewrite <- Z.negb_odd, negb_false_iff in E. rewrite double_well_value.
  destruct (tilde_odd_1 _ _ E) as [T1 T2]. fold (qm (shell_state p)) in T1, T2. fold (qm (shell_state q)) in T1, T2. rewrite T1, T2.
  destruct (Nat.eqb_spec p q) as [<-|D]; [rewrite Z.sub_diag in E; discriminate E|]. destruct (axis =? 0)%Z; ring.
Qed.

(** ** Dipoles *)
Lemma theta_conj m m' : theta_1_integral m' m = Cconj (theta_1_integral m m') /\ theta_2_integral m' m = Cconj (theta_2_integral m m').
Proof.
  unfold theta_1_integral, theta_2_integral. replace (m' - m)%Z with (- (m - m'))%Z by lia. rewrite Z.abs_opp, Z.opp_involutive, opp_IZR.
  destruct (Z.abs (m - m') =? 1)%Z; unfold Cconj, RtoC, Cmult, Ci; cbn; split; f_equal; ring.
Qed.
Lemma dipole_hermitian mass omega nm i p q : 0 < mass -> 0 < omega -> dipole_element nm mass omega i q p = Cconj (dipole_element nm mass omega i p q).
Proof.
  intros Hm Hw. unfold dipole_element. rewrite (radial_sym mass omega Hm Hw). rewrite (Rmult_comm (spf_norm (qn (nm q)) _ _ _)).
  destruct (theta_conj (qm (nm p)) (qm (nm q))) as [-> ->].
  replace (qm (nm q) - qm (nm p))%Z with (- (qm (nm p) - qm (nm q)))%Z by lia. rewrite Z.abs_opp.
  assert (Z0 : Cconj (RtoC 0) = RtoC 0) by (unfold Cconj, RtoC; cbn; f_equal; ring).
  destruct (Z.abs (qm (nm p) - qm (nm q)) =? 1)%Z; cbn [negb]; [|symmetry; exact Z0].
  assert (S : forall (x : R) z, Cconj (RtoC x * z)%C = (RtoC x * Cconj z)%C) by (intros x [u v]; unfold Cconj, RtoC, Cmult; cbn; f_equal; ring).
  destruct i; rewrite S; reflexivity.
Qed.
Lemma dipole_selection mass omega nm i p q : dipole_element nm mass omega i p q <> RtoC 0 -> Z.abs (snd (nm p) - snd (nm q)) = 1%Z.
Proof. intros H. unfold dipole_element in H. fold (qm (nm p)). fold (qm (nm q)). destruct (Z.eqb_spec (Z.abs (qm (nm p) - qm (nm q))) 1) as [E|E]; [exact E|]. destruct H. reflexivity. Qed.

(** ** Magnetic field *)
Lemma field_right mass omega_0 omega_c nm p q : 0 < mass -> omega_0 <> 0 -> (forall p, 0 <= fst (nm p))%Z -> (nm p = nm q -> p = q) ->
  let omega := sqrt (omega_0 ^ 2 + omega_c ^ 2 / 4) in
  exists g, hamiltonian mass (omega_c / 2) (trap mass omega) (orbital mass omega (nm q)) g /\
    bracket (orbital mass omega (nm p)) g (RtoC (field_element nm omega_0 omega_c p q)).
Proof.
  intros Hm H0 Hn Hi omega. assert (Hw : 0 < omega). { apply sqrt_lt_R0. pose proof (pow2_ge_0 omega_c). assert (0 < omega_0 ^ 2) by (apply pow2_gt_0; exact H0). lra. }
  exists (applied mass omega (omega_c / 2) (fun _ _ => 0) (nm q)). split.
  - destruct (applied_ok mass omega Hm Hw (omega_c / 2) (fun _ _ => 0) (nm q)) as (fr & frr & ft & ftt & A & B & C & D & E). exists fr, frr, ft, ftt. split; [exact A|]. split; [exact B|]. split; [exact C|]. split; [exact D|].
    intros r t Hr. rewrite (E r t Hr). rewrite Rplus_0_r. reflexivity.
  - pose proof (applied_bracket mass omega (omega_c / 2) _ _ _ _ _ (table_overlap mass omega Hm Hw nm p q Hn Hi) (no_potential mass omega (nm p) (nm q))) as B.
    match type of B with bracket _ _ ?x => replace (RtoC (field_element nm omega_0 omega_c p q)) with x; [exact B|] end.
    unfold field_element, overlap_element. fold omega. destruct (Nat.eqb_spec p q) as [<-|D].
    + unfold shell_energy_B. change (2 * fst (nm p) + Z.abs (snd (nm p)) + 1)%Z with (get_shell_energy (fst (nm p)) (snd (nm p))). rewrite shell_energy_real by apply Hn. unfold qm, RtoC, Cmult, Cplus. cbn [fst snd]. f_equal; field.
    + unfold RtoC, Cmult, Cplus. cbn [fst snd]. f_equal; field.
Qed.
