(** Rotations, reflections and closed shells of the two-dimensional systems; spin_delta. *)
From Coq Require Import List Arith ZArith Reals Bool Lra Lia Permutation.
From Coquelicot Require Import Coquelicot.
From Verif Require Import Scalar ScalarC Py Numpy BasisSet Spec BasisSpec TwoDim TwoDimProofs FieldProofs Coulomb CoulombProofs Cache CacheProofs Angular AngularProofs Orbitals OrbitalSpec OrbitalProofs MatrixProofs PlaneSpec TwoDimBasis PlaneProofs.
From Verif Require Import OneDimProofs DotProofs GridSpec GridProofs LadderSpec LevelProofs DipoleSpec DipoleTheorems Helpers SpinProofs EnergySpec Systems SystemFacts SystemProofs EnergyFacts DensitySpec DensityProofs PairTheorems CacheExamples.
Import ListNotations.
Open Scope R_scope.

(** ** spin_delta *)
Lemma land_one p : Z.land p 1 = (p mod 2)%Z.
Proof. change 1%Z with (Z.ones 1) at 1. rewrite Z.land_ones by lia. reflexivity. Qed.
Lemma spin_delta_value p q : spin_delta p q = if (p mod 2 =? q mod 2)%Z then 1%Z else 0%Z.
Proof.
  unfold spin_delta. rewrite !land_one. pose proof (Z.mod_pos_bound p 2 ltac:(lia)). pose proof (Z.mod_pos_bound q 2 ltac:(lia)).
  assert (A : (p mod 2 = 0 \/ p mod 2 = 1)%Z) by lia. assert (B : (q mod 2 = 0 \/ q mod 2 = 1)%Z) by lia. destruct A as [->| ->], B as [->| ->]; reflexivity.
Qed.
Lemma spin_delta_nat P Q : spin_delta (Z.of_nat P) (Z.of_nat Q) = if (P mod 2 =? Q mod 2)%nat then 1%Z else 0%Z.
Proof.
  rewrite spin_delta_value. replace (Z.of_nat P mod 2)%Z with (Z.of_nat (P mod 2)) by (rewrite Nat2Z.inj_mod; reflexivity). replace (Z.of_nat Q mod 2)%Z with (Z.of_nat (Q mod 2)) by (rewrite Nat2Z.inj_mod; reflexivity).
  destruct (Nat.eqb_spec (P mod 2) (Q mod 2)) as [->|D]; [rewrite Z.eqb_refl; reflexivity|]. destruct (Z.eqb_spec (Z.of_nat (P mod 2)) (Z.of_nat (Q mod 2))); [lia|reflexivity].
Qed.
Lemma spin_delta_same P Q : (spin_delta (Z.of_nat P) (Z.of_nat Q) =? 1)%Z = same_parity P Q.
Proof.
  rewrite spin_delta_nat. unfold same_parity. rewrite <- !Nat.bit0_mod, !Nat.bit0_odd, <- !Nat.negb_even. destruct (Nat.even P), (Nat.even Q); reflexivity.
Qed.
(** delta is equality, and splits into the spatial orbital and the spin. *)
Lemma delta_split p q : (delta p q = true <-> p = q) /\ delta p q = (delta (p / 2) (q / 2) && (spin_delta p q =? 1)%Z)%bool.
Proof.
  unfold delta. split; [apply Z.eqb_eq|]. rewrite spin_delta_value. pose proof (Z.div_mod p 2 ltac:(lia)). pose proof (Z.div_mod q 2 ltac:(lia)).
  destruct (Z.eqb_spec p q) as [->|N]; [rewrite !Z.eqb_refl; reflexivity|]. destruct (Z.eqb_spec (p / 2) (q / 2)); [|reflexivity]. destruct (Z.eqb_spec (p mod 2) (q mod 2)); [|reflexivity]. exfalso. apply N. lia.
Qed.
(** spin_delta describes the spin-doubled arrays. *)
Lemma spin_delta_elements (K : scalar) (ab : option (list K * list K)) (anti : bool) (b : basis K) (l : nat) (s h u : arr K) :
  (b_cls b = SincDVR -> ab = None) ->
  let va := match ab with Some p => fst p | None => default_a K end in
  let vb := match ab with Some p => snd p | None => default_b K end in
  orthonormal_pair va vb -> ready b l -> b_spin b = false -> b_arr b F_s = Some s -> b_arr b F_h = Some h -> b_arr b F_u = Some u ->
  exists b' h' u', change_to_general ab anti b = (Ok true, b') /\ b_arr b' F_h = Some h' /\ b_arr b' F_u = Some u' /\
    let d P Q := (spin_delta (Z.of_nat P) (Z.of_nat Q) =? 1)%Z in
    (forall P Q, mat h' P Q = if d P Q then mat h (P / 2)%nat (Q / 2)%nat else s0) /\
    (forall P Q R S, (P < 2 * l)%nat -> (Q < 2 * l)%nat -> (R < 2 * l)%nat -> (S < 2 * l)%nat ->
      let x := if d P R && d Q S then ten u (P / 2)%nat (Q / 2)%nat (R / 2)%nat (S / 2)%nat else s0 in
      let y := if d P S && d Q R then ten u (P / 2)%nat (Q / 2)%nat (S / 2)%nat (R / 2)%nat else s0 in
      ten u' P Q R S = if anti && negb (b_asym b) then ssub x y else x).
Proof.
  intros H1 va vb H2 H3 H4 H5 Hh Hu. destruct (doubling_formula K ab anti b l s H1 H2 H3 H4 H5) as (b' & E & _ & _ & _ & D1 & _ & _ & D2 & _).
  rewrite Hh in D1. rewrite Hu in D2. destruct (b_arr b' F_h) as [h'|] eqn:Eh; [|contradiction]. destruct (b_arr b' F_u) as [u'|] eqn:Eu; [|contradiction].
  exists b', h', u'. split; [exact E|]. split; [exact Eh|]. split; [exact Eu|]. cbv zeta. split.
  - intros P Q. rewrite spin_delta_same. apply D1.
  - intros P Q R S HP HQ HR HS. rewrite !spin_delta_same. rewrite (proj2 D2 P Q R S HP HQ HR HS). destruct (anti && negb (b_asym b)); reflexivity.
Qed.

(** ** Sums over a set that is mapped to itself *)
Lemma rsum_list n f : rsum n f = fold_right Rplus 0 (map f (seq 0 n)).
Proof.
  induction n as [|n IH]; [reflexivity|]. rewrite seq_S, map_app. cbn [rsum map Nat.add]. rewrite IH. generalize (map f (seq 0 n)). intros L. induction L as [|x L IL]; cbn; [ring|]. rewrite <- IL. ring.
Qed.
Lemma fold_perm (L L' : list R) : Permutation L L' -> fold_right Rplus 0 L = fold_right Rplus 0 L'.
Proof. induction 1; cbn; try lra. Qed.
Lemma rsum_image n f (g : nat -> nat) : (forall i, (i < n)%nat -> (g i < n)%nat) -> (forall i j, (i < n)%nat -> (j < n)%nat -> g i = g j -> i = j) ->
  rsum n (fun i => f (g i)) = rsum n f.
Proof.
  intros H1 H2. rewrite !rsum_list. apply fold_perm. rewrite <- (map_map g f). apply Permutation_map. apply NoDup_Permutation_bis.
  - apply NoDup_nth with (d := 0%nat). rewrite map_length, seq_length. intros i j Hi Hj. rewrite !(nth_indep _ 0%nat (g 0%nat)) by (rewrite map_length, seq_length; assumption). rewrite !map_nth, !seq_nth by assumption. cbn [Nat.add]. apply H2; assumption.
  - rewrite map_length. reflexivity.
  - intros x Hx. apply in_map_iff in Hx. destruct Hx as (i & <- & Hi). apply in_seq in Hi. apply in_seq. specialize (H1 i). lia.
Qed.

(** ** Fock matrices *)
Section Fock.
  Variables (npm : nat) (spin anti : bool) (l N : nat) (L mass omega : R) (nm : nat -> Z * Z) (he : nat -> nat -> R) (b : basis CC).
  Hypothesis H : holds npm spin anti l N L mass omega nm he b.
  Variables (w : world CC) (s n : nat) (x : system) (h u : arr CC) (f : buffer CC).
  Hypotheses (A : sys_at w s Spatial n l x b) (Hh : b_arr b F_h = Some h) (Hu : b_arr b F_u = Some u) (Hf : buffer_ok f h u).
  Definition fock_value (p q : nat) : R := he p q + sqrt omega * rsum n (fun i => 2 * coulomb_of nm p i q i - coulomb_of nm p i i q).
  Lemma holds_fock : exists F, fock_matrix s h u f w = (Ok F, w) /\ shape F = [l; l] /\
    forall p q, (p < l)%nat -> (q < l)%nat -> mat F p q = RtoC (fock_value p q).
  Proof.
    destruct (ho_h _ _ _ _ _ _ _ _ _ _ _ H) as (h' & Eh & Sh & Gh). rewrite Hh in Eh. injection Eh as <-.
    destruct (ho_u _ _ _ _ _ _ _ _ _ _ _ H) as (u' & Eu & Su & Gu). rewrite Hu in Eu. injection Eu as <-.
    destruct (fock_matrix_ok CC w s Spatial n l x b h u f A Sh Su Hf) as (F & EF & SF & GF). exists F. split; [exact EF|]. split; [exact SF|].
    intros p q Hp Hq. rewrite (GF p q Hp Hq). pose proof (at_le _ _ _ _ _ _ _ _ A) as Hle. unfold F_restricted, fock_value. change (@sadd CC) with Cplus.
    rewrite RtoC_plus. f_equal; [apply Gh|]. rewrite <- rsum_scal, <- csum_rsum. apply csum_ext. intros i Hi. unfold ten. rewrite !Gu by lia.
    change (@ssub CC) with Cminus. change (@smul CC) with Cmult. change (@s1 CC) with (RtoC 1). rewrite <- RtoC_plus, <- RtoC_mult, <- RtoC_minus. f_equal. ring.
  Qed.
  Lemma fock_other p q : snd (nm p) <> snd (nm q) -> fock_value p q = he p q.
  Proof.
    intros D. unfold fock_value. rewrite rsum_zero; [ring|]. intros i _. rewrite !angular by lia. ring.
  Qed.
  (** A map of the orbitals that keeps the occupied ones and reverses rotations *)
  Variable g : nat -> nat.
  Hypothesis g_in : forall i, (i < n)%nat -> (g i < n)%nat.
  Hypothesis g_inj : forall i j, (i < n)%nat -> (j < n)%nat -> g i = g j -> i = j.
  Hypothesis g_nm : forall i, (i < n)%nat -> nm (g i) = (fst (nm i), - snd (nm i))%Z.
  Lemma coulomb_reflect p q r t p' q' r' t' :
    nm p' = (fst (nm p), - snd (nm p))%Z -> nm q' = (fst (nm q), - snd (nm q))%Z -> nm r' = (fst (nm r), - snd (nm r))%Z -> nm t' = (fst (nm t), - snd (nm t))%Z ->
    coulomb_of nm p' q' r' t' = coulomb_of nm p q r t.
  Proof. intros E1 E2 E3 E4. unfold coulomb_of. rewrite E1, E2, E3, E4. cbn [fst snd]. apply coulomb_mirror. Qed.
  Lemma fock_reflect p q p' q' : nm p' = (fst (nm p), - snd (nm p))%Z -> nm q' = (fst (nm q), - snd (nm q))%Z -> he p' q' = he p q ->
    fock_value p' q' = fock_value p q.
  Proof.
    intros Ep Eq Ee. unfold fock_value. rewrite Ee. f_equal. f_equal.
    rewrite <- (rsum_image n (fun i => 2 * coulomb_of nm p' i q' i - coulomb_of nm p' i i q') g g_in g_inj). apply rsum_ext. intros i Hi.
    pose proof (g_nm i Hi) as Ei. rewrite (coulomb_reflect p i q i p' (g i) q' (g i)) by assumption. rewrite (coulomb_reflect p i i q p' (g i) (g i) q') by assumption. reflexivity.
  Qed.
End Fock.

(** Closed shells: the first k(k+1)/2 orbitals hold with (n, m) also (n, -m). *)
Lemma shell_fill k i : (2 * i < k * (k + 1))%nat -> exists j, (2 * j < k * (k + 1))%nat /\ shell_state j = (fst (shell_state i), - snd (shell_state i))%Z.
Proof.
  intros Hi. destruct (shell_state_surj (fst (shell_state i)) (- snd (shell_state i)) (shell_state_nonneg i)) as (j & Ej). exists j. split; [|exact Ej].
  destruct (get_indices_ok (Z.of_nat i)) as (k1 & t1 & n1 & m1 & E1 & Hk1 & Ht1 & Hpt1 & Em1 & En1 & Hn1); [lia|]. rewrite shell_state_some in E1. injection E1 as E1.
  destruct (get_indices_ok (Z.of_nat j)) as (k2 & t2 & n2 & m2 & E2 & Hk2 & Ht2 & Hpt2 & Em2 & En2 & Hn2); [lia|]. rewrite shell_state_some in E2. injection E2 as E2.
  rewrite E1 in Ej. rewrite E2 in Ej. cbn [fst snd] in Ej. injection Ej as -> ->. assert (k2 = k1) by lia. subst k2. assert (t2 = t1) by lia. subst t2.
  assert (K1 : (k1 <= Z.of_nat k)%Z). { destruct (Z.le_gt_cases k1 (Z.of_nat k)) as [X|X]; [exact X|]. assert (Y : ((Z.of_nat k + 1) * Z.of_nat k <= k1 * (k1 - 1))%Z) by (apply Z.mul_le_mono_nonneg; lia). apply Nat2Z.inj_lt in Hi. rewrite !Nat2Z.inj_mul, Nat2Z.inj_add in Hi. lia. }
  assert (Y : (k1 * (k1 + 1) <= Z.of_nat k * (Z.of_nat k + 1))%Z) by (apply Z.mul_le_mono_nonneg; lia).
  apply Nat2Z.inj_lt. rewrite !Nat2Z.inj_mul, Nat2Z.inj_add. lia.
Qed.
Definition partner (p : nat) : nat := Z.to_nat (get_index_p (fst (shell_state p)) (- snd (shell_state p))).
Lemma partner_right p : shell_state (partner p) = (fst (shell_state p), - snd (shell_state p))%Z.
Proof.
  unfold partner. pose proof (shell_state_some (Z.to_nat (get_index_p (fst (shell_state p)) (- snd (shell_state p))))) as E.
  rewrite Z2Nat.id, indices_of_index in E by (try apply index_nonneg; apply shell_state_nonneg). injection E as E. auto.
Qed.
Lemma partner_in k n i : (2 * n = k * (k + 1))%nat -> (i < n)%nat -> (partner i < n)%nat.
Proof.
  intros Hn Hi. destruct (shell_fill k i) as (j & Hj & Ej); [lia|]. assert (partner i = j) as -> by (apply shell_state_inj; rewrite partner_right, Ej; reflexivity). lia.
Qed.
Lemma partner_inj i j : partner i = partner j -> i = j.
Proof.
  intros E. apply (f_equal shell_state) in E. rewrite !partner_right in E. apply shell_state_inj. destruct (shell_state i), (shell_state j). cbn [fst snd] in E. injection E as E1 E2. f_equal; lia.
Qed.
Lemma oscillator_reflect omega p q p' q' : shell_state p' = (fst (shell_state p), - snd (shell_state p))%Z -> shell_state q' = (fst (shell_state q), - snd (shell_state q))%Z ->
  oscillator_element omega p' q' = oscillator_element omega p q.
Proof.
  intros Ep Eq. assert (X : (p' =? q')%nat = (p =? q)%nat).
  { destruct (Nat.eqb_spec p q) as [->|D]; [apply Nat.eqb_eq, shell_state_inj; congruence|]. apply Nat.eqb_neq. intros ->. apply D, shell_state_inj. rewrite Ep in Eq. destruct (shell_state p), (shell_state q). cbn [fst snd] in Eq. injection Eq as E1 E2. f_equal; lia. }
  unfold oscillator_element. rewrite X, Ep. cbn [fst snd]. unfold get_shell_energy. rewrite Z.abs_opp. reflexivity.
Qed.
Lemma abs_nat_opp m : Z.abs_nat (- m) = Z.abs_nat m. Proof. lia. Qed.
Lemma double_well_reflect omega mass barrier axis p q p' q' : shell_state p' = (fst (shell_state p), - snd (shell_state p))%Z -> shell_state q' = (fst (shell_state q), - snd (shell_state q))%Z ->
  double_well_element omega mass barrier axis p' q' = double_well_element omega mass barrier axis p q.
Proof.
  intros Ep Eq. assert (X : (p' =? q')%nat = (p =? q)%nat).
  { destruct (Nat.eqb_spec p q) as [->|D]; [apply Nat.eqb_eq, shell_state_inj; congruence|]. apply Nat.eqb_neq. intros ->. apply D, shell_state_inj. rewrite Ep in Eq. destruct (shell_state p), (shell_state q). cbn [fst snd] in Eq. injection Eq as E1 E2. f_equal; lia. }
  unfold double_well_element, qn, qm. rewrite X, Ep, Eq. cbn [fst snd]. unfold get_shell_energy, spf_norm, spf_radial, theta_1_tilde_integral, theta_2_tilde_integral. rewrite !abs_nat_opp, Z.abs_opp.
  replace (- snd (shell_state p) - - snd (shell_state q))%Z with (- (snd (shell_state p) - snd (shell_state q)))%Z by lia. rewrite Z.abs_opp.
  replace ((- (snd (shell_state p) - snd (shell_state q))) ^ 2)%Z with ((snd (shell_state p) - snd (shell_state q)) ^ 2)%Z by ring. reflexivity.
Qed.

(** ** Energies of closed shells *)
Lemma fst_nonneg_quanta p : (0 <= 2 * fst (shell_state p) + Z.abs (snd (shell_state p)))%Z.
Proof. pose proof (shell_state_nonneg p). lia. Qed.
Lemma shell_number p : exists k : nat, (k * (k + 1) <= 2 * p < (k + 1) * (k + 2))%nat /\ (2 * fst (shell_state p) + Z.abs (snd (shell_state p)) + 1)%Z = Z.of_nat (S k).
Proof.
  destruct (get_indices_ok (Z.of_nat p)) as (k1 & t1 & n1 & m1 & E1 & Hk1 & Ht1 & Hpt1 & Em1 & En1 & Hn1); [lia|]. rewrite shell_state_some in E1. injection E1 as E1.
  exists (Z.to_nat (k1 - 1)). rewrite E1. cbn [fst snd]. split; [|lia].
  assert (Q : Z.of_nat (Z.to_nat (k1 - 1)) = (k1 - 1)%Z) by lia. revert Q. generalize (Z.to_nat (k1 - 1)). intros c Q. split.
  - apply Nat2Z.inj_le. rewrite !Nat2Z.inj_mul, Nat2Z.inj_add, Q. lia.
  - apply Nat2Z.inj_lt. rewrite !Nat2Z.inj_mul, !Nat2Z.inj_add, Q. lia.
Qed.
(** Shell k holds k orbitals of energy k. *)
Lemma shell_sum_part omega k j n0 : (2 * n0 = k * (k + 1))%nat -> (j <= k + 1)%nat ->
  rsum (n0 + j) (fun i => oscillator_element omega i i) = rsum n0 (fun i => oscillator_element omega i i) + omega * INR j * INR (S k).
Proof.
  intros H0. induction j as [|j IH]; intros Hj; [rewrite Nat.add_0_r; cbn [INR]; ring|]. replace (n0 + S j)%nat with (S (n0 + j)) by lia. cbn [rsum]. rewrite IH by lia.
  unfold oscillator_element at 2. rewrite Nat.eqb_refl. unfold get_shell_energy. destruct (shell_number (n0 + j)) as (k' & Hk' & E).
  assert (k' = k). { destruct (Nat.lt_trichotomy k' k) as [D|[D|D]]; [|exact D|].
    - assert ((k' + 1) * (k' + 2) <= k * (k + 1))%nat by (apply Nat.mul_le_mono; lia). lia.
    - assert ((k + 1) * (k + 2) <= k' * (k' + 1))%nat by (apply Nat.mul_le_mono; lia). assert (X : (k * (k + 1) + 2 * (k + 1) = (k + 1) * (k + 2))%nat) by ring. lia. }
  subst k'. rewrite E, <- INR_IZR_INZ, (S_INR j). ring.
Qed.
Lemma shell_sum omega k n : (2 * n = k * (k + 1))%nat -> rsum n (fun i => oscillator_element omega i i) = omega * (INR k * (INR k + 1) * (2 * INR k + 1)) / 6.
Proof.
  revert n. induction k as [|k IH]; intros n Hn; [replace n with 0%nat by lia; cbn [rsum INR]; field|].
  assert (X : exists n0, (2 * n0 = k * (k + 1))%nat). { exists (n - (k + 1))%nat. assert (Y : (S k * (S k + 1) = k * (k + 1) + 2 * (k + 1))%nat) by ring. lia. }
  destruct X as (n0 & H0). replace n with (n0 + (k + 1))%nat. 2:{ assert (Y : (S k * (S k + 1) = k * (k + 1) + 2 * (k + 1))%nat) by ring. lia. }
  rewrite (shell_sum_part omega k (k + 1) n0 H0 (le_n _)), (IH n0 H0). rewrite S_INR, plus_INR. cbn [INR]. field.
Qed.
