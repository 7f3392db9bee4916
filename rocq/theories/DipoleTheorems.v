(** Dipole matrices, transition energies and sum rules of the basis sets built by the
    constructors. *)
From Coq Require Import List Arith ZArith Reals Bool Lra Lia.
From Coquelicot Require Import Coquelicot.
From Verif Require Import Scalar ScalarC Py Numpy BasisSet Spec BasisSpec TwoDim TwoDimProofs FieldProofs Cache CacheProofs AngularProofs Gauss Orbitals OrbitalSpec OrbitalProofs MatrixProofs PlaneSpec TwoDimBasis PlaneProofs.
From Verif Require Import OneDim OneDimSpec LineProofs GridSpec GridProofs LadderSpec LadderProofs DipoleProofs LevelProofs DipoleSpec.
Import ListNotations.
Open Scope R_scope.

(** ** The arrays the constructors store *)
Lemma oscillator_holds npm spin anti l L N omega mass e s b t :
  sound s -> oscillator npm spin anti l L N omega mass e s = (Ok b, t) -> holds npm spin anti l N L mass omega shell_state (oscillator_element omega) b.
Proof.
  intros Hs E.
  assert (C1 : cached e = false \/ writable e = true \/ s (dir e) l <> None).
  { destruct (cached e) eqn:Ec; [|auto]. destruct (writable e) eqn:Ew; [auto|]. right. right. intros F. unfold oscillator, bind in E. rewrite (readonly e l s Ec Ew F) in E. discriminate E. }
  destruct (oscillator_ok npm spin anti l L N omega mass e s Hs C1) as (b1 & s1 & E1 & _ & H1). rewrite E in E1. injection E1 as <- <-. exact H1.
Qed.
Lemma double_well_holds npm spin anti l L N omega mass e barrier axis s b t :
  sound s -> double_well npm spin anti l L N omega mass e barrier axis s = (Ok b, t) -> holds npm spin anti l N L mass omega shell_state (double_well_element omega mass barrier axis) b.
Proof.
  intros Hs E.
  assert (C1 : cached e = false \/ writable e = true \/ s (dir e) l <> None).
  { destruct (cached e) eqn:Ec; [|auto]. destruct (writable e) eqn:Ew; [auto|]. right. right. intros F. unfold double_well, bind in E. rewrite (readonly e l s Ec Ew F) in E. discriminate E. }
  destruct (double_well_ok npm spin anti l L N omega mass e s barrier axis Hs C1) as (b1 & s1 & E1 & _ & H1). rewrite E in E1. injection E1 as <- <-. exact H1.
Qed.
Lemma field_holds npm spin anti l L N omega_0 mass omega_c rows b :
  field_states l omega_0 omega_c = Ok rows -> field_oscillator npm spin anti l L N omega_0 mass omega_c = (Ok tt, b) ->
  holds npm spin anti l N L mass (sqrt (omega_0 ^ 2 + omega_c ^ 2 / 4)) (fun p => nth p rows (0, 0)%Z) (field_element (fun p => nth p rows (0, 0)%Z) omega_0 omega_c) b.
Proof. intros F E. destruct (field_setup_ok npm spin anti l L N omega_0 mass omega_c rows F) as (b2 & E2 & H2). rewrite E in E2. injection E2 as <-. exact H2. Qed.

(** ** Closed forms *)
Lemma holds_dipole npm spin anti l N L mass w nm he (b : basis CC) : 0 < mass -> 0 < w -> holds npm spin anti l N L mass w nm he b ->
  (forall p, 0 <= fst (nm p))%Z -> dipole_table l mass w nm b.
Proof.
  intros Hm Hw H Hn. destruct (ho_d _ _ _ _ _ _ _ _ _ _ _ H) as (d & Ed & Sd & Gd). exists d. split; [exact Ed|]. split; [exact Sd|]. intros p q _ _. rewrite !Gd.
  exact (conj (plane_unique _ _ _ (dipole_x mass w Hm Hw nm p q) (x_right mass w Hm Hw (nm p) (nm q) (Hn p) (Hn q)))
              (plane_unique _ _ _ (dipole_y mass w Hm Hw nm p q) (y_right mass w Hm Hw (nm p) (nm q) (Hn p) (Hn q)))).
Qed.
Lemma oscillator_dipole npm spin anti l L N omega mass e s b t : 0 < mass -> 0 < omega -> sound s ->
  oscillator npm spin anti l L N omega mass e s = (Ok b, t) -> dipole_table l mass omega shell_state b.
Proof. intros Hm Hw Hs E. eapply holds_dipole; [exact Hm | exact Hw | eapply oscillator_holds; eassumption | apply shell_state_nonneg]. Qed.
Lemma double_well_dipole npm spin anti l L N omega mass e barrier axis s b t : 0 < mass -> 0 < omega -> sound s ->
  double_well npm spin anti l L N omega mass e barrier axis s = (Ok b, t) -> dipole_table l mass omega shell_state b.
Proof. intros Hm Hw Hs E. eapply holds_dipole; [exact Hm | exact Hw | eapply double_well_holds; eassumption | apply shell_state_nonneg]. Qed.
Lemma total_frequency omega_0 omega_c : omega_0 <> 0 -> 0 < sqrt (omega_0 ^ 2 + omega_c ^ 2 / 4).
Proof. intros H0. apply sqrt_lt_R0. pose proof (pow2_ge_0 omega_c). assert (0 < omega_0 ^ 2) by (apply pow2_gt_0; exact H0). lra. Qed.
Lemma field_dipole npm spin anti l L N omega_0 mass omega_c rows b : 0 < mass -> omega_0 <> 0 -> field_states l omega_0 omega_c = Ok rows ->
  field_oscillator npm spin anti l L N omega_0 mass omega_c = (Ok tt, b) -> dipole_table l mass (sqrt (omega_0 ^ 2 + omega_c ^ 2 / 4)) (fun p => nth p rows (0, 0)%Z) b.
Proof.
  intros Hm H0 F E. eapply holds_dipole; [exact Hm | apply total_frequency, H0 | eapply field_holds; eassumption | apply (field_table l omega_0 omega_c rows H0 F)].
Qed.

(** ** Energies *)
Lemma level_energy omega omega_c s : level omega (omega_c / 2) s = shell_energy_B omega omega_c s.
Proof.
  destruct s as [n m]. unfold level, shell_energy_B, left_quanta, right_quanta. cbn [fst snd].
  replace (n + Z.max m 0 + (n + Z.max (- m) 0))%Z with (2 * n + Z.abs m)%Z by lia. replace (n + Z.max m 0 - (n + Z.max (- m) 0))%Z with m by lia.
  rewrite (plus_IZR _ 1). field.
Qed.
Lemma oscillator_levels npm spin anti l N L mass omega b : holds npm spin anti l N L mass omega shell_state (oscillator_element omega) b ->
  exists h, b_arr b F_h = Some h /\ levels_of l h (fun p => level omega 0 (shell_state p)).
Proof.
  intros H. destruct (ho_h _ _ _ _ _ _ _ _ _ _ _ H) as (h & Eh & _ & Gh). exists h. split; [exact Eh|]. intros p q _ _. unfold mat. rewrite Gh.
  unfold oscillator_element. destruct (p =? q)%nat; [|f_equal; ring]. replace 0 with (0 / 2) by field. rewrite level_energy. unfold shell_energy_B, get_shell_energy. f_equal. field.
Qed.
Lemma field_levels npm spin anti l N L mass w nm omega_0 omega_c b : holds npm spin anti l N L mass w nm (field_element nm omega_0 omega_c) b ->
  exists h, b_arr b F_h = Some h /\ levels_of l h (fun p => level (sqrt (omega_0 ^ 2 + omega_c ^ 2 / 4)) (omega_c / 2) (nm p)).
Proof.
  intros H. destruct (ho_h _ _ _ _ _ _ _ _ _ _ _ H) as (h & Eh & _ & Gh). exists h. split; [exact Eh|]. intros p q _ _. unfold mat. rewrite Gh.
  unfold field_element. destruct (p =? q)%nat; [|reflexivity]. rewrite level_energy. reflexivity.
Qed.

(** ** From the closed forms to transitions and sum rules *)
Section Table.
  Variables (l : nat) (mass omega larmor : R) (state : nat -> Z * Z) (b : basis CC) (h : arr CC).
  Hypotheses (Hm : 0 < mass) (Hw : 0 < omega).
  Hypothesis D : dipole_table l mass omega state b.
  Hypothesis Eh : b_arr b F_h = Some h.
  Hypothesis Lh : levels_of l h (fun p => level omega larmor (state p)).
  Notation T := (turn_element mass omega).
  Lemma both_turning s t : (x_element mass omega s t + Ci * y_element mass omega s t)%C = RtoC (T s t).
  Proof. unfold x_element, y_element, Ci, Cmult, Copp, Cplus, RtoC. cbn [fst snd]. f_equal; field. Qed.
  Lemma table_turning : connects_turning l [omega - larmor; - (omega + larmor)] b.
  Proof.
    destruct D as (d & Ed & _ & Gd). exists h, d, (fun p => level omega larmor (state p)). do 3 (split; [assumption|]). intros p q Hp Hq Hne.
    destruct (Gd p q Hp Hq) as [G0 G1]. rewrite G0, G1, both_turning in Hne.
    destruct (turn_energy mass omega larmor (state p) (state q)) as [E|E]; [intros Z; apply Hne; rewrite Z; reflexivity | left; symmetry; exact E | right; left; symmetry; exact E].
  Qed.
  Lemma element_turns i s t : (i < 2)%nat -> match i with O => x_element mass omega s t | _ => y_element mass omega s t end <> RtoC 0 -> T s t <> 0 \/ T t s <> 0.
  Proof.
    intros Hi Hne. destruct (Req_dec (T s t) 0) as [A|A]; [|left; exact A]. right. intros B. apply Hne.
    destruct i; unfold x_element, y_element; rewrite A, B; unfold Cmult, Copp, Ci, RtoC; cbn [fst snd]; f_equal; field.
  Qed.
  Lemma table_connects : connects 2 l [omega - larmor; omega + larmor; - (omega - larmor); - (omega + larmor)] b.
  Proof.
    destruct D as (d & Ed & _ & Gd). exists h, d, (fun p => level omega larmor (state p)). do 3 (split; [assumption|]). intros i p q Hi Hp Hq Hne.
    destruct (Gd p q Hp Hq) as [G0 G1].
    assert (X : T (state p) (state q) <> 0 \/ T (state q) (state p) <> 0).
    { apply (element_turns i _ _ Hi). destruct i as [|[|i]]; [rewrite <- G0 | rewrite <- G1 | lia]; exact Hne. }
    destruct X as [X|X]; apply (turn_energy mass omega larmor) in X; cbn [In]; destruct X as [X|X].
    - left. lra.
    - right. right. right. left. lra.
    - right. right. left. lra.
    - right. left. lra.
  Qed.
  Hypothesis Hn : forall q, (q < l)%nat -> (0 <= fst (state q))%Z.
  Hypothesis Hi : forall q q', (q < l)%nat -> (q' < l)%nat -> state q = state q' -> q = q'.
  Lemma squared_x s t : squared (x_element mass omega s t) = ((T s t + 1 * T t s) / 2) ^ 2.
  Proof. unfold squared, x_element, RtoC. cbn [Re Im fst snd]. field. Qed.
  Lemma squared_y s t : squared (y_element mass omega s t) = ((T s t + -1 * T t s) / 2) ^ 2.
  Proof. unfold squared, y_element, Ci, Cmult, Copp, RtoC. cbn [Re Im fst snd]. field. Qed.
  Lemma table_sums p : (p < l)%nat -> inner l state p ->
    sum_rules 2 l mass (IZR (2 * fst (state p) + Z.abs (snd (state p)) + 1) / (2 * mass * omega)) b p.
  Proof.
    intros Hp I. destruct D as (d & Ed & _ & Gd). exists h, d, (fun p => level omega larmor (state p)). do 3 (split; [assumption|]).
    intros i Hi2. set (c := match i with O => 1 | _ => -1 end).
    assert (Hc : c ^ 2 = 1) by (unfold c; destruct i; ring).
    assert (G : forall q, (q < l)%nat -> squared (get d [i; p; q]) = ((T (state p) (state q) + c * T (state q) (state p)) / 2) ^ 2).
    { intros q Hq. destruct (Gd p q Hp Hq) as [G0 G1]. unfold c. destruct i as [|[|i]]; [rewrite G0; apply squared_x | rewrite G1; apply squared_y | lia]. }
    split.
    - etransitivity; [|exact (energy_sum mass omega larmor Hm Hw l state p Hn Hi Hp I c Hc)]. apply rsum_ext. intros q Hq. rewrite (G q Hq). reflexivity.
    - etransitivity; [etransitivity; [|exact (square_sum mass omega Hm Hw l state p Hn Hi Hp I c Hc)]; apply rsum_ext; intros q Hq; exact (G q Hq)|].
      replace (left_quanta (state p) + right_quanta (state p))%Z with (2 * fst (state p) + Z.abs (snd (state p)))%Z by (unfold left_quanta, right_quanta; lia). rewrite <- plus_IZR. reflexivity.
  Qed.
End Table.

(** ** The constructors *)
Section Oscillator.
  Variables (npm : nat) (spin anti : bool) (l : nat) (L : R) (N : nat) (omega mass : R) (e : setting) (s : fs) (b : basis CC) (t : fs).
  Hypotheses (Hm : 0 < mass) (Hw : 0 < omega) (Hs : sound s) (E : oscillator npm spin anti l L N omega mass e s = (Ok b, t)).
  Let H := oscillator_holds _ _ _ _ _ _ _ _ _ _ _ _ Hs E.
  Lemma oscillator_connects : connects 2 l [omega; - omega] b.
  Proof.
    destruct (oscillator_levels _ _ _ _ _ _ _ _ _ H) as (h & Eh & Lh).
    destruct (table_connects l mass omega 0 shell_state b h (oscillator_dipole _ _ _ _ _ _ _ _ _ _ _ _ Hm Hw Hs E) Eh Lh) as (h' & d & en & A & B & C & G).
    exists h', d, en. do 3 (split; [assumption|]). intros i p q Hi Hp Hq Hne. specialize (G i p q Hi Hp Hq Hne). cbn [In] in *. destruct G as [G|[G|[G|[G|[]]]]]; [left|left|right;left|right;left]; lra.
  Qed.
  Lemma oscillator_inner k p : (2 * p < k * (k + 1))%nat -> ((k + 1) * (k + 2) <= 2 * l)%nat -> inner l shell_state p.
  Proof.
    intros Hp Hl u [Hu Hd]. destruct u as [n m]. cbn [fst] in Hu. destruct (shell_state_surj n m Hu) as (r & Er). exists r. split; [|exact Er].
    destruct (get_indices_ok (Z.of_nat p)) as (k1 & t1 & n1 & m1 & E1 & Hk1 & Ht1 & Hpt1 & Em1 & En1 & Hn1); [lia|]. rewrite shell_state_some in E1. injection E1 as E1.
    destruct (get_indices_ok (Z.of_nat r)) as (k2 & t2 & n2 & m2 & E2 & Hk2 & Ht2 & Hpt2 & Em2 & En2 & Hn2); [lia|]. rewrite shell_state_some in E2. injection E2 as E2.
    rewrite Er in E2. injection E2 as <- <-. rewrite E1 in Hd. unfold left_quanta, right_quanta in Hd. cbn [fst snd] in Hd.
    assert (Hk : (k2 <= k1 + 1)%Z) by lia.
    assert (K1 : (k1 <= Z.of_nat k)%Z). { destruct (Z.le_gt_cases k1 (Z.of_nat k)) as [X|X]; [exact X|]. assert (Y : ((Z.of_nat k + 1) * Z.of_nat k <= k1 * (k1 - 1))%Z) by (apply Z.mul_le_mono_nonneg; lia). apply Nat2Z.inj_lt in Hp. rewrite !Nat2Z.inj_mul, Nat2Z.inj_add in Hp. lia. }
    assert (Y : (k2 * (k2 + 1) <= (Z.of_nat k + 1) * (Z.of_nat k + 2))%Z) by (apply Z.mul_le_mono_nonneg; lia).
    apply Nat2Z.inj_le in Hl. rewrite !Nat2Z.inj_mul, !Nat2Z.inj_add in Hl. lia.
  Qed.
  Lemma oscillator_sums k p : (2 * p < k * (k + 1))%nat -> ((k + 1) * (k + 2) <= 2 * l)%nat ->
    sum_rules 2 l mass (IZR (2 * fst (shell_state p) + Z.abs (snd (shell_state p)) + 1) / (2 * mass * omega)) b p.
  Proof.
    intros Hp Hl. destruct (oscillator_levels _ _ _ _ _ _ _ _ _ H) as (h & Eh & Lh).
    assert (X : (p < l)%nat). { assert (k * (k + 1) <= (k + 1) * (k + 2))%nat by (rewrite (Nat.mul_comm k); apply Nat.mul_le_mono_l; lia). lia. }
    apply (table_sums l mass omega 0 shell_state b h Hm Hw (oscillator_dipole _ _ _ _ _ _ _ _ _ _ _ _ Hm Hw Hs E) Eh Lh).
    - intros q _. apply shell_state_nonneg.
    - intros q q' _ _. apply shell_state_inj.
    - exact X.
    - exact (oscillator_inner k p Hp Hl).
  Qed.
End Oscillator.
Section Field.
  Variables (npm : nat) (spin anti : bool) (l : nat) (L : R) (N : nat) (omega_0 mass omega_c : R) (rows : list (Z * Z)) (b : basis CC).
  Hypotheses (Hm : 0 < mass) (H0 : omega_0 <> 0) (F : field_states l omega_0 omega_c = Ok rows) (E : field_oscillator npm spin anti l L N omega_0 mass omega_c = (Ok tt, b)).
  Let H := field_holds _ _ _ _ _ _ _ _ _ _ _ F E.
  Notation omega := (sqrt (omega_0 ^ 2 + omega_c ^ 2 / 4)).
  Notation state := (fun p => nth p rows (0, 0)%Z).
  Lemma field_connects : connects 2 l [omega - omega_c / 2; omega + omega_c / 2; - (omega - omega_c / 2); - (omega + omega_c / 2)] b.
  Proof.
    destruct (field_levels _ _ _ _ _ _ _ _ _ _ _ _ H) as (h & Eh & Lh).
    exact (table_connects l mass omega (omega_c / 2) state b h (field_dipole _ _ _ _ _ _ _ _ _ _ _ Hm H0 F E) Eh Lh).
  Qed.
  Lemma field_turning : connects_turning l [omega - omega_c / 2; - (omega + omega_c / 2)] b.
  Proof.
    destruct (field_levels _ _ _ _ _ _ _ _ _ _ _ _ H) as (h & Eh & Lh).
    exact (table_turning l mass omega (omega_c / 2) state b h (field_dipole _ _ _ _ _ _ _ _ _ _ _ Hm H0 F E) Eh Lh).
  Qed.
  Lemma neighbour_energy w lam s t : 0 < w -> neighbour s t -> level w lam t <= level w lam s + w + Rabs lam.
  Proof.
    intros Hw [_ Hd]. unfold level. pose proof (Rle_abs lam) as A1. pose proof (Rle_abs (- lam)) as A2. rewrite Rabs_Ropp in A2.
    assert (X : (((left_quanta t - left_quanta s = 1 \/ left_quanta t - left_quanta s = -1) /\ right_quanta t = right_quanta s) \/ ((right_quanta t - right_quanta s = 1 \/ right_quanta t - right_quanta s = -1) /\ left_quanta t = left_quanta s))%Z) by lia.
    destruct X as [[[X|X] Y]|[[X|X] Y]].
    - replace (left_quanta t) with (left_quanta s + 1)%Z by lia. rewrite Y, !minus_IZR, !plus_IZR. lra.
    - replace (left_quanta t) with (left_quanta s - 1)%Z by lia. rewrite Y, !minus_IZR, !plus_IZR, !minus_IZR. lra.
    - replace (right_quanta t) with (right_quanta s + 1)%Z by lia. rewrite Y, !minus_IZR, !plus_IZR. lra.
    - replace (right_quanta t) with (right_quanta s - 1)%Z by lia. rewrite Y, !minus_IZR, !plus_IZR, !minus_IZR. lra.
  Qed.
  Lemma field_inner p r : (r < l)%nat -> level omega (omega_c / 2) (state p) + omega + Rabs (omega_c / 2) < level omega (omega_c / 2) (state r) -> inner l state p.
  Proof.
    intros Hr He t Ht. pose proof (neighbour_energy omega (omega_c / 2) (state p) t (total_frequency _ _ H0) Ht) as Hl.
    destruct (field_lowest l omega_0 omega_c rows H0 F) as [Hlen B]. assert (G : nth_error rows r = Some (state r)) by (apply nth_error_nth'; rewrite <- Hlen in Hr; exact Hr).
    destruct (B r _ G) as [_ W]. destruct (proj1 (W t (proj1 Ht))) as (q & Hq & Eq).
    - left. rewrite <- !level_energy. lra.
    - exists q. split; [lia|]. apply nth_error_nth. exact Eq.
  Qed.
  Lemma field_sums p r : (p < l)%nat -> (r < l)%nat -> level omega (omega_c / 2) (state p) + omega + Rabs (omega_c / 2) < level omega (omega_c / 2) (state r) ->
    sum_rules 2 l mass (IZR (2 * fst (state p) + Z.abs (snd (state p)) + 1) / (2 * mass * omega)) b p.
  Proof.
    intros Hp Hr He. destruct (field_levels _ _ _ _ _ _ _ _ _ _ _ _ H) as (h & Eh & Lh). destruct (field_table l omega_0 omega_c rows H0 F) as (_ & Hn & Hi).
    exact (table_sums l mass omega (omega_c / 2) state b h Hm (total_frequency _ _ H0) (field_dipole _ _ _ _ _ _ _ _ _ _ _ Hm H0 F E) Eh Lh (fun q _ => Hn q) Hi p Hp (field_inner p r Hr He)).
  Qed.
End Field.
(** In one dimension *)
Section Line.
  Variables (npm : nat) (spin anti : bool) (l : nat) (L : R) (N : nat) (omega a alpha beta : R) (b : basis CC).
  Hypotheses (Hw : 0 < omega) (Hb : odho npm spin anti l L N omega a alpha beta = (Ok tt, b)).
  Lemma line_connects : connects 1 l [omega; - omega] b.
  Proof.
    destruct (line_h _ _ _ _ _ _ _ _ _ _ _ Hb) as (h & Eh & _ & Gh). destruct (line_dipole _ _ _ _ _ _ _ _ _ _ _ Hb Hw) as (d & Ed & _ & Gd).
    exists h, d, (fun p => omega * (INR p + 1 / 2)). split; [exact Eh|]. split; [exact Ed|]. split; [intros p q _ _; apply Gh|].
    intros i p q Hi _ _ Hne. replace i with 0%nat in Hne by lia. rewrite Gd in Hne. cbn [In].
    destruct (Nat.eqb_spec (p + 1) q) as [<-|A]; [right; left; rewrite plus_INR; cbn [INR]; ring|].
    destruct (Nat.eqb_spec (q + 1) p) as [<-|B]; [left; rewrite plus_INR; cbn [INR]; ring|]. destruct Hne. reflexivity.
  Qed.
  Lemma line_sums p : (p + 1 < l)%nat -> sum_rules 1 l 1 ((2 * INR p + 1) / (2 * omega)) b p.
  Proof.
    intros Hp. destruct (line_h _ _ _ _ _ _ _ _ _ _ _ Hb) as (h & Eh & _ & Gh). destruct (line_dipole _ _ _ _ _ _ _ _ _ _ _ Hb Hw) as (d & Ed & _ & Gd).
    exists h, d, (fun p => omega * (INR p + 1 / 2)). split; [exact Eh|]. split; [exact Ed|]. split; [intros ? ? _ _; apply Gh|].
    intros i Hi. replace i with 0%nat by lia. clear i Hi.
    assert (Up : squared (get d [0; p; (p + 1)%nat]%nat) = (INR p + 1) / (2 * omega)).
    { rewrite Gd, Nat.eqb_refl. unfold squared, RtoC. cbn [Re Im fst snd]. pose proof (pos_INR p). rewrite pow2_sqrt by (apply Rmult_le_pos; [lra | left; apply Rinv_0_lt_compat; lra]). ring. }
    assert (Zero : forall q, q <> (p + 1)%nat -> (q + 1)%nat <> p -> squared (get d [0; p; q]%nat) = 0).
    { intros q A B. rewrite Gd. destruct (Nat.eqb_spec (p + 1) q); [congruence|]. destruct (Nat.eqb_spec (q + 1) p); [congruence|]. unfold squared, RtoC. cbn [Re Im fst snd]. ring. }
    assert (Down : forall k, p = S k -> squared (get d [0; p; k]%nat) = INR p / (2 * omega)).
    { intros k ->. rewrite Gd. destruct (Nat.eqb_spec (S k + 1) k); [lia|]. destruct (Nat.eqb_spec (k + 1) (S k)); [|lia]. rewrite S_INR. unfold squared, RtoC. cbn [Re Im fst snd].
      pose proof (pos_INR k). rewrite pow2_sqrt by (apply Rmult_le_pos; [lra | left; apply Rinv_0_lt_compat; lra]). ring. }
    assert (Two : forall W : nat -> R, rsum l (fun q => W q * squared (get d [0; p; q]%nat)) = W (p + 1)%nat * ((INR p + 1) / (2 * omega)) + W (p - 1)%nat * (INR p / (2 * omega))).
    { intros W. rewrite (rsum_ext l _ (fun q => (if (q =? p + 1)%nat then W q * squared (get d [0; p; q]%nat) else 0) + (if (q + 1 =? p)%nat then W q * squared (get d [0; p; q]%nat) else 0))).
      - rewrite rsum_add, (rsum_pick l (p + 1) _ Hp) by (intros k _ Hk; destruct (Nat.eqb_spec k (p + 1)); [contradiction|reflexivity]). rewrite Nat.eqb_refl, Up. f_equal.
        destruct p as [|k]; [rewrite rsum_zero by (intros q _; destruct (Nat.eqb_spec (q + 1) 0); [lia|reflexivity]); cbn [INR]; field; lra|].
        rewrite (rsum_pick l k _ ltac:(lia)) by (intros q _ Hq; destruct (Nat.eqb_spec (q + 1) (S k)); [lia|reflexivity]).
        destruct (Nat.eqb_spec (k + 1) (S k)) as [_|A]; [|lia]. rewrite (Down k eq_refl). replace (S k - 1)%nat with k by lia. reflexivity.
      - intros q _. destruct (Nat.eqb_spec q (p + 1)) as [->|A]; [destruct (Nat.eqb_spec (p + 1 + 1) p); [lia|ring]|].
        destruct (Nat.eqb_spec (q + 1) p) as [B|B]; [ring|]. rewrite Zero by assumption. ring. }
    split.
    - rewrite (Two (fun q => omega * (INR q + 1 / 2) - omega * (INR p + 1 / 2))). rewrite plus_INR. cbn [INR].
      destruct p as [|k]; [cbn [INR]; field; lra|]. replace (S k - 1)%nat with k by lia. rewrite S_INR. field. lra.
    - rewrite (rsum_ext l _ (fun q => 1 * squared (get d [0; p; q]%nat))) by (intros; ring). rewrite (Two (fun _ => 1)). field. lra.
  Qed.
End Line.
