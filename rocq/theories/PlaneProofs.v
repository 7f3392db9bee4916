(** The two-dimensional constructors. *)
From Coq Require Import List Arith ZArith Reals Lra Lia Bool.
From Coquelicot Require Import Coquelicot.
From Verif Require Import Scalar ScalarC Py Numpy BasisSet Spec BasisSpec BasisFacts ConvProofs OneDim OneDimSpec OneDimProofs
  TwoDim TwoDimProofs FieldProofs TwoDimExamples Coulomb CoulombSpec CoulombProofs Cache CacheProofs Angular AngularSpec AngularProofs
  Orbitals OrbitalSpec OrbitalProofs MatrixProofs Wells WellProofs TwoDimBasis PlaneSpec.
Import ListNotations.
Open Scope R_scope.

(** ** Entries of a flattened array *)
Lemma nth_blocks {A} (f : nat -> list A) k (H : forall x, length (f x) = k) n s a b d :
  (a < n)%nat -> (b < k)%nat -> nth (a * k + b) (flat_map f (seq s n)) d = nth b (f (s + a)%nat) d.
Proof.
  revert s a. induction n as [|n IH]; intros s a Ha Hb; [lia|]. cbn [seq flat_map]. destruct a as [|a].
  - rewrite app_nth1 by (rewrite H; cbn; lia). rewrite Nat.add_0_r. reflexivity.
  - rewrite app_nth2 by (rewrite H; cbn [Nat.mul]; lia). rewrite H. replace (S a * k + b - k)%nat with (a * k + b)%nat by (cbn [Nat.mul]; lia).
    rewrite IH by lia. f_equal. f_equal. lia.
Qed.
Lemma length_blocks {A} (f : nat -> list A) k (H : forall x, length (f x) = k) n s : length (flat_map f (seq s n)) = (n * k)%nat.
Proof. revert s. induction n as [|n IH]; intros s; [reflexivity|]. cbn [seq flat_map]. rewrite app_length, H, IH. reflexivity. Qed.
Lemma coulomb_entry l p q r s : (p < l)%nat -> (q < l)%nat -> (r < l)%nat -> (s < l)%nat ->
  nth (((p * l + q) * l + r) * l + s) (coulomb_array l) 0 = coulomb_of shell_state p q r s.
Proof.
  intros Hp Hq Hr Hs. unfold coulomb_array.
  set (f3 := fun p q r => map (fun s => coulomb_of shell_state p q r s) (seq 0 l)).
  set (f2 := fun p q => flat_map (f3 p q) (seq 0 l)). set (f1 := fun p => flat_map (f2 p) (seq 0 l)).
  change (nth (((p * l + q) * l + r) * l + s) (flat_map f1 (seq 0 l)) 0 = coulomb_of shell_state p q r s).
  assert (L3 : forall p q r, length (f3 p q r) = l) by (intros; unfold f3; rewrite map_length, seq_length; reflexivity).
  assert (L2 : forall p q, length (f2 p q) = (l * l)%nat) by (intros; apply length_blocks, L3).
  assert (L1 : forall p, length (f1 p) = (l * (l * l))%nat) by (intros; apply length_blocks, L2).
  assert (B3 : (r * l + s < l * l)%nat) by nia. assert (B2 : (q * (l * l) + (r * l + s) < l * (l * l))%nat) by nia.
  replace (((p * l + q) * l + r) * l + s)%nat with (p * (l * (l * l)) + (q * (l * l) + (r * l + s)))%nat by ring.
  rewrite (nth_blocks f1 _ L1) by assumption. cbn [Nat.add]. unfold f1. rewrite (nth_blocks (f2 p) _ (L2 p)) by assumption. cbn [Nat.add]. unfold f2.
  rewrite (nth_blocks (f3 p q) _ (L3 p q)) by assumption. cbn [Nat.add]. unfold f3.
  rewrite (nth_indep _ 0 (coulomb_of shell_state p q r 0)) by (rewrite map_length, seq_length; exact Hs).
  rewrite map_nth, seq_nth by exact Hs. reflexivity.
Qed.

(** ** What the constructors store *)
Record holds (npm : nat) (spin anti : bool) (l N : nat) (L mass w : R) (nm : nat -> Z * Z) (he : nat -> nat -> R) (b : basis CC) : Prop := {
  ho_np : b_np b = Some npm; ho_l : b_l b = l; ho_dim : b_dim b = 2%nat; ho_cls : b_cls b = Base; ho_nuc : b_nuc b = RtoC 0;
  ho_spin : b_spin b = spin; ho_asym : b_asym b = anti;
  ho_h : exists h, b_arr b F_h = Some h /\ shape h = [l; l] /\ forall p q, get h [p; q] = RtoC (he p q);
  ho_s : exists s, b_arr b F_s = Some s /\ shape s = [l; l] /\ forall p q, get s [p; q] = kronecker p q;
  ho_u : exists u, b_arr b F_u = Some u /\ shape u = [l; l; l; l] /\
    forall p q r s, (p < l)%nat -> (q < l)%nat -> (r < l)%nat -> (s < l)%nat -> get u [p; q; r; s] = RtoC (sqrt w * coulomb_of nm p q r s);
  ho_d : exists d, b_arr b F_dip = Some d /\ shape d = [2; l; l]%nat /\ forall i p q, get d [i; p; q] = dipole_element nm mass w i p q;
  ho_spf : exists a, b_arr b F_spf = Some a /\ shape a = [l; N; N] /\
    (forall p i j, get a [p; i; j] = spf_state (qn (nm p)) (qm (nm p)) mass w (linspace0 L N j) (linspace0 (2 * PI) N i)) /\
    (b_arr b F_bra = None \/ exists a', b_arr b F_bra = Some a' /\ shape a' = [l; N; N] /\ forall idx, get a' idx = Cconj (get a idx));
  ho_rest : forall f, ~ In f [F_h; F_s; F_u; F_dip; F_spf; F_bra] -> b_arr b f = None
}.

Lemma holds_module npm spin anti l N L mass w nm he b :
  holds npm spin anti l N L mass w nm he b -> exists b', change_module npm b = (Ok tt, b') /\ holds npm spin anti l N L mass w nm he b'.
Proof.
  intros [A1 A2 A3 A4 A5 A6 A7 H Hs U D (a & E & Sa & G & B) Z].
  assert (E0 : change_module npm b = change_module_base npm b) by (unfold change_module, bind; cbn [get_st]; rewrite A4; reflexivity). rewrite E0.
  destruct (change_module_base_spec CC npm b) as (b' & Eb & (M1&M2&M3&M4&M5&M6&M7) & Ar). exists b'. split; [exact Eb|]. cbn in M1, M2, M3, M4, M5, M6, M7.
  split; try congruence; try (rewrite Ar; cbn [view]; assumption).
  - rewrite Ar. cbn [view]. exists a. do 3 (split; [assumption|]). right. rewrite Ar. cbn [view]. unfold bra_view. rewrite E.
    destruct B as [B|(a' & B & B')]; rewrite B; [|exists a'; auto]. exists (aconj a). auto.
  - intros f Hf. rewrite Ar. destruct f; cbn [view]; try (apply Z, Hf). exfalso. apply Hf. cbn. tauto.
Qed.
Lemma holds_cast npm spin anti l N L mass w nm he b :
  holds npm spin anti l N L mass w nm he b -> exists b', cast_to_complex b = (Ok tt, b') /\ holds npm spin anti l N L mass w nm he b'.
Proof.
  intros [A1 A2 A3 A4 A5 A6 A7 (h & Eh & H) (s & Es & Hs) (u & Eu & U) (d & Ed & D) (a & E & Sa & G & B) Z].
  destruct (cast_to_complex_spec CC b ltac:(congruence)) as (b' & Eb & (M1&M2&M3&M4&M5&M6&M7) & Ar). exists b'. split; [exact Eb|].
  split; try congruence; try (rewrite Ar; cbn [view conv_fields fmem]).
  - exists (astype Complex128 h). rewrite Eh. auto.
  - exists (astype Complex128 s). rewrite Es. auto.
  - exists (astype Complex128 u). rewrite Eu. auto.
  - exists (astype Complex128 d). rewrite Ed. auto.
  - exists (astype Complex128 a). rewrite E. split; [reflexivity|]. do 2 (split; [assumption|]). right. rewrite Ar. cbn. unfold bra_view. rewrite E.
    destruct B as [B|(a' & B & B')]; rewrite B; [|exists (astype Complex128 a'); auto]. exists (astype Complex128 (aconj a)). auto.
  - intros f Hf. rewrite Ar. destruct f; cbn [view conv_fields fmem existsb field_eqb orb]; try (rewrite (Z _ Hf); reflexivity); try (apply Z, Hf);
      exfalso; apply Hf; cbn; tauto.
Qed.

Section Make.
  Variables (npm : nat) (spin anti : bool) (l : nat) (L : R) (N : nat) (omega mass : R).
  Notation b0 := (new_basis CC Base npm l 2 spin anti).
  Definition raw (h u spf d : carr) : basis CC :=
    set_arr F_dip (Some d) (set_arr F_spf (Some spf) (set_arr F_s (Some (eye l)) (set_arr F_u (Some u) (set_arr F_h (Some h) b0)))).
  Definition raw' (h u spf d : carr) : basis CC :=
    set_arr F_dip (Some d) (set_arr F_spf (Some spf) (set_arr F_u (Some u) (set_arr F_s (Some (eye l)) (set_arr F_h (Some h) b0)))).
  Lemma eye_entry p q : @get CC (eye l) [p; q] = kronecker p q.
  Proof. reflexivity. Qed.
  Lemma raw_holds h u w nm he (B : basis CC) :
    B = raw h u (spf_array l L N mass nm w) (dipole_array l mass nm w) \/ B = raw' h u (spf_array l L N mass nm w) (dipole_array l mass nm w) ->
    shape h = [l; l] -> (forall p q, get h [p; q] = RtoC (he p q)) -> shape u = [l; l; l; l] ->
    (forall p q r s, (p < l)%nat -> (q < l)%nat -> (r < l)%nat -> (s < l)%nat -> get u [p; q; r; s] = RtoC (sqrt w * coulomb_of nm p q r s)) ->
    holds npm spin anti l N L mass w nm he B.
  Proof.
    intros [->| ->] Sh Gh Su Gu; (split; try reflexivity;
    [ exists h; auto | exists (eye l); auto | exists u; auto | exists (dipole_array l mass nm w); auto
    | exists (spf_array l L N mass nm w); repeat split; left; reflexivity
    | intros f Hf; destruct f; try reflexivity; exfalso; apply Hf; cbn; tauto ]).
  Qed.
  Lemma scaled_entry (w : R) (u : carr) p q r s (x : R) : get u [p; q; r; s] = RtoC x -> get (scaled w u) [p; q; r; s] = RtoC (sqrt w * x).
  Proof. intros E. unfold scaled. cbn [get]. rewrite E. symmetry. apply RtoC_mult. Qed.
  Lemma array_of_entry p q r s : (p < l)%nat -> (q < l)%nat -> (r < l)%nat -> (s < l)%nat ->
    get (array_of l (coulomb_array l)) [p; q; r; s] = RtoC (coulomb_of shell_state p q r s).
  Proof. intros. unfold array_of, arr4. cbn [get]. rewrite coulomb_entry by assumption. reflexivity. Qed.

  Lemma oscillator_setup_ok : exists b, oscillator_setup l L N omega mass (array_of l (coulomb_array l)) b0 = (Ok tt, b) /\
    holds npm spin anti l N L mass omega shell_state (oscillator_element omega) b.
  Proof.
    set (h := arr2 l l Float64 (fun p q => RtoC (oscillator_element omega p q))). set (u := scaled omega (array_of l (coulomb_array l))).
    assert (H : holds npm spin anti l N L mass omega shell_state (oscillator_element omega)
                  (raw h u (spf_array l L N mass shell_state omega) (dipole_array l mass shell_state omega))).
    { eapply raw_holds; [left; reflexivity|reflexivity|reflexivity|reflexivity|]. intros. apply scaled_entry, array_of_entry; assumption. }
    unfold oscillator_setup. do 5 (erewrite bind_ok; [|reflexivity]). erewrite bind_ok; [|reflexivity].
    fold h u. change (set_arr F_dip _ _) with (raw h u (spf_array l L N mass shell_state omega) (dipole_array l mass shell_state omega)).
    destruct (npm =? numpy)%nat; [eexists; split; [reflexivity | exact H]|]. apply holds_module. exact H.
  Qed.
  Lemma change_h npm' spin' anti' l' N' L' mass' w nm he he' (h : carr) (b : basis CC) :
    holds npm' spin' anti' l' N' L' mass' w nm he b -> shape h = [l'; l'] -> (forall p q, get h [p; q] = RtoC (he' p q)) ->
    holds npm' spin' anti' l' N' L' mass' w nm he' (set_arr F_h (Some h) b).
  Proof.
    intros [A1 A2 A3 A4 A5 A6 A7 H Hs U D (a & E & Sa & G & B) Z] Sh Gh. split; try assumption.
    - exists h. auto.
    - exists a. auto.
    - intros f Hf. cbn. unfold upd. destruct f; cbn [field_eqb]; try (apply Z, Hf). exfalso. apply Hf. cbn. tauto.
  Qed.
  Lemma double_well_setup_ok barrier axis : exists b, double_well_setup l L N omega mass barrier axis (array_of l (coulomb_array l)) b0 = (Ok tt, b) /\
    holds npm spin anti l N L mass omega shell_state (double_well_element omega mass barrier axis) b.
  Proof.
    destruct oscillator_setup_ok as (b & E & H). unfold double_well_setup. erewrite bind_ok; [|exact E]. erewrite bind_ok; [|reflexivity].
    set (h := arr2 _ _ _ _). assert (H' : holds npm spin anti l N L mass omega shell_state (double_well_element omega mass barrier axis) (set_arr F_h (Some h) b))
      by (eapply change_h; [exact H | reflexivity | reflexivity]).
    erewrite bind_ok; [|unfold need_np; rewrite (ho_np _ _ _ _ _ _ _ _ _ _ _ H'); reflexivity]. apply holds_module. exact H'.
  Qed.
  Lemma field_setup_ok omega_c rows : field_states l omega omega_c = Ok rows ->
    exists b, field_oscillator npm spin anti l L N omega mass omega_c = (Ok tt, b) /\
      holds npm spin anti l N L mass (sqrt (omega ^ 2 + omega_c ^ 2 / 4)) (fun p => nth p rows (0, 0)%Z)
        (field_element (fun p => nth p rows (0, 0)%Z) omega omega_c) b.
  Proof.
    intros F. unfold field_oscillator, field_setup. erewrite bind_ok; [|unfold lift; rewrite F; reflexivity]. set (nm := fun p => nth p rows (0, 0)%Z).
    set (w := sqrt (omega ^ 2 + omega_c ^ 2 / 4)). do 5 (erewrite bind_ok; [|reflexivity]).
    set (h := arr2 _ _ _ (fun p q => RtoC (field_element nm omega omega_c p q))). set (u := scaled w _).
    assert (H : holds npm spin anti l N L mass w nm (field_element nm omega omega_c) (raw' h u (spf_array l L N mass nm w) (dipole_array l mass nm w))).
    { eapply raw_holds; [right; reflexivity|reflexivity|reflexivity|reflexivity|]. intros. apply scaled_entry. reflexivity. }
    change (set_arr F_dip _ _) with (raw' h u (spf_array l L N mass nm w) (dipole_array l mass nm w)).
    destruct (holds_cast _ _ _ _ _ _ _ _ _ _ _ H) as (b1 & E1 & H1). erewrite bind_ok; [|exact E1].
    erewrite bind_ok; [|unfold need_np; rewrite (ho_np _ _ _ _ _ _ _ _ _ _ _ H1); reflexivity]. apply holds_module. exact H1.
  Qed.
  Lemma field_setup_err omega_c e : field_states l omega omega_c = Err e -> field_oscillator npm spin anti l L N omega mass omega_c = (Err e, b0).
  Proof. intros F. unfold field_oscillator, field_setup. erewrite bind_err; [reflexivity|]. unfold lift. rewrite F. reflexivity. Qed.

  Lemma oscillator_ok e s : sound s -> cached e = false \/ writable e = true \/ s (dir e) l <> None ->
    exists b s', oscillator npm spin anti l L N omega mass e s = (Ok b, s') /\ sound s' /\
      holds npm spin anti l N L mass omega shell_state (oscillator_element omega) b.
  Proof.
    intros Hs He. destruct (call_sound e l s Hs) as [S1 E1]. specialize (E1 He). unfold oscillator, bind. destruct (get_coulomb_elements e l s) as [r s1]. cbn [fst snd] in *. subst r.
    destruct oscillator_setup_ok as (b & E & H). rewrite E. exists b, s1. repeat split; assumption || apply H.
  Qed.
  Lemma double_well_ok e s barrier axis : sound s -> cached e = false \/ writable e = true \/ s (dir e) l <> None ->
    exists b s', double_well npm spin anti l L N omega mass e barrier axis s = (Ok b, s') /\ sound s' /\
      holds npm spin anti l N L mass omega shell_state (double_well_element omega mass barrier axis) b.
  Proof.
    intros Hs He. destruct (call_sound e l s Hs) as [S1 E1]. specialize (E1 He). unfold double_well, bind. destruct (get_coulomb_elements e l s) as [r s1]. cbn [fst snd] in *. subst r.
    destruct (double_well_setup_ok barrier axis) as (b & E & H). rewrite E. exists b, s1. repeat split; assumption || apply H.
  Qed.
End Make.

(** ** From the stored arrays to the specification *)
Lemma holds_plane npm spin anti l N L mass w nm he b larmor V :
  0 < mass -> 0 < w -> holds npm spin anti l N L mass w nm he b ->
  (forall p, 0 <= fst (nm p))%Z -> (forall p q, (p < l)%nat -> (q < l)%nat -> nm p = nm q -> p = q) ->
  (forall p q, (p < l)%nat -> (q < l)%nat -> he p q = he q p) ->
  (forall p q, (p < l)%nat -> (q < l)%nat -> exists g, hamiltonian mass larmor V (orbital mass w (nm q)) g /\
     plane_integral (fun r t => (Cconj (orbital mass w (nm p) r t) * g r t)%C) (RtoC (he p q))) ->
  plane_basis l N L mass larmor (sqrt w) V nm (fun p => orbital mass w (nm p)) b.
Proof.
  intros Hm Hw H Hn Hi Hsym Hh. pose proof H as [A1 A2 A3 A4 A5 A6 A7 (h & Eh & Sh & Gh) (s & Es & Ss & Gs) (u & Eu & Su & Gu) (d & Ed & Sd & Gd) (a & Ea & Sa & Ga & B) Z].
  split; [exact A3| |].
  - split; [eauto|exact A2|eauto|eauto| | | | | |].
    + intros x E. rewrite Es in E. injection E as <-. exact Ss.
    + intros x E. rewrite Ed in E. injection E as <-. rewrite A3. split; [exact Sd | lia].
    + intros x E. rewrite Ea in E. injection E as <-. rewrite A3. exists [N; N]. auto.
    + intros x E. destruct B as [B|(a' & B & Sa' & _)]; rewrite B in E; [discriminate E|]. injection E as <-. rewrite A3. exists [N; N]. auto.
    + intros f x Hf E. rewrite Z in E; [discriminate E|]. cbn in Hf |- *. intuition congruence.
    + intros x E. rewrite Z in E; [discriminate E|]. cbn. intuition congruence.
  - exists h, s, u, d, a. do 10 (split; [assumption|]). unfold mat, ten.
    split; [intros p q Hp Hq; rewrite Gh; apply Hh; assumption|].
    split; [intros p q Hp Hq; rewrite !Gh; cbn [sconj CC]; rewrite RtoC_conj, (Hsym p q Hp Hq); reflexivity|].
    split.
    { intros p q Hp Hq. split; [apply Gs|]. rewrite Gs. replace (kronecker p q) with (RtoC (overlap_element p q)) by (unfold kronecker, overlap_element; destruct (p =? q)%nat; reflexivity).
      apply (table_overlap mass w Hm Hw nm p q Hn (Hi p q Hp Hq)). }
    split; [intros p q _ _; rewrite !Gd; split; [apply (dipole_x mass w Hm Hw nm p q) | apply (dipole_y mass w Hm Hw nm p q)]|].
    split; [intros i _ p q _ _; rewrite !Gd; apply (dipole_hermitian mass w nm i q p Hm Hw)|].
    split; [intros Gam p q r t HG Hp Hq Hr Ht; cbv zeta; rewrite Gu by assumption; f_equal; f_equal; apply formula; exact HG|].
    split; [intros p q r t Hp Hq Hr Ht; rewrite !Gu by assumption; f_equal; f_equal; symmetry; apply coulomb_exchange|].
    split; [intros p q r t Hp Hq Hr Ht; rewrite !Gu by assumption; cbn [sconj CC]; rewrite RtoC_conj; f_equal; f_equal; symmetry; apply coulomb_transpose|].
    intros p i j _ _ _. rewrite Ga. unfold orbital, linspace0. f_equal; unfold Rdiv; ring.
Qed.

(** Rows of the table: distinct, with n >= 0 *)
Lemma field_table l omega_0 omega_c rows : omega_0 <> 0 -> field_states l omega_0 omega_c = Ok rows ->
  let nm := fun p => nth p rows (0, 0)%Z in
  length rows = l /\ (forall p, 0 <= fst (nm p))%Z /\ (forall p q, (p < l)%nat -> (q < l)%nat -> nm p = nm q -> p = q).
Proof.
  intros H0 HF nm. destruct (field_lowest' l omega_0 omega_c rows H0 HF) as [L B].
  assert (G : forall p, (p < l)%nat -> nth_error rows p = Some (nm p)) by (intros k Hk; apply nth_error_nth'; rewrite L; exact Hk).
  assert (Hn : forall p, (0 <= fst (nm p))%Z).
  { intros k. destruct (Nat.lt_ge_cases k l) as [Hk|Hk]; [exact (proj1 (B k _ (G k Hk)))|]. unfold nm. rewrite nth_overflow by (rewrite L; exact Hk). cbn. lia. }
  assert (Lt : forall p q, (p < l)%nat -> (q < l)%nat -> nm p = nm q -> ~ (q < p)%nat).
  { intros k k' Hk Hk' E H. destruct (B k _ (G k Hk)) as [_ W]. specialize (W (nm k) (Hn k)). cbv zeta in W.
    assert (X : exists q, (q < k)%nat /\ nth_error rows q = Some (nm k)) by (exists k'; split; [exact H | rewrite (G k' Hk'), E; reflexivity]).
    apply W in X. destruct X as [X|[_ X]]; [lra|lia]. }
  repeat split; try assumption. intros p q Hp Hq E. pose proof (Lt p q Hp Hq E). pose proof (Lt q p Hq Hp (eq_sym E)). lia.
Qed.

Definition flags (npm : nat) (spin anti : bool) (b : basis CC) : Prop :=
  b_np b = Some npm /\ b_spin b = spin /\ b_asym b = anti /\ b_nuc b = RtoC 0.
Lemma holds_flags npm spin anti l N L mass w nm he b : holds npm spin anti l N L mass w nm he b -> flags npm spin anti b.
Proof. intros H. split; [apply H|]. split; [apply H|]. split; apply H. Qed.

Lemma plane_oscillator npm spin anti l L N omega mass e s :
  0 < mass -> 0 < omega -> sound s -> cached e = false \/ writable e = true \/ s (dir e) l <> None ->
  exists b s', oscillator npm spin anti l L N omega mass e s = (Ok b, s') /\ sound s' /\ flags npm spin anti b /\
    plane_basis l N L mass 0 (sqrt omega) (fun x y => mass * omega ^ 2 * (x ^ 2 + y ^ 2) / 2) shell_state (fun p => orbital mass omega (shell_state p)) b.
Proof.
  intros Hm Hw Hs He. destruct (oscillator_ok npm spin anti l L N omega mass e s Hs He) as (b & s' & E & S' & H). exists b, s'.
  split; [exact E|]. split; [exact S'|]. split; [eapply holds_flags, H|]. eapply holds_plane; try eassumption.
  - apply shell_state_nonneg.
  - intros p q _ _. apply shell_state_inj.
  - intros p q _ _. unfold oscillator_element. destruct (Nat.eqb_spec p q) as [->|Hn]; [rewrite Nat.eqb_refl; reflexivity|].
    destruct (Nat.eqb_spec q p); [congruence|reflexivity].
  - intros p q _ _. apply (oscillator_right mass omega Hm Hw p q).
Qed.
Lemma plane_double_well npm spin anti l L N omega mass e barrier axis s :
  0 < mass -> 0 < omega -> sound s -> cached e = false \/ writable e = true \/ s (dir e) l <> None ->
  exists b s', double_well npm spin anti l L N omega mass e barrier axis s = (Ok b, s') /\ sound s' /\ flags npm spin anti b /\
    plane_basis l N L mass 0 (sqrt omega)
      (fun x y => mass * omega ^ 2 * (x ^ 2 + y ^ 2) / 2 + omega ^ 2 / 2 * (barrier ^ 2 / 4 - barrier * Rabs (if (axis =? 0)%Z then x else y)))
      shell_state (fun p => orbital mass omega (shell_state p)) b.
Proof.
  intros Hm Hw Hs He. destruct (double_well_ok npm spin anti l L N omega mass e s barrier axis Hs He) as (b & s' & E & S' & H). exists b, s'.
  split; [exact E|]. split; [exact S'|]. split; [eapply holds_flags, H|]. eapply holds_plane; try eassumption.
  - apply shell_state_nonneg.
  - intros p q _ _. apply shell_state_inj.
  - intros p q _ _. apply double_well_sym; assumption.
  - intros p q _ _. apply (double_well_right mass omega Hm Hw barrier axis p q).
Qed.
Lemma plane_field npm spin anti l L N omega_0 mass omega_c rows :
  0 < mass -> omega_0 <> 0 -> field_states l omega_0 omega_c = Ok rows ->
  let omega := sqrt (omega_0 ^ 2 + omega_c ^ 2 / 4) in let nm p := nth p rows (0, 0)%Z in
  exists b, field_oscillator npm spin anti l L N omega_0 mass omega_c = (Ok tt, b) /\ flags npm spin anti b /\
    plane_basis l N L mass (omega_c / 2) (sqrt omega) (fun x y => mass * omega ^ 2 * (x ^ 2 + y ^ 2) / 2) nm (fun p => orbital mass omega (nm p)) b.
Proof.
  intros Hm H0 HF omega nm. destruct (field_setup_ok npm spin anti l L N omega_0 mass omega_c rows HF) as (b & E & H). exists b. split; [exact E|].
  split; [eapply holds_flags, H|]. destruct (field_table l omega_0 omega_c rows H0 HF) as (_ & Hn & Hi).
  assert (Hw : 0 < omega). { apply sqrt_lt_R0. pose proof (pow2_ge_0 omega_c). assert (0 < omega_0 ^ 2) by (apply pow2_gt_0; exact H0). lra. }
  eapply holds_plane; try eassumption.
  - intros p q _ _. unfold field_element. destruct (Nat.eqb_spec p q) as [->|Hne]; [rewrite Nat.eqb_refl; reflexivity|].
    destruct (Nat.eqb_spec q p); [congruence|reflexivity].
  - intros p q Hp Hq. apply (proj2 (field_rows_right mass l omega_0 omega_c rows p q Hm H0 HF Hp Hq)).
Qed.
Lemma field_raises npm spin anti l L N omega_0 mass omega_c e :
  fst (field_oscillator npm spin anti l L N omega_0 mass omega_c) = Err e <-> field_states l omega_0 omega_c = Err e.
Proof.
  destruct (field_states l omega_0 omega_c) as [rows|e'] eqn:F.
  - destruct (field_setup_ok npm spin anti l L N omega_0 mass omega_c rows F) as (b & -> & _). split; discriminate.
  - rewrite (field_setup_err npm spin anti l L N omega_0 mass omega_c e' F). cbn. split; congruence.
Qed.

(** ** Objects with the same content *)
Lemma valid2 n m idx : valid [n; m] idx -> exists p q, idx = [p; q] /\ (p < n)%nat /\ (q < m)%nat.
Proof. intros H. inversion H as [|? ? ? ? A B]; subst. inversion B as [|? ? ? ? A' B']; subst. inversion B'; subst. eauto. Qed.
Lemma valid3 n m k idx : valid [n; m; k] idx -> exists p q r, idx = [p; q; r] /\ (p < n)%nat /\ (q < m)%nat /\ (r < k)%nat.
Proof. intros H. inversion H as [|? ? ? ? A B]; subst. apply valid2 in B. destruct B as (q & r & -> & ?). eauto 7. Qed.
Lemma valid4 n m k j idx : valid [n; m; k; j] idx -> exists p q r s, idx = [p; q; r; s] /\ (p < n)%nat /\ (q < m)%nat /\ (r < k)%nat /\ (s < j)%nat.
Proof. intros H. inversion H as [|? ? ? ? A B]; subst. apply valid3 in B. destruct B as (q & r & s & -> & ?). eauto 9. Qed.
Lemma holds_same npm spin anti l N L mass w nm he nm' he' b b' :
  holds npm spin anti l N L mass w nm he b -> holds npm spin anti l N L mass w nm' he' b' ->
  (forall p, (p < l)%nat -> nm p = nm' p) -> (forall p q, (p < l)%nat -> (q < l)%nat -> he p q = he' p q) -> same_values b b'.
Proof.
  intros [A1 A2 A3 A4 A5 A6 A7 (h & Eh & Sh & Gh) (s & Es & Ss & Gs) (u & Eu & Su & Gu) (d & Ed & Sd & Gd) (a & Ea & Sa & Ga & B) Z]
         [A1' A2' A3' A4' A5' A6' A7' (h' & Eh' & Sh' & Gh') (s' & Es' & Ss' & Gs') (u' & Eu' & Su' & Gu') (d' & Ed' & Sd' & Gd') (a' & Ea' & Sa' & Ga' & B') Z'] Hnm Hhe.
  assert (Q : forall p i j, (p < l)%nat -> get a [p; i; j] = get a' [p; i; j]) by (intros p i j Hp; rewrite Ga, Ga', (Hnm p Hp); reflexivity).
  split; try congruence.
  - intros f Hf.
    destruct f; try (rewrite Z, Z' by (cbn; intuition congruence); exact I).
    + rewrite Eh, Eh'. split; [congruence|]. rewrite Sh. intros idx H. apply valid2 in H. destruct H as (p & q & -> & Hp & Hq). rewrite Gh, Gh', Hhe by assumption. reflexivity.
    + rewrite Eu, Eu'. split; [congruence|]. rewrite Su. intros idx H. apply valid4 in H. destruct H as (p & q & r & t & -> & Hp & Hq & Hr & Ht). rewrite Gu, Gu' by assumption.
      unfold coulomb_of. rewrite !Hnm by assumption. reflexivity.
    + rewrite Es, Es'. split; [congruence|]. rewrite Ss. intros idx H. apply valid2 in H. destruct H as (p & q & -> & Hp & Hq). rewrite Gs, Gs'. reflexivity.
    + rewrite Ed, Ed'. split; [congruence|]. rewrite Sd. intros idx H. apply valid3 in H. destruct H as (i & p & q & -> & Hi & Hp & Hq). rewrite Gd, Gd'.
      unfold dipole_element. rewrite !Hnm by assumption. reflexivity.
    + rewrite Ea, Ea'. split; [congruence|]. rewrite Sa. intros idx H. apply valid3 in H. destruct H as (p & i & j & -> & Hp & _). apply Q, Hp.
  - assert (V : exists x, bra_view b = Some x /\ shape x = [l; N; N] /\ forall idx, get x idx = Cconj (get a idx)).
    { unfold bra_view. rewrite Ea. destruct B as [B|B]; [rewrite B; exists (aconj a); auto | destruct B as (x & B & B1); rewrite B; eauto]. }
    assert (V' : exists x, bra_view b' = Some x /\ shape x = [l; N; N] /\ forall idx, get x idx = Cconj (get a' idx)).
    { unfold bra_view. rewrite Ea'. destruct B' as [B'|B']; [rewrite B'; exists (aconj a'); auto | destruct B' as (x & B' & B1); rewrite B'; eauto]. }
    destruct V as (x & -> & Sx & Gx), V' as (x' & -> & Sx' & Gx'). split; [congruence|]. rewrite Sx. intros idx H. apply valid3 in H. destruct H as (p & i & j & -> & Hp & _).
    rewrite Gx, Gx', Q by exact Hp. reflexivity.
Qed.

Lemma no_barrier npm spin anti l L N omega mass e e' axis s s' b b' t t' :
  sound s -> sound s' -> oscillator npm spin anti l L N omega mass e s = (Ok b, t) -> double_well npm spin anti l L N omega mass e' 0 axis s' = (Ok b', t') ->
  same_values b' b.
Proof.
  intros Hs Hs' E E'.
  assert (C1 : cached e = false \/ writable e = true \/ s (dir e) l <> None).
  { destruct (cached e) eqn:Ec; [|auto]. destruct (writable e) eqn:Ew; [auto|]. right. right. intros F. unfold oscillator, bind in E. rewrite (readonly e l s Ec Ew F) in E. discriminate E. }
  assert (C2 : cached e' = false \/ writable e' = true \/ s' (dir e') l <> None).
  { destruct (cached e') eqn:Ec; [|auto]. destruct (writable e') eqn:Ew; [auto|]. right. right. intros F. unfold double_well, bind in E'. rewrite (readonly e' l s' Ec Ew F) in E'. discriminate E'. }
  destruct (oscillator_ok npm spin anti l L N omega mass e s Hs C1) as (b1 & s1 & E1 & _ & H1). rewrite E in E1. injection E1 as <- <-.
  destruct (double_well_ok npm spin anti l L N omega mass e' s' 0 axis Hs' C2) as (b2 & s2 & E2 & _ & H2). rewrite E' in E2. injection E2 as <- <-.
  eapply holds_same; [exact H2 | exact H1 | reflexivity |]. intros p q _ _. apply double_well_zero.
Qed.
Lemma no_field npm spin anti l L N omega mass e s b b' t :
  0 < omega -> sound s -> oscillator npm spin anti l L N omega mass e s = (Ok b, t) -> field_oscillator npm spin anti l L N omega mass 0 = (Ok tt, b') ->
  same_values b' b.
Proof.
  intros Hw Hs E E'.
  assert (C1 : cached e = false \/ writable e = true \/ s (dir e) l <> None).
  { destruct (cached e) eqn:Ec; [|auto]. destruct (writable e) eqn:Ew; [auto|]. right. right. intros F. unfold oscillator, bind in E. rewrite (readonly e l s Ec Ew F) in E. discriminate E. }
  destruct (oscillator_ok npm spin anti l L N omega mass e s Hs C1) as (b1 & s1 & E1 & _ & H1). rewrite E in E1. injection E1 as <- <-.
  destruct (field_states l omega 0) as [rows|err] eqn:F; [|rewrite (field_setup_err _ _ _ _ _ _ _ _ _ _ F) in E'; discriminate E'].
  destruct (field_setup_ok npm spin anti l L N omega mass 0 rows F) as (b2 & E2 & H2). rewrite E' in E2. injection E2 as <-.
  assert (W : sqrt (omega ^ 2 + 0 ^ 2 / 4) = omega). { replace (omega ^ 2 + 0 ^ 2 / 4) with (omega * omega) by field. apply sqrt_square. lra. }
  rewrite W in H2.
  assert (Nm : forall p, (p < l)%nat -> nth p rows (0, 0)%Z = shell_state p).
  { intros p Hp. assert (X := field_free l omega rows p ltac:(lra) F Hp). rewrite shell_state_some in X. apply nth_error_nth. exact X. }
  eapply holds_same; [exact H2 | exact H1 | exact Nm |]. intros p q Hp Hq. unfold field_element, oscillator_element. rewrite W.
  destruct (p =? q)%nat; [|ring]. rewrite Nm by exact Hp. unfold shell_energy_B, get_shell_energy. field.
Qed.
