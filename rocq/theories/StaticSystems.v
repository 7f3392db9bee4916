(** Static fields on the quantum dots of the library. *)
From Coq Require Import List Arith ZArith Znumtheory Reals Lra Lia Bool.
From Coquelicot Require Import Coquelicot.
From Verif Require Import Scalar ScalarC Py Numpy BasisSet Spec OneDimSpec OneDim LineProofs DotProofs ParitySpec ParityTheorems SpectralProofs TwoDim TwoDimProofs MatrixProofs Cache CacheProofs TwoDimBasis PlaneProofs DipoleTheorems FieldProofs SincDvr SincProofs ParityProofs StrengthSystems Systems SystemFacts SystemProofs Worlds OperatorSpec OperatorProofs.
From Verif Require Import KineticSpec FockSpec FockProofs InnerSpec InnerProofs RaiseSpec RaiseProofs RaiseFock RaiseTheorems FockSpectrumSpec FockSpectrum VariationalSpec VariationalTheorems VariationalSystems StrengthProofs SharpSpec SharpProofs SharpTheorems SharpSystems EvolutionSpec EvolutionTheorems GroundTheorems StaticSpec StaticProofs.
Import ListNotations.
Open Scope R_scope.
Local Notation S_ := (sumn (K := CC)).
Local Notation state := (FockSpec.state CC).
Local Notation inner := (InnerSpec.inner (K := CC)).

Lemma reverses_of l t (d : nat -> nat -> C) : (forall p q, (p < l)%nat -> (q < l)%nat -> alike t (charge t p) (charge t q) -> d p q = RtoC 0) -> reverses l t d.
Proof. intros H p q Hp Hq N A. apply N, H; assumption. Qed.
Lemma along_hermitian l axes (d : arr CC) v : (forall i, (i < axes)%nat -> hermitian (K := CC) l (fun p q => get d [i; p; q])) -> hermitian (K := CC) l (along axes d v).
Proof.
  intros H p q Hp Hq. unfold along. etransitivity; [|symmetry; apply csum_conj]. apply csum_ext. intros i Hi. rewrite (H i Hi p q Hp Hq). apply injective_projections; cbn; ring.
Qed.
Lemma along_reverses l axes t (d : arr CC) v : (forall i, (i < axes)%nat -> reverses l t (fun p q => get d [i; p; q])) -> reverses l t (along axes d v).
Proof.
  intros H. apply reverses_of. intros p q Hp Hq A. unfold along. apply csum_zero. intros i Hi.
  destruct (Classical_Prop.classic (get d [i; p; q] = RtoC 0)) as [E|N]; [rewrite E; apply Cmult_0_r|]. exfalso. exact (H i Hi p q Hp Hq N A).
Qed.
Lemma field_symmetric_of l axes (b : basis CC) t d : modulus t = 2%Z -> conserved l b [t] -> b_arr b F_dip = Some d -> shape d = [axes; l; l] ->
  (forall i, (i < axes)%nat -> hermitian (K := CC) l (fun p q => get d [i; p; q])) -> (forall i, (i < axes)%nat -> reverses l t (fun p q => get d [i; p; q])) -> field_symmetric l axes b.
Proof.
  intros H2 (h & u & Eh & Eu & Hh & Hu & Kt) Ed Sd Hd Rd. exists h, u, d. do 4 (split; [assumption|]). intros k v m X n. destruct (Kt t (or_introl eq_refl)) as [Kh Ku].
  pose proof (along_hermitian l axes d v Hd) as Hv. pose proof (along_reverses l axes t d v Rd) as Rv. split.
  - intros F. destruct (spectrum_many k l _ (ten u) m (field_hermitian l (mat h) (along axes d v) F Hh Hv) Hu) as (E & Psi & Sp). exists E, Psi.
    destruct (spectrum_reversed k l (mat h) (along axes d v) (ten u) t H2 Hh Hu Hv Kh Ku Rv F m _ E Psi Sp) as (Psi' & Sp'). exists Psi'. split; assumption.
  - intros F F' E Psi E' Psi' Hm HF S1 S2. exact (ground_lowered k l (mat h) (along axes d v) (ten u) t H2 Hh Hu Hv Kh Ku Rv F F' m _ _ E E' Psi Psi' Hm HF S1 S2).
Qed.
Lemma parity_alike p q : Nat.odd (p + q) = true -> ~ alike (Label Z.of_nat 2) (Z.of_nat p) (Z.of_nat q).
Proof.
  intros O [c E]. cbn in E. apply Nat.odd_spec in O. destruct O as [z O]. lia.
Qed.
Lemma line_field npm spin anti l L N omega a alpha beta b : 0 < omega -> odho npm spin anti l L N omega a alpha beta = (Ok tt, b) -> field_symmetric l 1 b.
Proof.
  intros Hw E. destruct (line_dipole _ _ _ _ _ _ _ _ _ _ _ E Hw) as (d & Ed & Sd & Gd). refine (field_symmetric_of l 1 b (Label Z.of_nat 2) d eq_refl (line_conserved _ _ _ _ _ _ _ _ _ _ _ E) Ed Sd _ _).
  - intros i Hi p q _ _. replace i with 0%nat by lia. rewrite !Gd. apply injective_projections; cbn; [|ring].
    destruct (Nat.eqb_spec (p + 1) q), (Nat.eqb_spec (q + 1) p); try reflexivity; lia.
  - intros i Hi. replace i with 0%nat by lia. intros p q _ _ Nz. rewrite Gd in Nz. apply parity_alike.
    apply Nat.odd_spec. destruct (Nat.eqb_spec (p + 1) q) as [E1|N1]; [exists p; lia|]. destruct (Nat.eqb_spec (q + 1) p) as [E2|N2]; [exists q; lia|]. exfalso. apply Nz. reflexivity.
Qed.
Lemma dot_field npm spin anti l L N a alpha V eigh b : odqd npm spin anti l L N a alpha 0 V eigh = (Ok tt, b) -> 0 < L -> solves L N V eigh ->
  (forall x, - L <= x <= L -> V (- x) = V x) -> field_symmetric l 1 b.
Proof.
  intros E HL HE HV. destruct (dot_dipole_rule _ _ _ _ _ _ _ _ _ _ _ _ E HL HE HV) as (spf & d & _ & Ed & Gd). destruct (dot_dipole _ _ _ _ _ _ _ _ _ _ _ _ E) as (_ & d' & _ & Ed' & Sd & _ & Hd).
  rewrite Ed in Ed'. injection Ed' as <-.
  refine (field_symmetric_of l 1 b (Label Z.of_nat 2) d eq_refl (dot_conserved _ _ _ _ _ _ _ _ _ _ _ _ E HL HE HV) Ed Sd _ _).
  - intros i Hi. replace i with 0%nat by lia. exact Hd.
  - intros i Hi. replace i with 0%nat by lia. intros p q Hp Hq Nz. apply parity_alike. rewrite (Gd p q Hp Hq) in Nz. destruct (Nat.odd (p + q)); [reflexivity|]. exfalso. apply Nz. apply Cmult_0_l.
Qed.
Lemma coarser l (b : basis CC) g : conserved l b [Label g 0] -> conserved l b [Label g 2].
Proof.
  intros (h & u & Eh & Eu & Hh & Hu & Kt). exists h, u. do 4 (split; [assumption|]). intros t [<- | []]. destruct (Kt (Label g 0) (or_introl eq_refl)) as [K1 K2].
  assert (G : forall a c, alike (Label g 0) a c -> alike (Label g 2) a c) by (intros a c [z Ez]; cbn in Ez; exists 0%Z; cbn; lia).
  split; [intros p q Hp Hq N; apply G, K1; assumption | intros p q r s Hp Hq Hr Hs N; apply G, K2; assumption].
Qed.
Lemma plane_field npm spin anti l N L mass w nm he b : 0 < mass -> 0 < w -> holds npm spin anti l N L mass w nm he b -> conserved l b [Label (fun p => snd (nm p)) 2] -> field_symmetric l 2 b.
Proof.
  intros Hm Hw H Cs. destruct (ho_d _ _ _ _ _ _ _ _ _ _ _ H) as (d & Ed & Sd & Gd). refine (field_symmetric_of l 2 b (Label (fun p => snd (nm p)) 2) d eq_refl Cs Ed Sd _ _).
  - intros i _ p q _ _. rewrite !Gd. apply (dipole_hermitian mass w nm i q p Hm Hw).
  - intros i _ p q _ _ Nz. rewrite Gd in Nz. pose proof (dipole_selection mass w nm i p q Nz) as D. intros [z Ez]. cbn [charge modulus] in Ez. lia.
Qed.
Lemma oscillator_field npm spin anti l L N omega mass e (files : fs) b t : 0 < mass -> 0 < omega -> sound files -> oscillator npm spin anti l L N omega mass e files = (Ok b, t) -> field_symmetric l 2 b.
Proof. intros Hm Hw F E. eapply plane_field; [exact Hm | exact Hw | eapply oscillator_holds; eassumption | eapply coarser, oscillator_conserved; eassumption]. Qed.
Lemma double_well_field npm spin anti l L N omega mass e barrier axis (files : fs) b t : 0 < mass -> 0 < omega -> sound files -> double_well npm spin anti l L N omega mass e barrier axis files = (Ok b, t) -> field_symmetric l 2 b.
Proof. intros Hm Hw F E. eapply plane_field; [exact Hm | exact Hw | eapply double_well_holds; eassumption | exact (double_well_conserved _ _ _ _ _ _ _ _ _ _ _ _ _ _ Hm Hw F E)]. Qed.
Lemma field_field npm spin anti l L N omega_0 mass omega_c rows b : 0 < mass -> omega_0 <> 0 -> field_states l omega_0 omega_c = Ok rows -> field_oscillator npm spin anti l L N omega_0 mass omega_c = (Ok tt, b) -> field_symmetric l 2 b.
Proof. intros Hm H0 Fs E. eapply plane_field; [exact Hm | apply (total_frequency omega_0 omega_c H0) | eapply field_holds; eassumption | eapply (coarser l b (fun p => snd (nth p rows (0, 0)%Z))), field_conserved; eassumption]. Qed.

(** ** Time-dependent fields *)
Section Laser.
  Variables (w : world CC) (s l : nat) (x : system) (h u : arr CC) (d : option (arr CC)) (M : meaning CC).
  Hypothesis (Ev : evolving w s l x h u d M) (Hh : hermitian l (mat h)) (Hu : hermitian2 l (ten u)) (Hd : hermitian_drive l d M).
  Lemma at_time k y : two_body_factor (K := CC) M (RtoC y) = RtoC 1 -> forall F, F = 1 -> forall f o,
    many_body k l (h_at s w y) (u_at s w y) f o = many_body k l (in_field (mat h) (one_body_term (K := CC) M d (RtoC y)) F) (ten u) f o.
  Proof.
    intros Tf F -> f o. apply many_coeff.
    - intros p q Hp Hq. rewrite (h_at_eq w s l x h u d M Ev y p q Hp Hq). unfold in_field. rewrite Cmult_1_l. reflexivity.
    - intros p q r z Hp Hq Hr Hz. rewrite (u_at_eq w s l x h u d M Ev y p q r z Hp Hq Hr Hz), Tf. apply Cmult_1_l.
  Qed.
End Laser.
Lemma laser_levels (w : world CC) s k l x (h u : arr CC) d M t : evolving w s l x h u d M -> sy_kind x = k -> hermitian l (mat h) -> hermitian2 l (ten u) -> hermitian_drive l d M ->
  modulus t = 2%Z -> keeps1 l t (mat h) -> keeps2 l t (ten u) -> (forall y, reverses l t (one_body_term (K := CC) M d (RtoC y))) -> (forall y, two_body_factor (K := CC) M (RtoC y) = RtoC 1) ->
  forall ops, List.Forall reads ops -> let w' := wrun_any ops w in let n := spin_orbitals k l in let H y := many_body k l (h_at s w' y) (u_at s w' y) in
  forall m, (forall y e Psi E0 Psi0, (m <= n)%nat -> spectrum n (H y) m (choose n m) e Psi -> spectrum n (many_body k l (mat h) (ten u)) m (choose n m) E0 Psi0 -> e O <= E0 O) /\
    (forall y z e Psi, (forall p q, (p < l)%nat -> (q < l)%nat -> one_body_term (K := CC) M d (RtoC z) p q = (- one_body_term (K := CC) M d (RtoC y) p q)%C) ->
      spectrum n (H y) m (choose n m) e Psi -> exists Psi', spectrum n (H z) m (choose n m) e Psi').
Proof.
  intros Ev0 _ Hh Hu Hd H2 Kh Ku Rd Tf ops Hr w' n H m. pose proof (evolving_reads CC ops w s l x h u d M Hr Ev0) as Ev. fold w' in Ev.
  assert (Hy : forall y, hermitian (K := CC) l (one_body_term (K := CC) M d (RtoC y))) by (intros y; apply Hd). split.
  - intros y e Psi E0 Psi0 Hm S1 S0.
    assert (S2 : spectrum n (many_body k l (in_field (mat h) (one_body_term (K := CC) M d (RtoC y)) 1) (ten u)) m (choose n m) e Psi) by (refine (spectrum_ext _ _ _ _ _ _ _ _ S1); intros f _ o; exact (at_time w' s l x h u d M Ev k y (Tf y) 1 eq_refl f o)).
    assert (S3 : spectrum n (many_body k l (in_field (mat h) (one_body_term (K := CC) M d (RtoC y)) 0) (ten u)) m (choose n m) E0 Psi0).
    { refine (spectrum_ext _ _ _ _ _ _ _ _ S0). intros f _ o. apply many_coeff; [|reflexivity]. intros p q _ _. unfold in_field. apply injective_projections; cbn; ring. }
    refine (ground_lowered k l (mat h) _ (ten u) t H2 Hh Hu (Hy y) Kh Ku (Rd y) 0 1 m _ _ E0 e Psi0 Psi Hm _ S3 S2). rewrite Rabs_R0, Rabs_R1. lra.
  - intros y z e Psi Op S1.
    assert (S2 : spectrum n (many_body k l (in_field (mat h) (one_body_term (K := CC) M d (RtoC y)) 1) (ten u)) m (choose n m) e Psi) by (refine (spectrum_ext _ _ _ _ _ _ _ _ S1); intros f _ o; exact (at_time w' s l x h u d M Ev k y (Tf y) 1 eq_refl f o)).
    destruct (spectrum_reversed k l (mat h) _ (ten u) t H2 Hh Hu (Hy y) Kh Ku (Rd y) 1 m _ e Psi S2) as (Psi' & S3). exists Psi'. refine (spectrum_ext _ _ _ _ _ _ _ _ S3). intros f _ o.
    unfold H. rewrite (at_time w' s l x h u d M Ev k z (Tf z) 1 eq_refl f o). apply many_coeff; [|reflexivity]. intros p q Hp Hq. unfold in_field. rewrite (Op p q Hp Hq). apply injective_projections; cbn; ring.
Qed.
(** The state of a simple level has no dipole moment. *)
Lemma simple_moment k l h u D t : hermitian (K := CC) l h -> hermitian2 (K := CC) l u -> modulus t = 2%Z -> keeps1 l t h -> keeps2 l t u -> reverses l t D ->
  forall m d E Psi p, let n := spin_orbitals k l in spectrum n (many_body k l h u) m d E Psi -> (p < d)%nat -> (forall q, (q < d)%nat -> q <> p -> E q <> E p) ->
  inner n (Psi p) (observable k l D (Psi p)) = RtoC 0.
Proof.
  intros Hh Hu H2 Kh Ku Rd m d E Psi p n Sp Hp Sm.
  assert (Kt : kept l h u [t]) by (intros t' [<- | []]; split; assumption).
  destruct (sp_state _ _ _ _ _ _ Sp p Hp) as (P1 & P2). pose proof (proj1 (proj2 (many_sharp k l h u [t] Hh Hu Kt m)) d E Psi p (Psi p) (RtoC (E p)) Sp Hp Sm P1 P2 eq_refl) as Sh.
  apply (no_moment k l t D (Psi p) H2 Rd); [apply P1|]. apply Sh. destruct k; cbn; auto.
Qed.
(** ** Levels follow the field *)
Lemma expectation_scal l a (h : nat -> nat -> C) x : expectation l (fun p q => (RtoC a * h p q)%C) x = (RtoC a * expectation l h x)%C.
Proof.
  unfold expectation. etransitivity; [|symmetry; apply csum_scal]. apply csum_ext. intros i _. etransitivity; [|symmetry; apply csum_scal]. apply csum_ext. intros j _. apply injective_projections; cbn; ring.
Qed.
Lemma raising_zero l : raising l (fun _ _ _ _ => RtoC 0).
Proof.
  intros c. assert (E : pair_energy l (fun _ _ _ _ => RtoC 0) c = RtoC 0); [|rewrite E; split; cbn; lra].
  unfold pair_energy. apply csum_zero; intros p _. apply csum_zero; intros q _. apply csum_zero; intros r _. apply csum_zero; intros z _. apply injective_projections; cbn; ring.
Qed.
Lemma field_step l h d u c F F' : hermitian (K := CC) l h -> hermitian2 (K := CC) l u -> hermitian (K := CC) l d -> form_between l d (- c) c -> F <= F' ->
  forall m d1 d2 E E' Psi Psi', spectrum (2 * l) (many_body Spatial l (in_field h d F) u) m d1 E Psi -> spectrum (2 * l) (many_body Spatial l (in_field h d F') u) m d2 E' Psi' ->
  d1 = d2 /\ forall p, (p < d1)%nat -> Rabs (E' p - E p) <= INR m * c * (F' - F).
Proof.
  intros Hh Hu Hd B HF m d1 d2 E E' Psi Psi' S1 S2. pose proof (field_hermitian l h d F Hh Hd) as A1. pose proof (field_hermitian l h d F' Hh Hd) as A2.
  assert (Z : raising l (fun p q r s => (u p q r s - u p q r s)%C)).
  { apply (raising_ext l (fun _ _ _ _ => RtoC 0)); [|apply raising_zero]. intros. apply injective_projections; cbn; ring. }
  destruct (levels_difference l _ u _ u (- c * (F' - F)) A1 Hu A2 Hu) with (m := m) (d := d1) (d' := d2) (E := E) (E' := E') (Psi := Psi) (Psi' := Psi') as [Ed L1]; try assumption.
  { apply (least_ext l (fun p q => (RtoC (F' - F) * d p q)%C)); [intros; unfold in_field; apply injective_projections; cbn; ring|]. intros x. rewrite expectation_scal. destruct (B x) as [B1 B2].
    revert B1 B2. generalize (expectation l d x), (sqnorm l x). intros [z1 z2] y. cbn. intros -> B2. split; [ring | nra]. }
  destruct (levels_difference l _ u _ u (- c * (F' - F)) A2 Hu A1 Hu) with (m := m) (d := d2) (d' := d1) (E := E') (E' := E) (Psi := Psi') (Psi' := Psi) as [_ L2]; try assumption.
  { apply (least_ext l (fun p q => (RtoC (F - F') * d p q)%C)); [intros; unfold in_field; apply injective_projections; cbn; ring|]. intros x. rewrite expectation_scal. destruct (B x) as [B1 B2].
    revert B1 B2. generalize (expectation l d x), (sqnorm l x). intros [z1 z2] y. cbn. intros -> B2. split; [ring | nra]. }
  split; [exact Ed|]. intros p Hp. pose proof (L1 p Hp). pose proof (L2 p ltac:(lia)). apply Rabs_le. split; nra.
Qed.
Lemma levels_follow l h d u c : hermitian (K := CC) l h -> hermitian2 (K := CC) l u -> hermitian (K := CC) l d -> form_between l d (- c) c ->
  forall F F' m d1 d2 E E' Psi Psi', spectrum (2 * l) (many_body Spatial l (in_field h d F) u) m d1 E Psi -> spectrum (2 * l) (many_body Spatial l (in_field h d F') u) m d2 E' Psi' ->
  d1 = d2 /\ forall p, (p < d1)%nat -> Rabs (E' p - E p) <= INR m * c * Rabs (F' - F).
Proof.
  intros Hh Hu Hd B F F' m d1 d2 E E' Psi Psi' S1 S2. destruct (Rle_or_lt F F') as [L|L].
  - rewrite (Rabs_pos_eq (F' - F)) by lra. exact (field_step l h d u c F F' Hh Hu Hd B L m d1 d2 E E' Psi Psi' S1 S2).
  - destruct (field_step l h d u c F' F Hh Hu Hd B ltac:(lra) m d2 d1 E' E Psi' Psi S2 S1) as [Ed G]. split; [congruence|]. intros p Hp.
    rewrite (Rabs_minus_sym (E' p)), (Rabs_minus_sym F'), (Rabs_pos_eq (F - F')) by lra. apply G. lia.
Qed.
(** ** The sinc-DVR basis set: the reflection exchanges the grid points *)
Section Dvr.
  Variables (l : nat) (L a alpha : R) (V : R -> R).
  Hypothesis (Hl : (2 <= l)%nat) (HV : forall i, (i < l)%nat -> V (- linspace L l i) = V (linspace L l i)).
  Lemma mirror_twice p : (p < l)%nat -> (l - 1 - p < l)%nat /\ (l - 1 - (l - 1 - p) = p)%nat.
  Proof. lia. Qed.
  Lemma mirror_eqb p q : (p < l)%nat -> (q < l)%nat -> (l - 1 - p =? l - 1 - q)%nat = (p =? q)%nat.
  Proof. intros Hp Hq. destruct (Nat.eqb_spec p q) as [->|N]; [apply Nat.eqb_refl|]. apply Nat.eqb_neq. lia. Qed.
  Lemma mirror_h p q : (p < l)%nat -> (q < l)%nat -> dvr_h l L V (l - 1 - p) (l - 1 - q) = dvr_h l L V p q.
  Proof.
    intros Hp Hq. unfold dvr_h. rewrite mirror_eqb by assumption. destruct (Nat.eqb_spec p q) as [_|N].
    - rewrite (linspace_mirror L l p Hl Hp), (HV p Hp). reflexivity.
    - replace (diff_grid (l - 1 - p) (l - 1 - q)) with (- diff_grid p q)%Z by (unfold diff_grid; lia).
      rewrite opp_IZR, <- (cos_int (- diff_grid p q)), <- cos_int, opp_IZR. replace (PI * - IZR (diff_grid p q)) with (- (PI * IZR (diff_grid p q))) by ring. rewrite cos_neg. f_equal. ring.
  Qed.
  Lemma mirror_data p q : (p < l)%nat -> (q < l)%nat -> dvr_data l L a alpha (l - 1 - p) (l - 1 - q) = dvr_data l L a alpha p q.
  Proof. intros Hp Hq. unfold dvr_data. rewrite !linspace_mirror by assumption. apply shielded_mirror. Qed.
End Dvr.
Lemma grid_between L l i : 0 <= L -> (2 <= l)%nat -> (i < l)%nat -> - L <= linspace L l i <= L.
Proof.
  intros HL Hl Hi. unfold linspace. assert (0 < INR (l - 1)) by (apply lt_0_INR; lia). assert (0 <= INR i <= INR (l - 1)) by (split; [apply pos_INR | apply le_INR; lia]).
  replace (INR i * (2 * L / INR (l - 1))) with (2 * L * (INR i / INR (l - 1))) by (field; lra).
  assert (0 <= INR i / INR (l - 1) <= 1) by (split; [apply Rle_div_r | apply Rle_div_l]; lra). nra.
Qed.
Lemma dvr_field npm spin anti l L a alpha V b : odsincdvr npm spin anti l L a alpha 0 V U4d = (Ok tt, b) -> (forall x, - L <= x <= L -> V (- x) = V x) -> 0 <= L -> field_symmetric l 1 b.
Proof.
  intros E HV0 HL. destruct (dvr_result _ _ _ _ _ _ _ _ _ _ _ E) as ([_ _ _ _ _ _ A _] & _ & Hl).
  assert (HV : forall i, (i < l)%nat -> V (- linspace L l i) = V (linspace L l i)) by (intros i Hi; apply HV0; apply grid_between; assumption).
  eexists _, _, _. split; [rewrite A; reflexivity|]. split; [rewrite A; reflexivity|]. split; [rewrite A; reflexivity|]. split; [reflexivity|]. intros k v m X n.
  set (h := mat (arr2 l l Complex128 (fun i j => RtoC (dvr_h l L V i j)))) in X. set (u := ten (astype Complex128 (dvr_coulomb l L a alpha U4d))) in X. set (d := along 1 (astype Complex128 (dvr_dipole l L 0)) v) in X.
  assert (Gd : forall p q, d p q = if (p =? q)%nat then RtoC (v O * linspace L l p) else RtoC 0).
  { intros p q. unfold d, along. cbn [sumn get astype dvr_dipole arr3]. destruct (p =? q)%nat; apply injective_projections; cbn; ring. }
  assert (Hh : hermitian (K := CC) l h) by apply dvr_h_hermitian.
  assert (Hu : hermitian2 (K := CC) l u) by (intros p q r s Hp Hq Hr Hs; unfold u; rewrite !dvr_u_value; exact (spread_hermitian l (dvr_data l L a alpha) p q r s Hp Hq Hr Hs)).
  assert (Hd : hermitian (K := CC) l d).
  { intros p q _ _. rewrite !Gd, (Nat.eqb_sym q p). destruct (Nat.eqb_spec p q) as [->|]; apply injective_projections; cbn; ring. }
  assert (Th : forall p q, (p < l)%nat -> (q < l)%nat -> (RtoC (1 * 1) * h (l - 1 - p)%nat (l - 1 - q)%nat)%C = h p q).
  { intros p q Hp Hq. unfold h. cbn [mat get arr2]. rewrite (mirror_h l L V Hl HV p q Hp Hq). apply injective_projections; cbn; ring. }
  assert (Td : forall p q, (p < l)%nat -> (q < l)%nat -> (RtoC (1 * 1) * d (l - 1 - p)%nat (l - 1 - q)%nat)%C = (- d p q)%C).
  { intros p q Hp Hq. rewrite !Gd, (mirror_eqb l Hl p q Hp Hq), (linspace_mirror L l p Hl Hp). destruct (p =? q)%nat; apply injective_projections; cbn; ring. }
  assert (Tu : forall p q r s, (p < l)%nat -> (q < l)%nat -> (r < l)%nat -> (s < l)%nat -> (RtoC (1 * 1 * (1 * 1)) * u (l - 1 - p)%nat (l - 1 - q)%nat (l - 1 - r)%nat (l - 1 - s)%nat)%C = u p q r s).
  { intros p q r s Hp Hq Hr Hs. unfold u. rewrite !dvr_u_value, !mirror_eqb, (mirror_data l L a alpha Hl p q Hp Hq) by assumption. destruct ((p =? r)%nat && (q =? s)%nat); apply injective_projections; cbn; ring. }
  pose proof (mirror_twice l Hl) as Mt. assert (Hsg : nat -> 1 * 1 = 1) by (intros; ring). split.
  - intros F. destruct (spectrum_many k l _ u m (field_hermitian l h d F Hh Hd) Hu) as (En & Psi & Sp). exists En, Psi.
    destruct (turned_spectrum k l h d u (fun p => l - 1 - p)%nat (fun _ => 1) Mt Hsg Hh Hu Hd Th Td Tu F m _ En Psi Sp) as (Psi' & Sp'). exists Psi'. split; assumption.
  - intros F F' En Psi E' Psi' Hm HF S1 S2. exact (turned_ground k l h d u (fun p => l - 1 - p)%nat (fun _ => 1) Mt Hsg Hh Hu Hd Th Td Tu F F' m _ _ En E' Psi Psi' Hm HF S1 S2).
Qed.
