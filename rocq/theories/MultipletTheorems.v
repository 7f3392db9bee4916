(** Multiplets of exact states. *)
From Coq Require Import List Arith ZArith Znumtheory Reals Lra Lia Bool.
From Coquelicot Require Import Coquelicot.
From Verif Require Import Scalar ScalarC Py Numpy BasisSet BasisSpec Spec OneDimSpec OneDimProofs DotProofs GridSpec GridProofs PositiveForms SpectralSpec SpectralProofs SpinProofs ChangeProofs DoubleFacts.
From Verif Require Import FockSpec FockProofs FockSystem InnerSpec InnerProofs RaiseSpec RaiseProofs RaiseFock RaiseTheorems FockSpectrumSpec FockSpectrum GroundTheorems Systems SharpSpec SharpProofs SharpTheorems EvolutionProofs VariationalTheorems MultipletSpec MultipletProofs MultipletLadder MultipletBasis.
Import ListNotations.
Open Scope R_scope.
Local Notation S_ := (sumn (K := CC)).
Local Notation state := (FockSpec.state CC).
Local Notation inner := (InnerSpec.inner (K := CC)).

Lemma value_inj s s' : value_of s = value_of s' -> s = s'.
Proof.
  unfold value_of. intros E. pose proof (pos_INR s) as P. pose proof (pos_INR s') as P'. apply INR_eq.
  assert (Q : (INR s - INR s') * (INR s + INR s' + 2) = 0) by lra. apply Rmult_integral in Q. destruct Q; lra.
Qed.
Section System.
  Variables (l : nat) (h : nat -> nat -> C) (u : nat -> nat -> nat -> nat -> C).
  Hypothesis Hh : hermitian (K := CC) l h.
  Hypothesis Hu : hermitian2 (K := CC) l u.
  Notation n := (2 * l)%nat.
  Notation so := (spin_op l).
  Notation up := MultipletProofs.up.
  Notation down := MultipletProofs.down.
  Notation zed := MultipletProofs.zed.
  Notation X := (many_body Spatial l h u).
  Lemma XL : linear CC X. Proof. apply many_linear. Qed.
  Lemma XS : symmetric_operator n X. Proof. exact (many_body_symmetric Spatial l h u Hh Hu). Qed.
  Lemma XP N f : particle_state n N f -> particle_state n N (X f). Proof. apply hamiltonian_particles. Qed.
  Lemma XA f g : (forall o, among n o -> f o = g o) -> forall o, among n o -> X f o = X g o. Proof. exact (ham_agree n _ _ _ f g). Qed.
  (** ** Ladders *)
  Lemma eigen_so m e f : eigenstate (K := CC) n X e f -> nonzero l (so m f) -> eigenstate (K := CC) n X e (so m f).
  Proof.
    intros (Pf & _ & Ef) Nz. split; [apply so_proper, Pf|]. split; [exact Nz|]. intros o A. rewrite <- so_commutes by exact Pf.
    rewrite (so_agree l m (X f) (fun o => (e * f o)%C) Ef o A). apply so_scal.
  Qed.
  Lemma norm_difference M f : proper f -> projection l M f -> Re (inner n (so down f) (so down f)) = Re (inner n (so up f) (so up f)) + IZR M * Re (inner n f f).
  Proof.
    intros Pf H. rewrite <- lower_adjoint, <- raise_adjoint by (try apply so_proper; exact Pf).
    rewrite (inner_ext_among CC n f (so up (so down f)) (fun o => (so down (so up f) o + (RtoC (IZR M) * f o))%C)).
    - pose proof (inner_add CC n f (so down (so up f)) (fun o => (RtoC (IZR M) * f o)%C)) as Q. cbn [sadd CC] in Q. rewrite Q. pose proof (inner_scal CC n f (RtoC (IZR M)) f) as Q'. cbn [smul CC] in Q'. rewrite Q'.
      destruct (inner n f f) as [x y], (inner n f (so down (so up f))) as [x' y']. unfold Re. cbn. ring.
    - intros o A. rewrite up_down by exact Pf. change (so zed f o) with (S_z l f o). rewrite (H o A). apply injective_projections; cbn; field.
  Qed.
  Lemma norm_pos f : 0 <= Re (inner n f f). Proof. apply inner_nonneg. Qed.
  Lemma minus_eigen m M e f : particle_state n m f -> eigenstate (K := CC) n X e f -> projection l M f -> (0 < M)%Z ->
    particle_state n m (S_minus l f) /\ eigenstate (K := CC) n X e (S_minus l f) /\ projection l (M - 2) (S_minus l f).
  Proof.
    intros Hf Ef H HM. pose proof (proj1 Hf) as Pf.
    assert (Nz : nonzero l (so down f)).
    { apply nonzero_norm; [apply so_proper, Pf|]. rewrite (norm_difference M f Pf H). pose proof (norm_pos (so up f)). apply (IZR_lt 0) in HM.
      assert (0 < Re (inner n f f)) by (apply (nonzero_norm l f Pf), (proj1 (proj2 Ef))). assert (0 < IZR M * Re (inner n f f)) by (apply Rmult_lt_0_compat; assumption). lra. }
    pose proof (so_particles l down m f Hf) as [P1 P2]. pose proof (eigen_so down e f Ef Nz) as (E1 & E2 & E3).
    assert (Pm : proper (S_minus l f)) by (intros o o' E; rewrite !minus_so; apply P1, E).
    split; [split; [exact Pm | intros o A Ne; rewrite minus_so; apply P2; assumption]|]. split; [split; [exact Pm|]; split|].
    - destruct E2 as (o & A & N). exists o. split; [exact A|]. rewrite minus_so. exact N.
    - intros o A. rewrite minus_so. rewrite <- (E3 o A). apply XA; [intros; apply minus_so | exact A].
    - intros o A. rewrite minus_so. rewrite <- (projection_lowered l M f Pf H o A). apply so_agree; [intros o' _; apply minus_so | exact A].
  Qed.
  Lemma plus_eigen m M e f : particle_state n m f -> eigenstate (K := CC) n X e f -> projection l M f -> (M < 0)%Z ->
    particle_state n m (S_plus l f) /\ eigenstate (K := CC) n X e (S_plus l f) /\ projection l (M + 2) (S_plus l f).
  Proof.
    intros Hf Ef H HM. pose proof (proj1 Hf) as Pf.
    assert (Nz : nonzero l (so up f)).
    { apply nonzero_norm; [apply so_proper, Pf|]. pose proof (norm_difference M f Pf H). pose proof (norm_pos (so down f)). apply (IZR_lt M 0) in HM.
      assert (0 < Re (inner n f f)) by (apply (nonzero_norm l f Pf), (proj1 (proj2 Ef))). assert (0 < (- IZR M) * Re (inner n f f)) by (apply Rmult_lt_0_compat; lra). lra. }
    pose proof (so_particles l up m f Hf) as [P1 P2]. pose proof (eigen_so up e f Ef Nz) as (E1 & E2 & E3).
    assert (Pm : proper (S_plus l f)) by (intros o o' E; rewrite !plus_so; apply P1, E).
    split; [split; [exact Pm | intros o A Ne; rewrite plus_so; apply P2; assumption]|]. split; [split; [exact Pm|]; split|].
    - destruct E2 as (o & A & N). exists o. split; [exact A|]. rewrite plus_so. exact N.
    - intros o A. rewrite plus_so. rewrite <- (E3 o A). apply XA; [intros; apply plus_so | exact A].
    - intros o A. rewrite plus_so. rewrite <- (projection_raised l M f Pf H o A). apply so_agree; [intros o' _; apply plus_so | exact A].
  Qed.
  (** A state of a multiplet *)
  Definition member (m : nat) (e : C) (s : nat) (M : Z) (f : state) : Prop :=
    particle_state n m f /\ eigenstate (K := CC) n X e f /\ squared_is l (value_of s) f /\ projection l M f.
  Lemma member_up m e s M f : member m e s M f -> in_multiplet s (M + 2) -> in_multiplet s M -> member m e s (M + 2) (so up f).
  Proof.
    intros (Hf & Ef & Sf & Mf) [I _] [J _]. pose proof (proj1 Hf) as Pf. split; [apply so_particles, Hf|]. split; [|split; [apply squared_raised; assumption | apply projection_raised; assumption]].
    apply eigen_so; [exact Ef|]. apply nonzero_norm; [apply so_proper, Pf|]. rewrite (raise_norm l _ M f Pf Sf Mf).
    assert (0 < Re (inner n f f)) by (apply (nonzero_norm l f Pf), (proj1 (proj2 Ef))). apply Rmult_lt_0_compat; [|assumption]. unfold value_of. rewrite INR_IZR_INZ.
    assert (IZR M + 2 <= IZR (Z.of_nat s)) by (rewrite <- plus_IZR; apply IZR_le; lia). assert (- IZR (Z.of_nat s) <= IZR M) by (rewrite <- opp_IZR; apply IZR_le; lia). nra.
  Qed.
  Lemma member_down m e s M f : member m e s M f -> in_multiplet s (M - 2) -> in_multiplet s M -> member m e s (M - 2) (so down f).
  Proof.
    intros (Hf & Ef & Sf & Mf) [I _] [J _]. pose proof (proj1 Hf) as Pf. split; [apply so_particles, Hf|]. split; [|split; [apply squared_lowered; assumption | apply projection_lowered; assumption]].
    apply eigen_so; [exact Ef|]. apply nonzero_norm; [apply so_proper, Pf|]. rewrite (lower_norm l _ M f Pf Sf Mf).
    assert (0 < Re (inner n f f)) by (apply (nonzero_norm l f Pf), (proj1 (proj2 Ef))). apply Rmult_lt_0_compat; [|assumption]. unfold value_of. rewrite INR_IZR_INZ.
    assert (- IZR (Z.of_nat s) <= IZR M - 2) by (rewrite <- opp_IZR, <- minus_IZR; apply IZR_le; lia). assert (IZR M <= IZR (Z.of_nat s)) by (apply IZR_le; lia). nra.
  Qed.
  Lemma even_steps s M M' : in_multiplet s M -> in_multiplet s M' -> exists j, M' = (M + 2 * j)%Z.
  Proof.
    intros [_ E] [_ E']. apply Z.even_spec in E, E'. destruct E as [a Ha], E' as [b Hb]. exists (a - b)%Z. lia.
  Qed.
  Lemma walk m e s : forall k M M' f, member m e s M f -> in_multiplet s M -> in_multiplet s M' -> (Z.abs (M' - M) <= 2 * Z.of_nat k)%Z -> exists g, member m e s M' g.
  Proof.
    induction k as [|k IH]; intros M M' f Hf HM HM' Hk; [assert (M' = M) as -> by lia; exists f; exact Hf|].
    destruct (even_steps s M M' HM HM') as [j Hj]. destruct (Z.lt_trichotomy j 0) as [L|[->|G]].
    - assert (I : in_multiplet s (M - 2)). { destruct HM as [? Ev], HM' as [? _]. split; [lia|]. replace (Z.of_nat s - (M - 2))%Z with (Z.of_nat s - M + 2)%Z by lia. rewrite Z.even_add, Ev. reflexivity. }
      apply (IH (M - 2)%Z M' (so down f)); [apply member_down; assumption | exact I | exact HM' | lia].
    - exists f. replace M' with M by lia. exact Hf.
    - assert (I : in_multiplet s (M + 2)). { destruct HM as [? Ev], HM' as [? _]. split; [lia|]. replace (Z.of_nat s - (M + 2))%Z with (Z.of_nat s - M - 2)%Z by lia. rewrite Z.even_sub, Ev. reflexivity. }
      apply (IH (M + 2)%Z M' (so up f)); [apply member_up; assumption | exact I | exact HM' | lia].
  Qed.
  (** ** The joint basis *)
  Lemma sharp_projection f : proper f -> sharp n spin_label f -> exists M, projection l M f.
  Proof.
    intros Pf [M HM]. exists M. apply projection_held; [exact Pf|]. intros o A Ne. apply Classical_Prop.NNPP. intros C. apply Ne. pose proof (HM o A C) as D. unfold alike in D. cbn [modulus spin_label] in D. apply Z.divide_0_l in D. lia.
  Qed.
  Lemma choice_nat {T} (d : nat) (t0 : T) (P : nat -> T -> Prop) : (forall i, (i < d)%nat -> exists z, P i z) -> exists g, forall i, (i < d)%nat -> P i (g i).
  Proof.
    induction d as [|k IH]; intros H; [exists (fun _ => t0); intros i Hi; lia|]. destruct IH as [g Hg]; [intros i Hi; apply H; lia|]. destruct (H k ltac:(lia)) as [z Hz].
    exists (fun i => if (i =? k)%nat then z else g i). intros i Hi. destruct (Nat.eqb_spec i k) as [->|Ne]; [exact Hz | apply Hg; lia].
  Qed.
  Lemma coefficient_of (Y : state -> state) (a c : R) f g : symmetric_operator n Y -> proper f -> proper g -> (forall o, among n o -> Y f o = (RtoC a * f o)%C) -> (forall o, among n o -> Y g o = (RtoC c * g o)%C) ->
    inner n f g <> RtoC 0 -> a = c.
  Proof.
    intros YS Pf Pg Ef Eg Nz. pose proof (YS f g Pf Pg) as Q. rewrite (inner_ext_among CC n f (Y g) (fun o => (RtoC c * g o)%C) Eg) in Q. rewrite (inner_ext_l n (Y f) (fun o => (RtoC a * f o)%C) g Ef) in Q.
    pose proof (inner_scal CC n f (RtoC c) g) as Q'. cbn [smul CC] in Q'. rewrite Q' in Q. rewrite inner_scal_l in Q.
    assert (Z : (RtoC (c - a) * inner n f g)%C = RtoC 0). { rewrite RtoC_minus. replace ((RtoC c - RtoC a) * inner n f g)%C with (RtoC c * inner n f g - RtoC a * inner n f g)%C by cring. rewrite Q. cring. }
    apply Rminus_diag_uniq_sym. apply Classical_Prop.NNPP. intros C. refine (Cmult_neq_0 _ _ _ Nz Z). intros C'. apply RtoC_inj in C'. contradiction.
  Qed.
  Lemma zed_symmetric : symmetric_operator n (S_z l).
  Proof.
    intros f g Pf Pg. apply half_adjoint; [|exact Pf | exact Pg]. intros i j Hi Hj. destruct i as [|[|i]]; [| |lia]; (destruct j as [|[|j]]; [| |lia]); cbn; apply injective_projections; cbn; lra.
  Qed.
  Lemma nonzero_coefficient m d E Psi f : spectrum n X m d E Psi -> particle_state n m f -> nonzero l f -> exists q, (q < d)%nat /\ inner n (Psi q) f <> RtoC 0.
  Proof.
    intros Sp Hf (o & A & N). apply Classical_Prop.NNPP. intros No. apply N. rewrite (sp_complete _ _ _ _ _ _ Sp f Hf o A). apply csum_zero. intros q Hq.
    replace (inner n (Psi q) f) with (RtoC 0); [cring|]. symmetry. apply Classical_Prop.NNPP. intros C. apply No. exists q. split; assumption.
  Qed.
  Lemma joint_states ts : kept l h u ts -> forall m, let d := choose n m in
    exists E Psi S M, spectrum n X m d E Psi /\ multiplets l m d E S M /\
      forall p, (p < d)%nat -> total_spin l (S p) (Psi p) /\ projection l (M p) (Psi p) /\ forall t, In t (labels Spatial ts) -> sharp n t (Psi p).
  Proof.
    intros Kt m d.
    destruct (sharp_spectrum n (S_squared l) (labels Spatial ts) (squared_linear l) (squared_symmetric l) (squared_conserves l ts) m (squared_particles l m)) as (b & Phi & SpY & ShY). rewrite codes_length in SpY, ShY. fold d in SpY, ShY.
    destruct (joint_spectrum n m d X (S_squared l) b Phi (labels Spatial ts) XL (squared_linear l) XS (squared_symmetric l) (XP m) XA (squared_many l h u) (many_conserves Spatial l h u ts Kt) SpY ShY) as (E & Psi & Sp & J).
    assert (St : forall p, (p < d)%nat -> particle_state n m (Psi p) /\ nonzero l (Psi p) /\ eigenstate (K := CC) n X (RtoC (E p)) (Psi p)).
    { intros p Hp. destruct (sp_state _ _ _ _ _ _ Sp p Hp) as [P Q]. split; [exact P|]. split; [exact (proj1 (proj2 Q)) | exact Q]. }
    assert (G : forall p, (p < d)%nat -> exists sM : nat * Z, squared_is l (value_of (fst sM)) (Psi p) /\ projection l (snd sM) (Psi p) /\
       in_multiplet (fst sM) (snd sM) /\ (fst sM <= m)%nat /\ (fst sM + m <= 2 * l)%nat /\ Nat.even (m - fst sM) = true).
    { intros p Hp. destruct (J p Hp) as [[B HB] Sh]. destruct (St p Hp) as (P1 & P2 & _). destruct (sharp_projection (Psi p) (proj1 P1) (Sh spin_label (or_introl eq_refl))) as [M HM].
      destruct (spin_number l m B M (Psi p) P1 P2 HB HM) as (s & Eb & I). exists (s, M). cbn [fst snd]. split; [rewrite <- Eb; exact HB|]. split; [exact HM | exact I]. }
    destruct (choice_nat d (0%nat, 0%Z) _ G) as [g Hg]. exists E, Psi, (fun p => fst (g p)), (fun p => snd (g p)). split; [exact Sp|]. split.
    - intros p Hp. destruct (Hg p Hp) as (S1 & M1 & I1 & I2 & I3 & I4). split; [exact I1|]. split; [exact I2|]. split; [exact I3|]. split; [exact I4|]. intros M' HM'.
      destruct (St p Hp) as (P1 & _ & P3). destruct (walk m (RtoC (E p)) (fst (g p)) (Z.to_nat (Z.abs (M' - snd (g p)))) (snd (g p)) M' (Psi p)) as [f Hf]; [split; [exact P1 | split; [exact P3 | split; assumption]] | exact I1 | exact HM' | lia |].
      destruct Hf as (F1 & F2 & F3 & F4). destruct (nonzero_coefficient m d E Psi f Sp F1 (proj1 (proj2 F2))) as (q & Hq & Nq). destruct (St q Hq) as ([Pq _] & _ & Eq). destruct (Hg q Hq) as (S1' & M1' & _).
      exists q. split; [exact Hq|]. split; [|split].
      + exact (coefficient_of X (E q) (E p) (Psi q) f XS Pq (proj1 F1) (proj2 (proj2 Eq)) (proj2 (proj2 F2)) Nq).
      + apply value_inj. exact (coefficient_of (S_squared l) _ _ (Psi q) f (squared_symmetric l) Pq (proj1 F1) S1' F3 Nq).
      + apply eq_IZR. pose proof (coefficient_of (S_z l) _ _ (Psi q) f zed_symmetric Pq (proj1 F1) M1' F4 Nq). lra.
    - intros p Hp. destruct (Hg p Hp) as (S1 & M1 & _). split; [exact S1|]. split; [exact M1|]. exact (proj2 (J p Hp)).
  Qed.
  Lemma no_labels : kept l h u []. Proof. intros t []. Qed.
  (** ** Consequences for any spectrum *)
  Lemma levels_lowest m e f : particle_state n m f -> eigenstate (K := CC) n X e f -> exists g, particle_state n m g /\ eigenstate (K := CC) n X e g /\ projection l (Z.of_nat (m mod 2)) g.
  Proof.
    intros Hf Ef. destruct (joint_states [] no_labels m) as (E & Psi & S & M & Sp & Mu & J).
    destruct (all_levels n m (choose n m) X E Psi XS Sp e f Hf Ef) as (p & Hp & ->).
    destruct (Mu p Hp) as (I & I1 & _ & I2 & I3). destruct (I3 (Z.of_nat (m mod 2))) as (q & Hq & Eq & _ & Mq).
    { apply Nat.even_spec in I2. destruct I2 as [j Hj]. pose proof (Nat.div_mod m 2 ltac:(lia)) as D. pose proof (Nat.mod_upper_bound m 2 ltac:(lia)) as B. split.
      - assert (m mod 2 <= S p)%nat; [|lia]. destruct (m mod 2)%nat as [|[|k]]; [lia| |lia]. assert (S p <> 0)%nat; lia.
      - apply Z.even_spec. exists (Z.of_nat (m / 2) - Z.of_nat j)%Z. lia. }
    exists (Psi q). destruct (sp_state _ _ _ _ _ _ Sp q Hq) as [Pq Eg]. split; [exact Pq|]. split; [rewrite <- Eq; exact Eg|]. destruct (J q Hq) as (_ & Pj & _). rewrite <- Mq. exact Pj.
  Qed.
  (** A level in whose eigenspace there is a state of spin s is at least (s + 1)-fold. *)
  Lemma degenerate m d E Psi p s f : spectrum n X m d E Psi -> (p < d)%nat -> particle_state n m f -> eigenstate (K := CC) n X (RtoC (E p)) f -> total_spin l s f ->
    exists g, forall k, (k <= s)%nat -> (g k < d)%nat /\ E (g k) = E p /\ forall k', (k' <= s)%nat -> g k = g k' -> k = k'.
  Proof.
    intros Sp Hp Hf Ef Sf. destruct (joint_states [] no_labels m) as (E' & Psi' & S & M & Sp' & Mu & J).
    destruct (energies_unique Spatial l h u Hh Hu m _ _ _ _ _ _ Sp Sp') as [Ed Ee]. cbn [spin_orbitals] in Ed. rewrite <- Ed in *.
    destruct (nonzero_coefficient m d E' Psi' f Sp' Hf (proj1 (proj2 Ef))) as (q & Hq & Nq). destruct (sp_state _ _ _ _ _ _ Sp' q Hq) as [[Pq _] (_ & _ & Eq)]. destruct (J q Hq) as (Sq & _ & _).
    pose proof (coefficient_of X (E' q) (E p) (Psi' q) f XS Pq (proj1 Hf) Eq (proj2 (proj2 Ef)) Nq) as E1.
    pose proof (value_inj _ _ (coefficient_of (S_squared l) _ _ (Psi' q) f (squared_symmetric l) Pq (proj1 Hf) Sq Sf Nq)) as E2.
    destruct (Mu q Hq) as (_ & _ & _ & _ & All). rewrite E2 in All.
    destruct (choice_nat (s + 1) 0%nat (fun k r => (r < d)%nat /\ E' r = E' q /\ M r = (Z.of_nat s - 2 * Z.of_nat k)%Z)) as [g Hg].
    { intros k Hk. destruct (All (Z.of_nat s - 2 * Z.of_nat k)%Z) as (r & R1 & R2 & _ & R3); [split; [lia|]|exists r; auto].
      replace (Z.of_nat s - (Z.of_nat s - 2 * Z.of_nat k))%Z with (2 * Z.of_nat k)%Z by lia. rewrite Z.even_mul. reflexivity. }
    exists g. intros k Hk. destruct (Hg k ltac:(lia)) as (G1 & G2 & G3). split; [exact G1|]. split; [rewrite (Ee _ G1); congruence|].
    intros k' Hk' Eg. destruct (Hg k' ltac:(lia)) as (_ & _ & G3'). rewrite Eg in G3. lia.
  Qed.
  Lemma spin_of_level m d E Psi p : spectrum n X m d E Psi -> (p < d)%nat -> exists s f, particle_state n m f /\ eigenstate (K := CC) n X (RtoC (E p)) f /\ total_spin l s f /\ Nat.even (m - s) = true /\ (s <= m)%nat.
  Proof.
    intros Sp Hp. destruct (joint_states [] no_labels m) as (E' & Psi' & S & M & Sp' & Mu & J).
    destruct (energies_unique Spatial l h u Hh Hu m _ _ _ _ _ _ Sp Sp') as [Ed Ee]. cbn [spin_orbitals] in Ed. rewrite <- Ed in *. exists (S p), (Psi' p).
    destruct (sp_state _ _ _ _ _ _ Sp' p Hp) as [Pp Ep]. split; [exact Pp|]. split; [rewrite (Ee p Hp); exact Ep|]. split; [apply (J p Hp)|]. destruct (Mu p Hp) as (_ & I1 & _ & I2 & _). split; assumption.
  Qed.
  Lemma kramers m d E Psi p : Nat.odd m = true -> spectrum n X m d E Psi -> (p < d)%nat -> exists q, (q < d)%nat /\ q <> p /\ E q = E p.
  Proof.
    intros Om Sp Hp. destruct (spin_of_level m d E Psi p Sp Hp) as (s & f & Hf & Ef & Sf & Ev & Le).
    assert (1 <= s)%nat. { destruct s as [|s]; [|lia]. rewrite Nat.sub_0_r in Ev. rewrite <- Nat.negb_odd, Om in Ev. discriminate. }
    destruct (degenerate m d E Psi p s f Sp Hp Hf Ef Sf) as [g Hg]. destruct (Hg 0%nat ltac:(lia)) as (A0 & B0 & C0). destruct (Hg 1%nat ltac:(lia)) as (A1 & B1 & _).
    destruct (Nat.eq_dec (g 0%nat) p) as [E0|N0]; [|exists (g 0%nat); auto]. exists (g 1%nat). split; [exact A1|]. split; [|exact B1]. intros E1. specialize (C0 1%nat ltac:(lia) ltac:(congruence)). lia.
  Qed.
  Lemma simple_singlet m d E Psi p : spectrum n X m d E Psi -> (p < d)%nat -> (forall q, (q < d)%nat -> q <> p -> E q <> E p) -> total_spin l 0 (Psi p).
  Proof.
    intros Sp Hp Sm. destruct (spin_of_level m d E Psi p Sp Hp) as (s & f & Hf & Ef & Sf & _ & _).
    assert (s = 0)%nat as ->.
    { destruct s as [|s]; [reflexivity|]. exfalso. destruct (degenerate m d E Psi p (S s) f Sp Hp Hf Ef Sf) as [g Hg]. destruct (Hg 0%nat ltac:(lia)) as (A0 & B0 & C0). destruct (Hg 1%nat ltac:(lia)) as (A1 & B1 & _).
      destruct (Nat.eq_dec (g 0%nat) p) as [E0|N0]; [|exact (Sm _ A0 N0 B0)]. destruct (Nat.eq_dec (g 1%nat) p) as [E1|N1]; [|exact (Sm _ A1 N1 B1)]. specialize (C0 1%nat ltac:(lia) ltac:(congruence)). lia. }
    assert (F : forall o, among n o -> f o = (inner n (Psi p) f * Psi p o)%C).
    { intros o A. rewrite (sp_complete _ _ _ _ _ _ Sp f Hf o A). rewrite (csum_pick d p); [reflexivity | exact Hp |]. intros q Hq Ne. destruct (sp_state _ _ _ _ _ _ Sp q Hq) as [[Pq _] (_ & _ & Eq)].
      replace (inner n (Psi q) f) with (RtoC 0); [cring|]. symmetry. apply Classical_Prop.NNPP. intros C. apply (Sm q Hq Ne). exact (coefficient_of X _ _ (Psi q) f XS Pq (proj1 Hf) Eq (proj2 (proj2 Ef)) C). }
    set (c := inner n (Psi p) f) in *.
    assert (Nc : c <> RtoC 0). { intros Z. destruct (proj1 (proj2 Ef)) as (o & A & N). apply N. rewrite (F o A), Z. apply injective_projections; cbn; ring. }
    intros o A. pose proof (Sf o A) as Q. rewrite (squared_agree l f (fun o => (c * Psi p o)%C) F o A) in Q. rewrite (F o A) in Q. pose proof (lin_scal CC _ (squared_linear l) c (Psi p) o) as Q'. cbn [smul CC] in Q'. rewrite Q' in Q.
    set (a := S_squared l (Psi p) o) in *. set (r := Psi p o) in *. set (v := RtoC (INR 0 / 2 * (INR 0 / 2 + 1))) in *. clearbody a r v c.
    assert (Z : (c * (a - v * r))%C = RtoC 0). { replace (c * (a - v * r))%C with (c * a - v * (c * r))%C by cring. rewrite Q. cring. }
    assert (Z' : (a - v * r)%C = RtoC 0) by (apply Classical_Prop.NNPP; intros C; exact (Cmult_neq_0 _ _ Nc C Z)). replace a with (a - v * r + v * r)%C by cring. rewrite Z'. cring.
  Qed.
End System.
