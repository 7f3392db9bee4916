(** Hermite polynomials with Gaussian weight: orthogonality on the line. *)
From Coq Require Import Reals Lra Lia Arith.
From Coquelicot Require Import Coquelicot.
From Verif Require Import ScalarC OneDim OneDimSpec Gauss.
Open Scope R_scope.

(** ** Integrals over the line from antiderivatives *)
Definition line (f : R -> R) (v : R) : Prop :=
  exists F u w, (forall x, is_derive F x (f x)) /\ (forall x, continuous f x) /\
    is_lim F p_infty (Finite u) /\ is_lim (fun x => F (- x)) p_infty (Finite w) /\ v = u - w.
Lemma line_whole f v : line f v -> whole_line f v.
Proof.
  intros (F & u & w & D & K & Lp & Lm & ->). unfold whole_line.
  intros P (eps & HP). apply is_lim_spec in Lp, Lm. set (e := mkposreal (eps / 2) (is_pos_div_2 eps)).
  destruct (Lp e) as (M & HM). destruct (Lm e) as (M' & HM').
  apply (Filter_prod _ _ _ (fun a => a < - M') (fun b => M < b)); [exists (- M'); auto | exists M; auto|].
  intros a b Ha Hb. cbn [fst snd]. exists (F b - F a). split.
  - apply (is_RInt_derive F); intros; [apply D | apply K].
  - apply HP. specialize (HM b Hb). specialize (HM' (- a) ltac:(lra)). rewrite Ropp_involutive in HM'. cbn [pos e] in *.
    change (Rabs ((F b - F a) - (u - w)) < eps). replace (F b - F a - (u - w)) with ((F b - u) - (F a - w)) by ring.
    eapply Rle_lt_trans; [apply Rabs_triang|]. rewrite Rabs_Ropp. lra.
Qed.
Lemma line_ext f g v : (forall x, f x = g x) -> line f v -> line g v.
Proof.
  intros E (F & u & w & D & K & Lp & Lm & ->). exists F, u, w. split; [intros x; rewrite <- E; apply D|]. split.
  - intros x. apply (continuous_ext f g x E). apply K.
  - auto.
Qed.
Lemma line_val f v v' : line f v -> v = v' -> line f v'.
Proof. intros H <-. exact H. Qed.
Lemma line_plus f g u v : line f u -> line g v -> line (fun x => f x + g x) (u + v).
Proof.
  intros (F & a & b & D & K & Lp & Lm & ->) (G & a' & b' & D' & K' & Lp' & Lm' & ->).
  exists (fun x => F x + G x), (a + a'), (b + b'). split; [intros x; apply (is_derive_plus F G); [apply D | apply D']|].
  split; [intros x; apply (continuous_plus f g); [apply K | apply K']|].
  split; [apply (is_lim_plus' F G); assumption|]. split; [apply (is_lim_plus' (fun x => F (- x)) (fun x => G (- x))); assumption|]. ring.
Qed.
Lemma line_scal c f u : line f u -> line (fun x => c * f x) (c * u).
Proof.
  intros (F & a & b & D & K & Lp & Lm & ->).
  exists (fun x => c * F x), (c * a), (c * b). split; [intros x; apply (is_derive_scal F); apply D|].
  split; [intros x; apply (continuous_mult (fun _ => c) f); [apply continuous_const | apply K]|].
  split; [apply (is_lim_scal_l F c p_infty (Finite a)); assumption|]. split; [apply (is_lim_scal_l (fun x => F (- x)) c p_infty (Finite b)); assumption|]. ring.
Qed.
(** Substitution x -> s x *)
Lemma lim_stretch (F : R -> R) s u : 0 < s -> is_lim F p_infty (Finite u) -> is_lim (fun x => F (s * x)) p_infty (Finite u).
Proof.
  intros Hs H. apply is_lim_spec in H. apply is_lim_spec. intros eps. destruct (H eps) as (M & HM). exists (M / s). intros x Hx. apply HM.
  apply Rlt_div_l in Hx; [lra | exact Hs].
Qed.
Lemma line_stretch f u s : 0 < s -> line f u -> line (fun x => f (s * x)) (u / s).
Proof.
  intros Hs (F & a & b & D & K & Lp & Lm & ->).
  exists (fun x => / s * F (s * x)), (/ s * a), (/ s * b). split.
  - intros x. assert (E : is_derive (fun x => F (s * x)) x (s * f (s * x))).
    { apply (is_derive_comp F (fun x => s * x) x (f (s * x)) s); [apply D|]. auto_derive; [exact I|ring]. }
    pose proof (is_derive_scal (fun x => F (s * x)) x (/ s) _ E) as E'. replace (f (s * x)) with (/ s * (s * f (s * x))) by (field; lra). exact E'.
  - split; [intros x; apply (continuous_comp (fun x => s * x) f); [apply (ex_derive_continuous (fun x => s * x)); auto_derive; exact I | apply K]|].
    split; [apply (is_lim_scal_l (fun x => F (s * x)) (/ s) p_infty (Finite a)); apply lim_stretch; assumption|].
    split; [|field; lra]. apply (is_lim_scal_l (fun x => F (s * - x)) (/ s) p_infty (Finite b)).
    apply (is_lim_ext (fun x => (fun y => F (- y)) (s * x))); [intros x; cbv beta; f_equal; ring|]. apply (lim_stretch (fun y => F (- y))); assumption.
Qed.

(** ** Decay at both ends *)
Definition fades (f : R -> R) : Prop :=
  forall k, is_lim (fun x => x ^ k * f x * exp (- x ^ 2)) p_infty 0 /\ is_lim (fun x => x ^ k * f (- x) * exp (- x ^ 2)) p_infty 0.
Lemma fades_ext f g : (forall x, f x = g x) -> fades f -> fades g.
Proof.
  intros E H k. destruct (H k) as [A B]. split; [refine (is_lim_ext _ _ _ _ _ A) | refine (is_lim_ext _ _ _ _ _ B)]; intros x; rewrite E; reflexivity.
Qed.
Lemma lim_zero_plus f g : is_lim f p_infty 0 -> is_lim g p_infty 0 -> is_lim (fun x => f x + g x) p_infty 0.
Proof. intros F G. replace 0 with (0 + 0) by ring. apply (is_lim_plus' f g); assumption. Qed.
Lemma lim_zero_scal c f : is_lim f p_infty 0 -> is_lim (fun x => c * f x) p_infty 0.
Proof. intros F. replace (Finite 0) with (Rbar_mult c 0) by (cbn; f_equal; ring). apply is_lim_scal_l. exact F. Qed.
Lemma fades_one : fades (fun _ => 1).
Proof.
  intros k. pose proof (decay_lim 1 k Rlt_0_1) as D. split; (refine (is_lim_ext _ _ _ _ _ D); intros x; replace (1 ^ 2 * x ^ 2) with (x ^ 2) by ring; ring).
Qed.
Lemma fades_plus f g : fades f -> fades g -> fades (fun x => f x + g x).
Proof.
  intros F G k. destruct (F k) as [A B], (G k) as [A' B'].
  split; [refine (is_lim_ext _ _ _ _ _ (lim_zero_plus _ _ A A')) | refine (is_lim_ext _ _ _ _ _ (lim_zero_plus _ _ B B'))]; intros x; ring.
Qed.
Lemma fades_scal c f : fades f -> fades (fun x => c * f x).
Proof.
  intros F k. destruct (F k) as [A B].
  split; [refine (is_lim_ext _ _ _ _ _ (lim_zero_scal c _ A)) | refine (is_lim_ext _ _ _ _ _ (lim_zero_scal c _ B))]; intros x; ring.
Qed.
Lemma fades_x f : fades f -> fades (fun x => x * f x).
Proof.
  intros F k. destruct (F (S k)) as [A B]. split; [refine (is_lim_ext _ _ _ _ _ A); intros x; cbn [pow]; ring|].
  refine (is_lim_ext _ _ _ _ _ (lim_zero_scal (-1) _ B)). intros x. cbn [pow]. ring.
Qed.

(** ** Hermite polynomials *)
Definition hermite_before (n : nat) (x : R) : R := snd (hermite_pair n x).
Lemma hermite_0 x : hermite 0 x = 1.
Proof. reflexivity. Qed.
Lemma hermite_S n x : hermite (S n) x = 2 * x * hermite n x - 2 * INR n * hermite_before n x.
Proof. unfold hermite, hermite_before. cbn [hermite_pair]. destruct (hermite_pair n x). reflexivity. Qed.
Lemma before_S n x : hermite_before (S n) x = hermite n x.
Proof. unfold hermite, hermite_before. cbn [hermite_pair]. destruct (hermite_pair n x). reflexivity. Qed.
Lemma hermite_SS n x : hermite (S (S n)) x = 2 * x * hermite (S n) x - 2 * INR (S n) * hermite n x.
Proof. rewrite hermite_S, before_S. reflexivity. Qed.
Lemma hermite_derive n (x : R) : is_derive (hermite n) x (2 * INR n * hermite_before n x).
Proof.
  revert x. induction n as [n IH] using lt_wf_ind. intros x. destruct n as [|[|n]].
  - apply (is_derive_ext (fun _ => 1)); [reflexivity|]. replace (2 * INR 0 * hermite_before 0 x) with 0 by (cbn; ring). apply (is_derive_const (V := R_NormedModule)).
  - apply (is_derive_ext (fun x => 2 * x)); [intros t; rewrite hermite_S, hermite_0; cbn; ring|]. rewrite before_S, hermite_0. auto_derive; [exact I|]. cbn. ring.
  - apply (is_derive_ext (fun x => 2 * x * hermite (S n) x - 2 * INR (S n) * hermite n x)); [intros t; rewrite hermite_SS; reflexivity|].
    pose proof (IH (S n) ltac:(lia) x) as A. pose proof (IH n ltac:(lia) x) as B. rewrite !before_S in *.
    assert (E : is_derive (fun x => 2 * x * hermite (S n) x - 2 * INR (S n) * hermite n x) x (2 * hermite (S n) x + 2 * x * (2 * INR (S n) * hermite n x) - 2 * INR (S n) * (2 * INR n * hermite_before n x))).
    { set (k := INR (S n)) in *. set (j := INR n) in *. evar_last.
      - apply (is_derive_minus (fun x => 2 * x * hermite (S n) x) (fun x => 2 * k * hermite n x)).
        + apply (is_derive_mult (fun x => 2 * x) (hermite (S n)) x 2); [auto_derive; [exact I|ring] | exact A | intros; apply Rmult_comm].
        + apply (is_derive_scal (hermite n)). exact B.
      - unfold minus, plus, opp, mult. cbn. ring. }
    evar_last; [exact E|]. rewrite (hermite_S n x) at 2. rewrite !S_INR. rewrite (hermite_S n). ring.
Qed.
Lemma hermite_up n x : 2 * x * hermite n x = hermite (S n) x + 2 * INR n * hermite_before n x.
Proof. rewrite hermite_S. ring. Qed.
Lemma fades_hermite n f : fades f -> fades (fun x => hermite n x * f x).
Proof.
  intros F. induction n as [n IH] using lt_wf_ind. destruct n as [|[|n]].
  - apply (fades_ext f); [intros x; rewrite hermite_0; ring | exact F].
  - apply (fades_ext (fun x => 2 * (x * f x))); [intros x; rewrite hermite_S, hermite_0; cbn; ring|]. apply fades_scal, fades_x, F.
  - apply (fades_ext (fun x => 2 * (x * (hermite (S n) x * f x)) + (- (2 * INR (S n))) * (hermite n x * f x))); [intros x; rewrite hermite_SS; ring|].
    apply fades_plus; [apply fades_scal, fades_x, IH; lia | apply fades_scal, IH; lia].
Qed.
Definition weight (x : R) : R := exp (- x ^ 2).
Lemma weight_derive (x : R) : is_derive weight x (-2 * x * weight x).
Proof. unfold weight. auto_derive; [exact I|]. change (x * (x * 1)) with (x ^ 2). ring. Qed.
Lemma hermite_cont n (x : R) : continuous (hermite n) x.
Proof. apply (ex_derive_continuous (hermite n)). exists (2 * INR n * hermite_before n x). apply hermite_derive. Qed.
Lemma weight_cont (x : R) : continuous weight x.
Proof. apply (ex_derive_continuous weight). exists (-2 * x * weight x). apply weight_derive. Qed.
Lemma before_cont n (x : R) : continuous (hermite_before n) x.
Proof.
  destruct n as [|n]; [apply (continuous_ext (fun _ => 0)); [reflexivity | apply continuous_const]|].
  apply (continuous_ext (hermite n)); [intros t; rewrite before_S; reflexivity | apply hermite_cont].
Qed.
(** Integration by parts: the derivative of H_n H_m w *)
Lemma parts n m : line (fun x => (2 * INR m * (hermite n x * hermite_before m x) - hermite (S n) x * hermite m x) * weight x) 0.
Proof.
  exists (fun x => hermite n x * hermite m x * weight x), 0, 0.
  pose proof (fades_hermite n _ (fades_hermite m _ fades_one)) as F. destruct (F 0%nat) as [Fp Fm].
  split.
  - intros x. evar_last.
    + apply (is_derive_mult (fun x => hermite n x * hermite m x) weight).
      * apply (is_derive_mult (hermite n) (hermite m)); [apply hermite_derive | apply hermite_derive | intros; apply Rmult_comm].
      * apply weight_derive.
      * intros; apply Rmult_comm.
    + unfold plus, mult. cbn. rewrite hermite_S. ring.
  - split; [|split; [|split; [|ring]]].
    + intros x. apply (continuous_mult (fun x => 2 * INR m * (hermite n x * hermite_before m x) - hermite (S n) x * hermite m x) weight); [|apply weight_cont].
      apply (continuous_minus (fun x => 2 * INR m * (hermite n x * hermite_before m x)) (fun x => hermite (S n) x * hermite m x)).
      * apply (continuous_mult (fun _ => 2 * INR m) (fun x => hermite n x * hermite_before m x)); [apply continuous_const|]. apply (continuous_mult (hermite n) (hermite_before m)); [apply hermite_cont | apply before_cont].
      * apply (continuous_mult (hermite (S n)) (hermite m)); apply hermite_cont.
    + refine (is_lim_ext _ _ _ _ _ Fp). intros x. unfold weight. cbn [pow]. ring.
    + refine (is_lim_ext _ _ _ _ _ Fm). intros x. unfold weight. replace ((- x) ^ 2) with (x ^ 2) by ring. cbn [pow]. ring.
Qed.
Lemma gF_odd x : gF (- x) = - gF x.
Proof.
  unfold gF. apply (is_RInt_unique (V := R_CompleteNormedModule)).
  apply (is_RInt_ext (fun t => opp (opp (exp (- t ^ 2))))); [intros t _; apply (opp_opp (G := R_AbelianGroup))|].
  apply (is_RInt_opp (V := R_NormedModule) (fun t => opp (exp (- t ^ 2)))).
  pose proof (is_RInt_comp_opp (V := R_NormedModule) (fun t => exp (- t ^ 2)) 0 (- x) (gF x)) as E. rewrite Ropp_0, Ropp_involutive in E.
  specialize (E (RInt_correct (V := R_CompleteNormedModule) _ _ _ (gauss_int 0 x))).
  refine (is_RInt_ext _ _ _ _ _ _ E). intros t _. f_equal. f_equal. ring.
Qed.
Lemma weight_line : line weight (sqrt PI).
Proof.
  exists gF, (sqrt PI / 2), (- (sqrt PI / 2)). split; [exact gF_derive|]. split; [exact weight_cont|]. split; [exact gF_lim|]. split; [|field].
  apply (is_lim_ext (fun x => -1 * gF x)); [intros x; rewrite gF_odd; ring|]. replace (Finite (- (sqrt PI / 2))) with (Rbar_mult (-1) (sqrt PI / 2)) by (cbn; f_equal; ring).
  apply is_lim_scal_l, gF_lim.
Qed.
Definition hermite_norm (n : nat) : R := 2 ^ n * INR (fact n) * sqrt PI.
Definition hermite_value (n m : nat) : R := if (n =? m)%nat then hermite_norm n else 0.
Lemma hermite_norm_S n : hermite_norm (S n) = 2 * INR (S n) * hermite_norm n.
Proof. unfold hermite_norm. rewrite fact_simpl, mult_INR. cbn [pow]. ring. Qed.
Lemma hermite_orthogonal n m : line (fun x => hermite n x * hermite m x * weight x) (hermite_value n m).
Proof.
  revert m. induction n as [|n IH]; intros m.
  - destruct m as [|m].
    + apply (line_ext weight); [intros x; rewrite hermite_0; ring|]. eapply line_val; [exact weight_line|]. change (sqrt PI = 1 * 1 * sqrt PI). ring.
    + pose proof (line_scal (-1) _ _ (parts m 0)) as P. eapply line_ext; [|eapply line_val; [exact P|]].
      * intros x. cbv beta. rewrite hermite_0. cbn [INR]. ring.
      * change (-1 * 0 = 0). ring.
  - destruct m as [|m].
    + pose proof (line_scal (-1) _ _ (parts n 0)) as P. eapply line_ext; [|eapply line_val; [exact P|]].
      * intros x. cbv beta. cbn [INR]. ring.
      * change (-1 * 0 = 0). ring.
    + pose proof (line_plus _ _ _ _ (line_scal (2 * INR (S m)) _ _ (IH m)) (line_scal (-1) _ _ (parts n (S m)))) as P. eapply line_ext; [|eapply line_val; [exact P|]].
      * intros x. cbv beta. rewrite before_S. ring.
      * unfold hermite_value. cbn [Nat.eqb]. destruct (Nat.eqb_spec n m) as [->|_]; [rewrite hermite_norm_S|]; ring.
Qed.
(** x between two polynomials *)
Definition hermite_x_value (n m : nat) : R := if (n + 1 =? m)%nat then hermite_norm m / 2 else if (m + 1 =? n)%nat then hermite_norm n / 2 else 0.
Lemma hermite_x n m : line (fun x => hermite n x * x * hermite m x * weight x) (hermite_x_value n m).
Proof.
  destruct n as [|n].
  - pose proof (line_scal (/ 2) _ _ (hermite_orthogonal 1 m)) as P. eapply line_ext; [|eapply line_val; [exact P|]].
    + intros x. cbv beta. rewrite hermite_S. cbn [INR]. rewrite hermite_0. field.
    + unfold hermite_x_value, hermite_value. cbn [Nat.add]. destruct (Nat.eqb_spec 1 m) as [<-|_]; [field|]. destruct (Nat.eqb_spec (m + 1) 0); [lia|]. ring.
  - pose proof (line_plus _ _ _ _ (line_scal (/ 2) _ _ (hermite_orthogonal (S (S n)) m)) (line_scal (INR (S n)) _ _ (hermite_orthogonal n m))) as P.
    eapply line_ext; [|eapply line_val; [exact P|]].
    + intros x. cbv beta. rewrite hermite_SS. field.
    + unfold hermite_x_value, hermite_value. replace (S n + 1)%nat with (S (S n)) by lia. replace (m + 1)%nat with (S m) by lia.
      destruct (Nat.eqb_spec (S (S n)) m) as [<-|A]; [|destruct (Nat.eqb_spec n m) as [E|B]].
      * destruct (Nat.eqb_spec n (S (S n))); [lia|]. field.
      * subst m. rewrite Nat.eqb_refl. rewrite hermite_norm_S. field.
      * destruct (Nat.eqb_spec (S m) (S n)); [lia|]. ring.
Qed.
