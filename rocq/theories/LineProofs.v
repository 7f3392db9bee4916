(** The one-dimensional harmonic oscillator basis. *)
From Coq Require Import List Reals Lra Lia Arith Bool.
From Coquelicot Require Import Coquelicot.
From Verif Require Import Scalar ScalarC Py Numpy BasisSet Spec BasisSpec BasisFacts OneDim OneDimSpec OneDimProofs Hermite.
Import ListNotations.
Open Scope R_scope.

Ltac rr := match goal with |- @eq _ ?x ?y => change (@eq R x y) end; ring.
Section Oscillator.
  Variable omega : R.
  Hypothesis Hw : 0 < omega.
  Notation Nn := (normalization omega).
  Notation phi n := (fun x => ho_function omega x n).

  Definition levels (n : nat) : R := 2 ^ n * INR (fact n).
  Lemma levels_pos n : 0 < levels n.
  Proof. apply Rmult_lt_0_compat; [apply pow_lt; lra | apply INR_fact_lt_0]. Qed.
  Lemma levels_S n : levels (S n) = 2 * INR (S n) * levels n.
  Proof. unfold levels. rewrite fact_simpl, mult_INR. cbn [pow]. ring. Qed.
  Definition root4 : R := Rpower (omega / PI) (1 / 4).
  Lemma root4_sq : root4 * root4 = sqrt omega / sqrt PI.
  Proof.
    pose proof PI_RGT_0. unfold root4. rewrite <- Rpower_plus. replace (1 / 4 + 1 / 4) with (/ 2) by field. rewrite Rpower_sqrt by (apply Rdiv_lt_0_compat; lra).
    apply sqrt_div; lra.
  Qed.
  Lemma sqrt_PI_pos : 0 < sqrt PI.
  Proof. apply sqrt_lt_R0, PI_RGT_0. Qed.
  Lemma sqrt_w_pos : 0 < sqrt omega.
  Proof. apply sqrt_lt_R0, Hw. Qed.
  Lemma sqrt_w_sq : sqrt omega * sqrt omega = omega.
  Proof. apply sqrt_sqrt. lra. Qed.
  Lemma Nn_same n : Nn n * Nn n = sqrt omega / (levels n * sqrt PI).
  Proof.
    pose proof (levels_pos n) as P. pose proof (sqrt_lt_R0 _ P) as P'. pose proof sqrt_PI_pos. pose proof sqrt_sqrt (levels n) ltac:(lra) as E.
    unfold normalization. fold (levels n) root4. transitivity (/ (sqrt (levels n) * sqrt (levels n)) * (root4 * root4)); [field; lra|]. rewrite E, root4_sq. field. lra.
  Qed.
  Lemma Nn_next n : Nn n * Nn (n + 1) = sqrt omega / (levels n * sqrt (2 * INR (S n)) * sqrt PI).
  Proof.
    assert (Q : 0 < 2 * INR (S n)) by (pose proof (lt_0_INR (S n) ltac:(lia)); lra).
    pose proof (levels_pos n) as P. pose proof (sqrt_lt_R0 _ P) as P'. pose proof (sqrt_lt_R0 _ Q) as Q'. pose proof sqrt_PI_pos. pose proof sqrt_sqrt (levels n) ltac:(lra) as E.
    replace (n + 1)%nat with (S n) by lia. unfold normalization. fold (levels n) (levels (S n)) root4. rewrite levels_S, sqrt_mult by lra.
    transitivity (/ (sqrt (levels n) * sqrt (levels n) * sqrt (2 * INR (S n))) * (root4 * root4)); [field; lra|]. rewrite E, root4_sq. field. lra.
  Qed.
  Lemma coupling_right n : odho_coupling omega n = sqrt ((INR n + 1) / (2 * omega)).
  Proof.
    assert (Q : 0 < 2 * INR (S n)) by (pose proof (lt_0_INR (S n) ltac:(lia)); lra).
    pose proof (levels_pos n) as P. pose proof (sqrt_lt_R0 _ Q) as Q'. pose proof sqrt_PI_pos. pose proof sqrt_w_pos. pose proof (sqrt_sqrt (2 * INR (S n)) ltac:(lra)) as E.
    unfold odho_coupling. rewrite Nn_next. rewrite <- S_INR.
    transitivity (sqrt omega * INR (S n) / (sqrt (2 * INR (S n)) * omega)); [change (2 ^ n * INR (fact n)) with (levels n); unfold levels; field; unfold levels in P; pose proof (INR_fact_neq_0 n); pose proof (pow_nonzero 2 n ltac:(lra)); lra|].
    replace (INR (S n) / (2 * omega)) with ((2 * INR (S n)) / (2 * 2 * omega)) by (field; lra). rewrite sqrt_div by lra. rewrite (sqrt_mult (2 * 2) omega) by lra. rewrite sqrt_square by lra.
    set (q := sqrt (2 * INR (S n))) in *. replace (INR (S n)) with (q * q / 2) by lra. rewrite <- sqrt_w_sq at 2. field. lra.
  Qed.

  (** ** Integrals *)
  Lemma phi_product n m x : ho_function omega x n * ho_function omega x m = Nn n * Nn m * (hermite n (sqrt omega * x) * hermite m (sqrt omega * x) * weight (sqrt omega * x)).
  Proof.
    unfold ho_function, weight. replace (- (sqrt omega * x) ^ 2) with (- (1 / 2) * omega * x ^ 2 + - (1 / 2) * omega * x ^ 2) by (replace ((sqrt omega * x) ^ 2) with (sqrt omega * sqrt omega * x ^ 2) by ring; rewrite sqrt_w_sq; field). rewrite exp_plus. ring.
  Qed.
  Lemma phi_overlap n m : whole_line (fun x => ho_function omega x n * ho_function omega x m) (if (n =? m)%nat then 1 else 0).
  Proof.
    apply line_whole. pose proof (line_scal (Nn n * Nn m) _ _ (line_stretch _ _ _ sqrt_w_pos (hermite_orthogonal n m))) as P.
    eapply line_ext; [|eapply line_val; [exact P|]]; [intros x; cbv beta; rewrite phi_product; reflexivity|].
    unfold hermite_value. destruct (Nat.eqb_spec n m) as [<-|_]; [|field; pose proof sqrt_w_pos; lra].
    rewrite Nn_same. unfold hermite_norm. fold (levels n). pose proof (levels_pos n). pose proof sqrt_PI_pos. pose proof sqrt_w_pos. field. lra.
  Qed.
  Lemma phi_position n m : whole_line (fun x => ho_function omega x n * x * ho_function omega x m) (odho_dipole omega n m).
  Proof.
    apply line_whole. pose proof sqrt_w_pos as S1. pose proof (line_scal (Nn n * Nn m / sqrt omega) _ _ (line_stretch _ _ _ sqrt_w_pos (hermite_x n m))) as P.
    eapply line_ext; [|eapply line_val; [exact P|]].
    - intros x. cbv beta. transitivity ((ho_function omega x n * ho_function omega x m) * x); [rewrite phi_product; field; lra | ring].
    - assert (Z : forall a, a / sqrt omega * (0 / sqrt omega) = 0) by (intros; field; lra).
      assert (F : forall k, Nn k * Nn (k + 1) / sqrt omega * (hermite_norm (k + 1) / 2 / sqrt omega) = odho_coupling omega k).
      { intros k. unfold odho_coupling. replace (k + 1)%nat with (S k) by lia. rewrite hermite_norm_S. unfold hermite_norm. rewrite S_INR. transitivity (Nn k * Nn (S k) * (INR k + 1) * (2 ^ k * INR (fact k) * sqrt PI) / (sqrt omega * sqrt omega)); [field; lra|]. rewrite sqrt_w_sq. field. lra. }
      unfold hermite_x_value, odho_dipole. destruct (Nat.eqb_spec (n + 1) m) as [<-|_]; [apply F|]. destruct (Nat.eqb_spec (m + 1) n) as [<-|_]; [|apply Z].
      rewrite <- F. field. lra.
  Qed.
  (** ** Eigenfunctions *)
  Lemma phi_eigen n : line_hamiltonian (fun x => omega ^ 2 * x ^ 2 / 2) (phi n) (fun x => odho_energy omega n * ho_function omega x n).
  Proof.
    set (e := fun x : R => exp (- (1 / 2) * omega * x ^ 2)). set (s := sqrt omega).
    assert (De : forall x, is_derive e x (- omega * x * e x)) by (intros x; unfold e; auto_derive; [exact I|]; change (x * (x * 1)) with (x ^ 2); field).
    assert (DH : forall k (x : R), is_derive (fun x => hermite k (s * x)) x (s * (2 * INR k * hermite_before k (s * x)))).
    { intros k x. apply (is_derive_comp (hermite k) (fun x => s * x) x (2 * INR k * hermite_before k (s * x)) s); [apply hermite_derive|]. auto_derive; [exact I|rr]. }
    assert (DB : exists g, (forall x, is_derive (fun x => hermite_before n (s * x)) x (g x)) /\ forall x, INR n * g x = INR n * (2 * omega * x * hermite_before n (s * x) - s * hermite n (s * x))).
    { destruct n as [|n].
      - exists (fun _ => 0). split; [|intros; cbn; ring]. intros x. apply (is_derive_ext (fun _ => 0)); [reflexivity|]. apply (is_derive_const (V := R_NormedModule)).
      - exists (fun x => s * (2 * INR n * hermite_before n (s * x))). split.
        + intros x. apply (is_derive_ext (fun x => hermite n (s * x))); [intros t; rewrite before_S; reflexivity | apply DH].
        + intros x. rewrite before_S, hermite_S. rewrite <- sqrt_w_sq. fold s. ring. }
    destruct DB as (g & DB & G). set (c := Nn n).
    exists (fun x => c * (e x * (s * (2 * INR n * hermite_before n (s * x))) - omega * x * e x * hermite n (s * x))).
    exists (fun x => c * (- omega * x * e x * (s * (2 * INR n * hermite_before n (s * x))) + e x * (s * (2 * (INR n * g x))) - omega * (e x * hermite n (s * x) + x * (- omega * x * e x) * hermite n (s * x) + x * e x * (s * (2 * INR n * hermite_before n (s * x)))))).
    split; [|split].
    - intros x. apply (is_derive_ext (fun x => c * (e x * hermite n (s * x)))); [intros t; unfold ho_function, e, c, s; rr|]. evar_last.
      + apply (is_derive_scal (fun x => e x * hermite n (s * x))). apply (is_derive_mult e (fun x => hermite n (s * x))); [apply De | apply DH | intros; apply Rmult_comm].
      + unfold plus, mult. cbn. rr.
    - intros x. evar_last.
      + apply (is_derive_scal (fun x => e x * (s * (2 * INR n * hermite_before n (s * x))) - omega * x * e x * hermite n (s * x))).
        apply (is_derive_minus (fun x => e x * (s * (2 * INR n * hermite_before n (s * x)))) (fun x => omega * x * e x * hermite n (s * x))).
        * apply (is_derive_mult e (fun x => s * (2 * INR n * hermite_before n (s * x)))); [apply De | | intros; apply Rmult_comm].
          apply (is_derive_scal (fun x => 2 * INR n * hermite_before n (s * x))), (is_derive_scal (fun x => hermite_before n (s * x))), DB.
        * apply (is_derive_mult (fun x => omega * x * e x) (fun x => hermite n (s * x))); [| apply DH | intros; apply Rmult_comm].
          apply (is_derive_mult (fun x => omega * x) e); [apply (is_derive_scal (fun x => x)); apply (is_derive_id (K := R_AbsRing)) | apply De | intros; apply Rmult_comm].
      + unfold plus, mult, minus, opp, scal, one. cbn. unfold mult. cbn. rr.
    - intros x. rewrite G. unfold odho_energy, ho_function. fold c s. fold (e x). rewrite <- sqrt_w_sq. fold s. field.
  Qed.
End Oscillator.

(** ** The constructor *)
Section Construct.
  Variables (npm : nat) (spin anti : bool) (l : nat) (L : R) (N : nat) (omega a alpha beta : R).
  Notation odho := (odho npm spin anti l L N omega a alpha beta).
  Definition line_basis : basis CC :=
    let put f x b := set_arr f (Some x) b in
    put F_dip (arr3 1 l l Float64 (fun _ p q => RtoC (odho_dipole omega p q)))
    (put F_u (arr4 l Complex128 (orbital_integral (odho_spf L N omega) N (linspace L N) alpha a))
    (put F_spf (arr2 l N Float64 (odho_spf L N omega))
    (put F_s (eye l)
    (put F_h (diag l Complex128 (fun p => RtoC (odho_energy omega p)))
    (put F_grid (arr1 N Float64 (fun i => RtoC (linspace L N i)))
    (new_basis CC Base npm l 1 spin anti)))))).
  Lemma odho_ok : (2 <= N)%nat -> odho = (Ok tt, line_basis).
  Proof.
    intros H. unfold OneDim.odho, odho_init. erewrite bind_ok; [|reflexivity]. unfold odho_setup.
    destruct (Nat.ltb_spec N 2) as [?|_]; [lia|]. erewrite bind_ok; [|reflexivity].
    erewrite bind_ok; [|apply (set_sq_ok CC); apply (check_axes2 CC); reflexivity].
    erewrite bind_ok; [|apply (set_sq_ok CC); apply (check_axes2 CC); reflexivity].
    erewrite bind_ok; [|apply (set_orbitals_ok CC) with (g := [N]); reflexivity].
    erewrite bind_ok; [|apply (set_sq_ok CC); apply (check_axes4 CC); reflexivity].
    rewrite (set_dipole_ok CC) by reflexivity. reflexivity.
  Qed.
  Lemma odho_result b : odho = (Ok tt, b) -> b = line_basis /\ (2 <= N)%nat.
  Proof.
    intros E. destruct (le_lt_dec 2 N) as [H|H].
    - rewrite odho_ok in E by exact H. injection E as <-. auto.
    - exfalso. revert E. unfold OneDim.odho, odho_init. erewrite bind_ok; [|reflexivity]. unfold odho_setup. destruct (Nat.ltb_spec N 2) as [_|?]; [|lia].
      erewrite bind_err; [|reflexivity]. discriminate.
  Qed.
  Lemma line_ready : ready line_basis l.
  Proof.
    split; try (cbn; eauto; fail).
    - intros x E. injection E as <-. reflexivity.
    - intros x E. injection E as <-. cbn. auto.
    - intros x E. injection E as <-. exists [N]. auto.
    - intros x E. discriminate E.
    - intros f x [<-|[<-|[<-|[<-|[]]]]] E; discriminate E.
    - intros x E. discriminate E.
  Qed.
End Construct.

(** ** What the constructor returns *)
Section Returned.
  Variables (npm : nat) (spin anti : bool) (l : nat) (L : R) (N : nat) (omega a alpha beta : R) (b : basis CC).
  Hypothesis Hb : odho npm spin anti l L N omega a alpha beta = (Ok tt, b).
  Lemma line_two_body : exists u, b_arr b F_u = Some u /\ shape u = [l; l; l; l] /\ particle_sym l (ten u) /\ hermitian2 l (ten u).
  Proof.
    destruct (odho_result _ _ _ _ _ _ _ _ _ _ _ Hb) as (-> & _). eexists. split; [reflexivity|]. split; [reflexivity|].
    split; [apply u_particle_sym | apply u_hermitian].
  Qed.
  Lemma line_is_ready : ready b l.
  Proof. destruct (odho_result _ _ _ _ _ _ _ _ _ _ _ Hb) as (-> & _). apply line_ready. Qed.
  Lemma line_h : exists h, b_arr b F_h = Some h /\ shape h = [l; l] /\
    forall p q, mat h p q = if (p =? q)%nat then RtoC (omega * (INR p + 1 / 2)) else RtoC 0.
  Proof. destruct (odho_result _ _ _ _ _ _ _ _ _ _ _ Hb) as (-> & _). eexists. split; [reflexivity|]. split; reflexivity. Qed.
  Lemma line_dipole : 0 < omega -> exists d, b_arr b F_dip = Some d /\ shape d = [1; l; l]%nat /\
    forall p q, get d [0; p; q]%nat = RtoC (if (p + 1 =? q)%nat then sqrt ((INR p + 1) / (2 * omega)) else if (q + 1 =? p)%nat then sqrt ((INR q + 1) / (2 * omega)) else 0).
  Proof.
    intros Hw. destruct (odho_result _ _ _ _ _ _ _ _ _ _ _ Hb) as (-> & _). eexists. split; [reflexivity|]. split; [reflexivity|].
    intros p q. rewrite <- !coupling_right by exact Hw. reflexivity.
  Qed.
  Lemma line_functions : 0 < omega -> exists spf h s d f, b_arr b F_spf = Some spf /\ b_arr b F_h = Some h /\ b_arr b F_s = Some s /\ b_arr b F_dip = Some d /\
    (forall p i, get spf [p; i] = RtoC (f p (point L N i))) /\
    (forall p q, exists o, whole_line (fun x => f p x * f q x) o /\ mat s p q = RtoC o) /\
    (forall p q, exists o, whole_line (fun x => f p x * x * f q x) o /\ get d [0; p; q]%nat = RtoC o) /\
    (forall p, exists e, line_hamiltonian (fun x => omega ^ 2 * x ^ 2 / 2) (f p) (fun x => e * f p x) /\ mat h p p = RtoC e) /\
    forall p q, p <> q -> mat h p q = RtoC 0 /\ mat s p q = RtoC 0.
  Proof.
    intros Hw. destruct (odho_result _ _ _ _ _ _ _ _ _ _ _ Hb) as (-> & _).
    eexists; eexists; eexists; eexists. exists (fun p x => ho_function omega x p). split; [reflexivity|]. split; [reflexivity|]. split; [reflexivity|]. split; [reflexivity|].
    split; [intros p i; unfold arr2, odho_spf; cbn [get]; f_equal; f_equal; unfold linspace, point, Rdiv; ring|].
    split; [intros p q; eexists; split; [apply phi_overlap, Hw|]; cbn [mat eye get]; destruct (p =? q)%nat; reflexivity|].
    split; [intros p q; eexists; split; [apply phi_position, Hw | reflexivity]|].
    split; [intros p; eexists; split; [apply phi_eigen, Hw|]; cbn [mat diag arr2 get]; rewrite Nat.eqb_refl; reflexivity|].
    intros p q H. cbn [mat diag arr2 get eye]. destruct (Nat.eqb_spec p q); [contradiction|]. split; reflexivity.
  Qed.
  (** beta is without effect *)
  Lemma beta_ignored beta' : odho npm spin anti l L N omega a alpha beta' = (Ok tt, b).
  Proof. exact Hb. Qed.
End Returned.
Lemma line_unique f u v : whole_line f u -> whole_line f v -> u = v.
Proof.
  intros U V. unfold whole_line in *. transitivity (RInt_gen f (Rbar_locally m_infty) (Rbar_locally p_infty)); [symmetry|]; apply (is_RInt_gen_unique (V := R_CompleteNormedModule)); assumption.
Qed.
(** The mean square of the position in the ground state is not 0 *)
Lemma square_mean omega : 0 < omega -> whole_line (fun x => ho_function omega x 0 * x ^ 2 * ho_function omega x 0) (/ (2 * omega)).
Proof.
  intros Hw. apply line_whole. pose proof (sqrt_w_pos omega Hw) as S1.
  pose proof (line_scal (/ 2) _ _ (hermite_x 0 1)) as P1.
  pose proof (line_scal (normalization omega 0 * normalization omega 0 / (sqrt omega * sqrt omega)) _ _ (line_stretch _ _ _ S1 P1)) as P.
  eapply line_ext; [|eapply line_val; [exact P|]].
  - intros x. cbv beta. transitivity ((ho_function omega x 0 * ho_function omega x 0) * x ^ 2); [|ring]. rewrite phi_product by exact Hw. rewrite hermite_S, hermite_0. cbn [INR]. field. lra.
  - rewrite Nn_same by exact Hw. unfold hermite_x_value. cbn [Nat.add Nat.eqb]. unfold hermite_norm, levels. cbn [pow fact]. pose proof sqrt_PI_pos.
    change (INR (1 * 1)) with 1. change (INR 1) with 1. transitivity (/ (2 * (sqrt omega * sqrt omega))); [cbn; field; lra|]. rewrite sqrt_sqrt by lra. reflexivity.
Qed.
(** The dipole elements of a basis with strength beta, had they the quadratic term *)
Lemma beta_matters omega beta : 0 < omega -> beta <> 0 -> ~ whole_line (fun x => ho_function omega x 0 * (x + beta * x ^ 2) * ho_function omega x 0) 0.
Proof.
  intros Hw Hb H. pose proof (phi_position omega Hw 0 0) as P. pose proof (square_mean omega Hw) as Q.
  assert (R1 : whole_line (fun x => ho_function omega x 0 * (x + beta * x ^ 2) * ho_function omega x 0) (odho_dipole omega 0 0 + beta * / (2 * omega))).
  { unfold whole_line in *. pose proof (is_RInt_gen_scal (V := R_NormedModule) (Fa := Rbar_locally m_infty) (Fb := Rbar_locally p_infty) _ beta _ Q) as Q'.
    pose proof (is_RInt_gen_plus (V := R_NormedModule) (Fa := Rbar_locally m_infty) (Fb := Rbar_locally p_infty) _ _ _ _ P Q') as PQ.
    refine (is_RInt_gen_ext _ _ _ _ PQ). apply filter_forall. intros [s t] x _. unfold plus, scal. cbn. unfold mult. cbn. rr. }
  pose proof (line_unique _ _ _ H R1) as E. unfold odho_dipole in E. cbn in E. apply Hb. apply Rmult_eq_reg_r with (/ (2 * omega)); [lra|]. apply Rinv_neq_0_compat. lra.
Qed.
Lemma odho_lacks_beta : ~ (forall npm spin anti l L N omega a alpha beta b,
  odho npm spin anti l L N omega a alpha beta = (Ok tt, b) -> 0 < omega -> (0 < l)%nat ->
  exists d o, b_arr b F_dip = Some d /\ get d [0; 0; 0]%nat = RtoC o /\
    whole_line (fun x => ho_function omega x 0 * (x + beta * x ^ 2) * ho_function omega x 0) o).
Proof.
  intros H. destruct (H 0%nat false false 1%nat 1 2%nat 1 1 1 1 _ (odho_ok 0 false false 1 1 2 1 1 1 1 (le_n 2)) ltac:(lra) ltac:(lia)) as (d & o & E & G & W).
  injection E as <-. cbn [get arr3] in G. unfold odho_dipole in G. cbn in G. apply RtoC_inj in G. subst o. exact (beta_matters 1 1 ltac:(lra) ltac:(lra) W).
Qed.
