(** Sinc-DVR: the cardinal functions, and what the constructor stores. *)
From Coq Require Import List Arith ZArith Reals Lra Lia Bool.
From Coquelicot Require Import Coquelicot.
From Verif Require Import Scalar ScalarC Py Numpy BasisSet Spec BasisSpec BasisFacts ConvProofs OneDim OneDimSpec OneDimProofs DotProofs SincDvr SincSpec DvrSpec.
Import ListNotations.
Open Scope R_scope.

Ltac rr := match goal with |- @eq _ ?a ?b => change (@eq R a b) end.

(** ** The cardinal function *)
Definition card1 (y : R) : R := RInt (fun t => - (PI * t) * sin (PI * y * t)) 0 1.
Definition card2 (y : R) : R := RInt (fun t => - (PI * t) ^ 2 * cos (PI * y * t)) 0 1.

Lemma lin_2d (y t : R) : continuity_2d_pt (fun u v => PI * u * v) y t.
Proof.
  apply continuity_2d_pt_mult; [|apply continuity_2d_pt_id2].
  apply continuity_2d_pt_mult; [apply continuity_2d_pt_const | apply continuity_2d_pt_id1].
Qed.
Lemma cos_1 (y t : R) : is_derive (fun u => cos (PI * u * t)) y (- (PI * t) * sin (PI * y * t)).
Proof. auto_derive; [trivial|]. ring. Qed.
Lemma sin_1 (y t : R) : is_derive (fun u => - (PI * t) * sin (PI * u * t)) y (- (PI * t) ^ 2 * cos (PI * y * t)).
Proof. auto_derive; [trivial|]. ring. Qed.
Lemma card_derive (y : R) : is_derive cardinal y (card1 y).
Proof.
  assert (H : is_derive cardinal y (RInt (fun t => Derive (fun u => cos (PI * u * t)) y) 0 1)).
  { apply (is_derive_RInt_param (fun u t => cos (PI * u * t)) 0 1 y).
    - exists (mkposreal 1 Rlt_0_1). intros z _ t _. eexists. apply cos_1.
    - intros t _. apply (continuity_2d_pt_ext (fun u v => - (PI * v) * sin (PI * u * v))).
      + intros u v. symmetry. apply is_derive_unique, cos_1.
      + apply continuity_2d_pt_mult.
        * apply continuity_2d_pt_opp, continuity_2d_pt_mult; [apply continuity_2d_pt_const | apply continuity_2d_pt_id2].
        * apply (continuity_1d_2d_pt_comp sin); [apply derivable_continuous_pt, derivable_pt_sin | apply lin_2d].
    - exists (mkposreal 1 Rlt_0_1). intros z _. apply (ex_RInt_continuous (V := R_CompleteNormedModule)). intros t _.
      apply (ex_derive_continuous (fun t => cos (PI * z * t))). auto_derive. trivial. }
  unfold card1. rewrite <- (RInt_ext (fun t => Derive (fun u => cos (PI * u * t)) y)); [exact H|].
  intros t _. apply is_derive_unique, cos_1.
Qed.
Lemma card1_derive (y : R) : is_derive card1 y (card2 y).
Proof.
  assert (H : is_derive card1 y (RInt (fun t => Derive (fun u => - (PI * t) * sin (PI * u * t)) y) 0 1)).
  { apply (is_derive_RInt_param (fun u t => - (PI * t) * sin (PI * u * t)) 0 1 y).
    - exists (mkposreal 1 Rlt_0_1). intros z _ t _. eexists. apply sin_1.
    - intros t _. apply (continuity_2d_pt_ext (fun u v => - ((PI * v) * (PI * v)) * cos (PI * u * v))).
      + intros u v. symmetry. apply is_derive_unique. replace (- (PI * v * (PI * v))) with (- (PI * v) ^ 2) by ring. apply sin_1.
      + apply continuity_2d_pt_mult.
        * apply continuity_2d_pt_opp, continuity_2d_pt_mult; (apply continuity_2d_pt_mult; [apply continuity_2d_pt_const | apply continuity_2d_pt_id2]).
        * apply (continuity_1d_2d_pt_comp cos); [apply derivable_continuous_pt, derivable_pt_cos | apply lin_2d].
    - exists (mkposreal 1 Rlt_0_1). intros z _. apply (ex_RInt_continuous (V := R_CompleteNormedModule)). intros t _.
      apply (ex_derive_continuous (fun t => - (PI * t) * sin (PI * z * t))). auto_derive. trivial. }
  unfold card2. rewrite <- (RInt_ext (fun t => Derive (fun u => - (PI * t) * sin (PI * u * t)) y)); [exact H|].
  intros t _. apply is_derive_unique, sin_1.
Qed.
Lemma ftc (F f : R -> R) a b : (forall t, is_derive F t (f t)) -> (forall t, ex_derive f t) -> RInt f a b = F b - F a.
Proof.
  intros HF Hf. apply (is_RInt_unique (V := R_CompleteNormedModule)). apply (is_RInt_derive F).
  - intros t _. apply HF.
  - intros t _. apply (ex_derive_continuous f), Hf.
Qed.
Lemma cardinal_value (y : R) : cardinal y = np_sinc y.
Proof.
  unfold cardinal, np_sinc. pose proof PI_RGT_0 as Hpi. destruct (Req_EM_T y 0) as [->|Hy].
  - rewrite (RInt_ext _ (fun _ => 1)).
    + rewrite (RInt_const (V := R_CompleteNormedModule)). rr. change ((1 - 0) * 1 = 1). ring.
    + intros t _. rr. replace (PI * 0 * t) with 0 by ring. apply cos_0.
  - assert (P : PI * y <> 0) by (apply Rmult_integral_contrapositive; lra).
    rewrite (ftc (fun t => sin (PI * y * t) / (PI * y))).
    + replace (PI * y * 1) with (PI * y) by ring. replace (PI * y * 0) with 0 by ring. rewrite sin_0. field. lra.
    + intros t. auto_derive; [trivial|]. field. lra.
    + intros t. auto_derive. trivial.
Qed.
Lemma sin_int (n : Z) : sin (PI * IZR n) = 0.
Proof. apply sin_eq_0_1. exists n. ring. Qed.
Lemma cos_int_nat (n : nat) : cos (PI * INR n) = (-1) ^ n.
Proof.
  induction n as [|n IH]; [cbn; rewrite Rmult_0_r; apply cos_0|].
  rewrite S_INR. replace (PI * (INR n + 1)) with (PI * INR n + PI) by ring. rewrite neg_cos, IH. cbn. ring.
Qed.
Lemma cos_int (n : Z) : cos (PI * IZR n) = powerRZ (-1) n.
Proof.
  destruct n as [|p|p]; cbn [powerRZ].
  - rewrite Rmult_0_r. apply cos_0.
  - rewrite <- cos_int_nat, INR_IZR_INZ, positive_nat_Z. reflexivity.
  - replace (PI * IZR (Z.neg p)) with (- (PI * IZR (Z.pos p))) by (change (Z.neg p) with (- Z.pos p)%Z; rewrite opp_IZR; ring).
    rewrite cos_neg. replace (IZR (Z.pos p)) with (INR (Pos.to_nat p)) by (rewrite INR_IZR_INZ, positive_nat_Z; reflexivity).
    rewrite cos_int_nat. generalize (Pos.to_nat p). intros k. induction k as [|k IH]; cbn [pow]; [field|].
    rewrite IH at 1. field. apply pow_nonzero. lra.
Qed.
Lemma sinc_int (n : Z) : np_sinc (IZR n) = if Z.eq_dec n 0 then 1 else 0.
Proof.
  unfold np_sinc. destruct (Req_EM_T (IZR n) 0) as [H|H]; destruct (Z.eq_dec n 0) as [E|E]; try reflexivity.
  - apply eq_IZR in H. contradiction.
  - subst. exfalso. apply H. reflexivity.
  - rewrite sin_int. unfold Rdiv. ring.
Qed.
Lemma card2_int (n : Z) : card2 (IZR n) = if Z.eq_dec n 0 then - PI ^ 2 / 3 else -2 * powerRZ (-1) n / IZR n ^ 2.
Proof.
  unfold card2. pose proof PI_RGT_0 as Hpi. destruct (Z.eq_dec n 0) as [->|Hn].
  - rewrite (RInt_ext _ (fun t => - PI ^ 2 * t ^ 2)).
    + rewrite (ftc (fun t => - PI ^ 2 * t ^ 3 / 3)); [field | |]; intros t; auto_derive; trivial. field.
    + intros t _. rr. replace (PI * 0 * t) with 0 by ring. rewrite cos_0. ring.
  - assert (H : IZR n <> 0) by (intros E; apply eq_IZR in E; contradiction).
    assert (P : PI * IZR n <> 0) by (apply Rmult_integral_contrapositive; lra).
    set (y := IZR n) in *.
    rewrite (ftc (fun t => - PI ^ 2 * (t ^ 2 * sin (PI * y * t) / (PI * y) + 2 * t * cos (PI * y * t) / (PI * y) ^ 2 - 2 * sin (PI * y * t) / (PI * y) ^ 3))).
    + replace (PI * y * 1) with (PI * y) by ring. replace (PI * y * 0) with 0 by ring. unfold y. rewrite sin_int, cos_int, sin_0. fold y. field. lra.
    + intros t. auto_derive; [trivial|]. field. lra.
    + intros t. auto_derive. trivial.
Qed.

(** ** What the constructor stores *)
Section Dvr.
  Variables (npm : nat) (spin anti : bool) (l : nat) (L a alpha beta : R) (V : R -> R) (repr : urepr).
  Notation x := (linspace L l).
  Notation dx := (x 1%nat - x 0%nat).
  Notation dvr := (odsincdvr npm spin anti l L a alpha beta V repr).
  Definition dvr_stored (f : field) : option carr :=
    match f with
    | F_grid => Some (arr1 l Float64 (fun i => RtoC (x i)))
    | F_h => Some (arr2 l l Complex128 (fun i j => RtoC (dvr_h l L V i j)))
    | F_s => Some (astype Complex128 (eye l))
    | F_spf => Some (arr2 l l Complex128 (fun i j => RtoC (dvr_spf l L i j)))
    | F_bra => Some (astype Complex128 (aconj (arr2 l l Float64 (fun i j => RtoC (dvr_spf l L i j)))))
    | F_u => Some (astype Complex128 (dvr_coulomb l L a alpha repr))
    | F_dip => Some (astype Complex128 (dvr_dipole l L beta))
    | _ => None
    end.
  Record dvr_object (b : basis CC) : Prop := DvrObject {
    do_cls : b_cls b = SincDVR; do_np : b_np b = Some npm; do_l : b_l b = l; do_dim : b_dim b = 1%nat;
    do_spin : b_spin b = spin; do_asym : b_asym b = anti; do_arr : forall f, b_arr b f = dvr_stored f; do_nuc : b_nuc b = RtoC 0 }.
  Lemma dvr_ok : repr <> Uunknown -> (2 <= l)%nat -> exists b, dvr = (Ok tt, b) /\ dvr_object b.
  Proof.
    intros Hr Hl. unfold odsincdvr, dvr_init.
    erewrite bind_ok; [|destruct repr; [reflexivity | reflexivity | congruence]].
    erewrite bind_ok; [|reflexivity]. unfold dvr_setup.
    destruct (Nat.ltb_spec l 2) as [?|_]; [lia|]. erewrite bind_ok; [|reflexivity].
    erewrite bind_ok; [|apply (set_sq_ok CC); apply (check_axes2 CC); reflexivity].
    erewrite bind_ok; [|apply (set_sq_ok CC); apply (check_axes2 CC); reflexivity].
    erewrite bind_ok; [|apply (set_orbitals_ok CC) with (g := [l]); reflexivity].
    erewrite bind_ok; [|apply (set_sq_ok CC); unfold dvr_coulomb; destruct repr; [apply (check_axes2 CC); reflexivity | apply (check_axes4 CC); reflexivity | congruence]].
    erewrite bind_ok; [|apply (set_dipole_ok CC); reflexivity].
    match goal with |- exists b, cast_to_complex ?b0 = _ /\ _ => destruct (cast_to_complex_spec CC b0) as (b & E & (T1 & T2 & T3 & T4 & T5 & T6 & T7) & A); [discriminate|] end.
    exists b. split; [exact E|]. constructor; try assumption.
    intros f. rewrite A. destruct f; reflexivity.
  Qed.
  Lemma dvr_bad_repr : repr = Uunknown -> exists b, dvr = (Err ValueError, b).
  Proof. intros ->. eexists. unfold odsincdvr, dvr_init. erewrite bind_err; [|reflexivity]. reflexivity. Qed.
  Lemma dvr_small : repr <> Uunknown -> (l < 2)%nat -> exists b, dvr = (Err IndexError, b).
  Proof.
    intros Hr Hl. eexists. unfold odsincdvr, dvr_init.
    erewrite bind_ok; [|destruct repr; [reflexivity | reflexivity | congruence]].
    erewrite bind_ok; [|reflexivity]. unfold dvr_setup.
    destruct (Nat.ltb_spec l 2) as [_|?]; [|lia]. erewrite bind_err; [|reflexivity]. reflexivity.
  Qed.
  Lemma dvr_result b : dvr = (Ok tt, b) -> dvr_object b /\ repr <> Uunknown /\ (2 <= l)%nat.
  Proof.
    intros E. assert (Hr : repr <> Uunknown) by (intros H; destruct (dvr_bad_repr H) as (b' & E'); rewrite E' in E; discriminate E).
    destruct (le_lt_dec 2 l) as [Hl|Hl].
    - destruct (dvr_ok Hr Hl) as (b' & E' & O). rewrite E' in E. injection E as <-. auto.
    - destruct (dvr_small Hr Hl) as (b' & E'). rewrite E' in E. discriminate E.
  Qed.
  Lemma repr_dec : repr = Uunknown \/ repr <> Uunknown.
  Proof. case repr; [right | right | left]; congruence. Qed.
  Lemma dvr_raises_iff : (exists e b, dvr = (Err e, b)) <-> repr = Uunknown \/ (l < 2)%nat.
  Proof.
    split.
    - intros (e & b & E). destruct (le_lt_dec 2 l) as [Hl|Hl]; [|auto]. left. destruct repr_dec as [H|H]; [exact H|].
      destruct (dvr_ok H Hl) as (b' & E' & _). rewrite E' in E. discriminate E.
    - intros H. destruct repr_dec as [Hr|Hr].
      + destruct (dvr_bad_repr Hr) as (b & E). eauto.
      + destruct H as [H|H]; [congruence|]. destruct (dvr_small Hr H) as (b & E). eauto.
  Qed.

  Section Built.
    Variable b : basis CC.
    Hypothesis Hb : dvr = (Ok tt, b).

    Lemma dvr_shapes u : shape u = [l; l; l; l] -> ready (set_arr F_u (Some u) b) l.
    Proof.
      intros Su. destruct (dvr_result b Hb) as ([O1 O2 O3 O4 O5 O6 A _] & _ & _).
      constructor; cbn [set_arr b_np b_l b_dim b_spin b_arr]; rewrite ?upd_same, ?upd_other by discriminate; try rewrite A; cbn [dvr_stored].
      - eauto.
      - exact O3.
      - eexists. split; reflexivity.
      - eauto.
      - intros y E. injection E as <-. reflexivity.
      - intros y E. injection E as <-. rewrite O4. cbn. auto.
      - intros y E. injection E as <-. rewrite O4. exists [l]. auto.
      - intros y E. injection E as <-. rewrite O4. exists [l]. auto.
      - intros f y Hf. cbn in Hf. destruct_or Hf; subst f; rewrite upd_other by discriminate; rewrite A; discriminate.
      - discriminate.
    Qed.
    Lemma dvr_full_ready : repr = U4d -> ready b l.
    Proof.
      intros Hr. destruct (dvr_result b Hb) as ([_ _ _ _ _ _ A _] & _ & _).
      assert (Eu : b_arr b F_u = Some (astype Complex128 (dvr_coulomb l L a alpha U4d))) by (rewrite A; cbn [dvr_stored]; rewrite Hr; reflexivity).
      destruct (dvr_shapes _ (eq_refl : shape (astype Complex128 (dvr_coulomb l L a alpha U4d)) = _)) as [R1 R2 R3 _ R5 R6 R7 R8 R9 R10].
      constructor; try assumption.
      - eexists. rewrite Eu. split; reflexivity.
      - intros f y Hf. cbn in Hf. destruct_or Hf; subst f; rewrite A; discriminate.
    Qed.
    Lemma dvr_compact : repr = U2d -> compact b l.
    Proof.
      intros Hr. destruct (dvr_result b Hb) as ([O1 _ _ _ _ _ A _] & _ & _).
      assert (Eu : b_arr b F_u = Some (astype Complex128 (dvr_coulomb l L a alpha U2d))) by (rewrite A; cbn [dvr_stored]; rewrite Hr; reflexivity).
      constructor.
      - exact O1.
      - eexists. rewrite Eu. split; reflexivity.
      - unfold widened. rewrite Eu.
        destruct (dvr_shapes (spread_arr l (astype Complex128 (dvr_coulomb l L a alpha U2d))) eq_refl) as [R1 R2 R3 R4 R5 R6 R7 R8 R9 R10].
        constructor; assumption.
      - rewrite A. reflexivity.
    Qed.

    Hypothesis HL : 0 < L.
    Lemma dx_pos : 0 < dx.
    Proof. destruct (dvr_result b Hb) as (_ & _ & Hl). rewrite (linspace_step L l 0). apply Rdiv_lt_0_compat; [lra|]. apply lt_0_INR. lia. Qed.
    Lemma x_diff i j : (x j - x i) / dx = IZR (diff_grid j i).
    Proof.
      pose proof dx_pos as P. rewrite (linspace_step L l 0) in *. unfold linspace, diff_grid. rewrite minus_IZR, <- !INR_IZR_INZ.
      set (d := 2 * L / INR (l - 1)) in *. field. lra.
    Qed.
    Lemma spf_value i j : dvr_spf l L i j = if (i =? j)%nat then / sqrt dx else 0.
    Proof.
      unfold dvr_spf. rewrite x_diff, sinc_int. pose proof (sqrt_lt_R0 _ dx_pos) as P.
      destruct (Z.eq_dec (diff_grid j i) 0) as [E|E]; destruct (Nat.eqb_spec i j) as [H|H].
      - field. lra.
      - unfold diff_grid in E. exfalso. lia.
      - subst. unfold diff_grid in E. exfalso. lia.
      - ring.
    Qed.
    Lemma h_sym i j : dvr_h l L V i j = dvr_h l L V j i.
    Proof.
      unfold dvr_h. rewrite (Nat.eqb_sym j i). destruct (Nat.eqb_spec i j) as [->|H]; [reflexivity|].
      assert (E : diff_grid i j = (- diff_grid j i)%Z) by (unfold diff_grid; lia). rewrite E.
      rewrite opp_IZR, <- (cos_int (- diff_grid j i)), <- cos_int, opp_IZR.
      replace (PI * - IZR (diff_grid j i)) with (- (PI * IZR (diff_grid j i))) by ring. rewrite cos_neg.
      f_equal. ring.
    Qed.
    Lemma h_card2 i j : dvr_h l L V i j = - card2 (IZR (diff_grid i j)) / dx ^ 2 / 2 + (if (i =? j)%nat then V (x i) else 0).
    Proof.
      pose proof dx_pos as P. unfold dvr_h. rewrite card2_int.
      destruct (Nat.eqb_spec i j) as [->|H]; destruct (Z.eq_dec (diff_grid _ _) 0) as [E|E].
      - field. lra.
      - unfold diff_grid in E. exfalso. lia.
      - unfold diff_grid in E. exfalso. lia.
      - assert (IZR (diff_grid i j) <> 0) by (intros E'; apply eq_IZR in E'; contradiction). field. lra.
    Qed.
    (** Derivatives of the basis functions *)
    Lemma cardinal_function_derive c y : is_derive (cardinal_function dx c) y (card1 ((y - c) / dx) / dx / sqrt dx).
    Proof.
      pose proof dx_pos as P. pose proof (sqrt_lt_R0 _ P) as Q. set (d := dx) in *. unfold cardinal_function.
      assert (D : is_derive (fun z => (z - c) / d) y (/ d)) by (auto_derive; [trivial | field; lra]).
      pose proof (is_derive_comp cardinal (fun z => (z - c) / d) y _ _ (card_derive ((y - c) / d)) D) as E.
      apply (is_derive_ext (fun z => scal (/ sqrt d) (cardinal ((z - c) / d)))); [intros z; unfold Rdiv; apply Rmult_comm|].
      replace (card1 ((y - c) / d) / d / sqrt d) with (scal (/ sqrt d) (scal (/ d) (card1 ((y - c) / d)))).
      - apply (is_derive_scal (fun z => cardinal ((z - c) / d)) y (/ sqrt d)). exact E.
      - unfold scal; cbn; unfold mult; cbn. field. lra.
    Qed.
    Lemma cardinal_function_derive2 c y : is_derive (fun y => card1 ((y - c) / dx) / dx / sqrt dx) y (card2 ((y - c) / dx) / dx ^ 2 / sqrt dx).
    Proof.
      pose proof dx_pos as P. pose proof (sqrt_lt_R0 _ P) as Q. set (d := dx) in *.
      assert (D : is_derive (fun z => (z - c) / d) y (/ d)) by (auto_derive; [trivial | field; lra]).
      pose proof (is_derive_comp card1 (fun z => (z - c) / d) y _ _ (card1_derive ((y - c) / d)) D) as E.
      apply (is_derive_ext (fun z => scal (/ d / sqrt d) (card1 ((z - c) / d)))); [intros z; unfold scal; cbn; unfold mult; cbn; field; lra|].
      replace (card2 ((y - c) / d) / d ^ 2 / sqrt d) with (scal (/ d / sqrt d) (scal (/ d) (card2 ((y - c) / d)))).
      - apply (is_derive_scal (fun z => card1 ((z - c) / d)) y (/ d / sqrt d)). exact E.
      - unfold scal; cbn; unfold mult; cbn. field. lra.
    Qed.
    Lemma point_grid i : point L l i = x i.
    Proof. unfold point, linspace. unfold Rdiv. ring. Qed.
    Lemma spacing_dx : spacing L l = dx.
    Proof. unfold spacing. rewrite (linspace_step L l 0). reflexivity. Qed.

    Lemma dvr_one_body :
      exists h s d spf, b_arr b F_h = Some h /\ b_arr b F_s = Some s /\ b_arr b F_dip = Some d /\ b_arr b F_spf = Some spf /\
        shape h = [l; l] /\ shape s = [l; l] /\ shape d = [1; l; l]%nat /\ shape spf = [l; l] /\
        hermitian l (mat h) /\ (forall p q, (p < l)%nat -> (q < l)%nat -> mat s p q = kronecker p q) /\
        (forall p q, (p < l)%nat -> (q < l)%nat -> get d [0; p; q]%nat = (kronecker p q * RtoC (point L l p + beta * point L l p ^ 2))%C) /\
        (forall p i, (p < l)%nat -> (i < l)%nat -> get spf [p; i] = (kronecker p i * RtoC (/ sqrt (spacing L l)))%C).
    Proof.
      destruct (dvr_result b Hb) as ([_ _ _ _ _ _ A _] & _ & _).
      do 4 eexists. rewrite !A. do 4 (split; [reflexivity|]). do 4 (split; [reflexivity|]).
      split; [|split; [|split]].
      - intros p q Hp Hq. cbn [mat get arr2]. rewrite h_sym. symmetry. apply RtoC_conj.
      - intros p q Hp Hq. reflexivity.
      - intros p q Hp Hq. cbn [get dvr_dipole arr3 astype]. rewrite point_grid. unfold kronecker. destruct (p =? q)%nat; cr.
      - intros p i Hp Hi. cbn [get arr2]. rewrite spf_value, spacing_dx. unfold kronecker. destruct (p =? i)%nat; cr.
    Qed.
    Lemma dvr_two_body :
      exists u, b_arr b F_u = Some u /\
      let v p q := RtoC (alpha / sqrt ((point L l p - point L l q) ^ 2 + a ^ 2)) in
      (forall p q, v p q = v q p) /\
      match repr with
      | U2d => shape u = [l; l] /\ forall p q, (p < l)%nat -> (q < l)%nat -> mat u p q = v p q
      | _ => shape u = [l; l; l; l] /\ forall p q r s, (p < l)%nat -> (q < l)%nat -> (r < l)%nat -> (s < l)%nat ->
               ten u p q r s = (kronecker p r * kronecker q s * v p q)%C
      end.
    Proof.
      destruct (dvr_result b Hb) as ([_ _ _ _ _ _ A _] & Hr & _).
      eexists. rewrite A. split; [reflexivity|]. cbv zeta. split.
      { intros p q. do 4 f_equal. ring. }
      unfold dvr_coulomb. destruct repr; [| |congruence].
      - split; [reflexivity|]. intros p q _ _. rewrite !point_grid. reflexivity.
      - split; [reflexivity|]. intros p q r s _ _ _ _. rewrite !point_grid. cbn [ten get arr4 astype]. unfold kronecker.
        destruct (p =? r)%nat, (q =? s)%nat; cbn [andb]; unfold dvr_data, shielded_coulomb; cr.
    Qed.
    (** The matrix h represents the Hamiltonian by collocation. *)
    Lemma dvr_collocation :
      exists h spf, b_arr b F_h = Some h /\ b_arr b F_spf = Some spf /\
      let f p := cardinal_function (spacing L l) (point L l p) in
      (forall p i, (p < l)%nat -> (i < l)%nat -> get spf [p; i] = RtoC (f p (point L l i))) /\
      forall p, (p < l)%nat -> exists g, line_hamiltonian V (f p) g /\
        forall i, (i < l)%nat -> RtoC (g (point L l i)) = csum l (fun j => (mat h i j * get spf [p; j])%C).
    Proof.
      destruct (dvr_result b Hb) as ([_ _ _ _ _ _ A _] & Hr & _). pose proof dx_pos as P. pose proof (sqrt_lt_R0 _ P) as Q.
      do 2 eexists. rewrite !A. do 2 (split; [reflexivity|]). cbv zeta. split.
      - intros p i Hp Hi. cbn [get arr2]. rewrite !point_grid, spacing_dx. unfold cardinal_function, dvr_spf.
        rewrite cardinal_value. f_equal. field. lra.
      - intros p Hp. rewrite point_grid, spacing_dx.
        exists (fun y => - (card2 ((y - x p) / dx) / dx ^ 2 / sqrt dx) / 2 + V y * cardinal_function dx (x p) y). split.
        + exists (fun y => card1 ((y - x p) / dx) / dx / sqrt dx), (fun y => card2 ((y - x p) / dx) / dx ^ 2 / sqrt dx).
          split; [apply cardinal_function_derive|]. split; [apply cardinal_function_derive2|]. reflexivity.
        + intros i Hi. rewrite (csum_pick l p).
          * cbn [mat get arr2]. rewrite spf_value, Nat.eqb_refl. rewrite <- RtoC_mult. f_equal.
            rewrite point_grid, h_card2, x_diff. unfold cardinal_function. rewrite x_diff, cardinal_value, sinc_int.
            destruct (Z.eq_dec (diff_grid i p) 0) as [E|E]; destruct (Nat.eqb_spec i p) as [H|H].
            -- field. lra.
            -- unfold diff_grid in E. exfalso. lia.
            -- subst. unfold diff_grid in E. exfalso. lia.
            -- field. lra.
          * exact Hp.
          * intros k Hk Hn. cbn [mat get arr2]. rewrite spf_value. destruct (Nat.eqb_spec p k) as [H|H]; [congruence|]. cr.
    Qed.
  End Built.
End Dvr.
