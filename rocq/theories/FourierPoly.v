(** Fourier transforms of polynomials times a Gaussian, in polar form, and a functional
    determined by its symmetries. *)
From Coq Require Import Arith ZArith Reals Lra Lia Bool Wf_nat.
From Coquelicot Require Import Coquelicot.
From Verif Require Import Gauss Moments Coulomb.
Open Scope R_scope.

(** ** The polynomials *)
Fixpoint hp (i j : nat) (x : R) : R :=
  match i with O => x ^ j | S i' => x * hp i' j x - INR j * hp i' (pred j) x end.
Lemma hp_left i j x : hp (S i) j x = x * hp i j x - INR j * hp i (pred j) x.
Proof. reflexivity. Qed.
Lemma hp_right i : forall j x, hp i (S j) x = x * hp i j x - INR i * hp (pred i) j x.
Proof.
  induction i as [|i IH]; intros j x; [cbn [hp pow INR]; ring|]. rewrite !hp_left, IH. cbn [pred].
  assert (E : INR i * (x * hp (pred i) j x) + INR j * hp i j x = INR j * (x * hp i (pred j) x) + INR i * hp i j x).
  { destruct j as [|j].
    - cbn [INR pred]. destruct i as [|i]; [cbn [INR]; ring|]. rewrite hp_left. cbn [pred INR]. ring.
    - cbn [pred]. assert (A : INR i * (x * hp (pred i) (S j) x) = INR i * (hp i (S j) x + INR (S j) * hp (pred i) j x)).
      { destruct i as [|i]; [cbn [INR]; ring|]. rewrite (hp_left i (S j)). cbn [pred]. ring. }
      rewrite A, (IH j x). ring. }
  rewrite !S_INR. cbn [pred]. lra.
Qed.
Lemma hp_zero j x : hp j 0 x = x ^ j.
Proof. induction j as [|j IH]; [reflexivity|]. rewrite hp_left, IH. cbn [INR pow]. ring. Qed.
Lemma hp_sym i : forall j x, hp i j x = hp j i x.
Proof.
  induction i as [|i IH]; intros j x; [rewrite hp_zero; reflexivity|]. rewrite hp_left, hp_right, (IH j). f_equal. f_equal. apply IH.
Qed.

(** ** Polynomials with their derivatives *)
Inductive poly : (R -> R) -> (R -> R) -> Prop :=
| poly_mono n : poly (fun x => x ^ n) (fun x => INR n * x ^ pred n)
| poly_add f f' g g' : poly f f' -> poly g g' -> poly (fun x => f x + g x) (fun x => f' x + g' x)
| poly_scal c f f' : poly f f' -> poly (fun x => c * f x) (fun x => c * f' x)
| poly_ext f f' g g' : (forall x, f x = g x) -> (forall x, f' x = g' x) -> poly f f' -> poly g g'.
Lemma poly_x f f' : poly f f' -> poly (fun x => x * f x) (fun x => f x + x * f' x).
Proof.
  induction 1 as [n|f f' g g' _ IH1 _ IH2|c f f' _ IH|f f' g g' E E' _ IH].
  - eapply poly_ext; [| |apply (poly_mono (S n))]; intros x; [reflexivity|]. rewrite S_INR. destruct n; [cbn; ring | cbn [pred pow]; ring].
  - eapply poly_ext; [| |apply (poly_add _ _ _ _ IH1 IH2)]; intros x; cbv beta; ring.
  - eapply poly_ext; [| |apply (poly_scal c _ _ IH)]; intros x; cbv beta; ring.
  - eapply poly_ext; [| |exact IH]; intros x; cbv beta; rewrite E, ?E'; reflexivity.
Qed.
Lemma poly_xn n f f' : poly f f' -> poly (fun x => x ^ n * f x) (fun x => INR n * x ^ pred n * f x + x ^ n * f' x).
Proof.
  intros H. induction n as [|n IH].
  - eapply poly_ext; [| |exact H]; intros x; cbn [pow INR]; cbv beta; ring.
  - eapply poly_ext; [| |apply (poly_x _ _ IH)]; intros x; [cbn [pow]; ring|]. rewrite S_INR. destruct n; [cbn; ring | cbn [pred pow]; ring].
Qed.
Lemma poly_mul f f' g g' : poly f f' -> poly g g' -> poly (fun x => f x * g x) (fun x => f' x * g x + f x * g' x).
Proof.
  intros F G. induction F as [n|f f' h h' _ IH1 _ IH2|c f f' _ IH|f f' h h' E E' _ IH].
  - apply poly_xn, G.
  - eapply poly_ext; [| |apply (poly_add _ _ _ _ IH1 IH2)]; intros x; cbv beta; ring.
  - eapply poly_ext; [| |apply (poly_scal c _ _ IH)]; intros x; cbv beta; ring.
  - eapply poly_ext; [| |exact IH]; intros x; cbv beta; rewrite E, ?E'; reflexivity.
Qed.
Lemma hp_poly i : forall j, poly (hp i j) (fun x => INR i * hp (pred i) j x + INR j * hp i (pred j) x).
Proof.
  induction i as [|i IH]; intros j.
  - eapply poly_ext; [| |apply (poly_mono j)]; intros x; cbn [hp INR]; ring.
  - eapply poly_ext; [| |apply (poly_add _ _ _ _ (poly_x _ _ (IH j)) (poly_scal (- INR j) _ _ (IH (pred j))))]; intros x; cbv beta; [rewrite hp_left; ring|].
    cbn [pred]. rewrite hp_left, S_INR.
    assert (A : INR i * (x * hp (pred i) j x) = INR i * (hp i j x + INR j * hp (pred i) (pred j) x)).
    { destruct i as [|i]; [cbn [INR]; ring|]. rewrite (hp_left i j). cbn [pred]. ring. }
    transitivity (hp i j x + INR i * (x * hp (pred i) j x) + x * (INR j * hp i (pred j) x) - INR j * (INR i * hp (pred i) (pred j) x + INR (pred j) * hp i (pred (pred j)) x)); [ring|].
    rewrite A. ring.
Qed.

(** ** The Gaussian integral of a polynomial *)
Definition w2 (x : R) : R := exp (- (sqrt 2 ^ 2 * x ^ 2)).
Lemma w2_pos x : 0 < w2 x.
Proof. apply exp_pos. Qed.
Definition int2 (f : R -> R) : R := RInt_gen (fun x => f x * w2 x) (at_point 0) (Rbar_locally p_infty).
Lemma int2_val f v : half_line (fun x => f x * w2 x) v -> int2 f = v.
Proof. intros H. unfold int2, half_line in *. apply (is_RInt_gen_unique (V := R_CompleteNormedModule)). exact H. Qed.
Lemma sqrt2_sq2 : sqrt 2 ^ 2 = 2.
Proof. cbn [pow]. rewrite Rmult_1_r. apply sqrt_sqrt. lra. Qed.
Lemma sqrt2_pos2 : 0 < sqrt 2.
Proof. apply sqrt_lt_R0. lra. Qed.
Lemma moment_next b k : b <> 0 -> moment b (S (S k)) = INR (S k) / (2 * b ^ 2) * moment b k.
Proof. intros H. unfold moment. change (gamma2 (S (S (S k)))) with (INR (S k) / 2 * gamma2 (S k)). cbn [pow]. field. split; [apply pow_nonzero|]; exact H. Qed.
Lemma poly_int f f' : poly f f' -> exists v, half_line (fun x => f x * w2 x) v /\ half_line (fun x => (f x + x * f' x - 4 * x ^ 2 * f x) * w2 x) 0.
Proof.
  induction 1 as [n|f f' g g' _ (u & U1 & U2) _ (v & V1 & V2)|c f f' _ (u & U1 & U2)|f f' g g' E E' _ (u & U1 & U2)].
  - exists (moment (sqrt 2) n). pose proof (moment_ok (sqrt 2) sqrt2_pos2) as M. split; [exact (M n)|].
    eapply half_line_val; [eapply half_line_ext; [|exact (half_line_plus _ _ _ _ (half_line_scal (INR (S n)) _ _ (M n)) (half_line_scal (- 4) _ _ (M (S (S n)))))]|].
    + intros x _. unfold w2. rewrite S_INR. destruct n; [cbn; ring | cbn [pred pow]; ring].
    + rewrite moment_next by (pose proof sqrt2_pos2; lra). rewrite sqrt2_sq2. field.
  - exists (u + v). split.
    + eapply half_line_ext; [|exact (half_line_plus _ _ _ _ U1 V1)]. intros x _. cbv beta. ring.
    + eapply half_line_val; [eapply half_line_ext; [|exact (half_line_plus _ _ _ _ U2 V2)]|ring]. intros x _. cbv beta. ring.
  - exists (c * u). split.
    + eapply half_line_ext; [|exact (half_line_scal c _ _ U1)]. intros x _. cbv beta. ring.
    + eapply half_line_val; [eapply half_line_ext; [|exact (half_line_scal c _ _ U2)]|ring]. intros x _. cbv beta. ring.
  - exists u. split; [eapply half_line_ext; [|exact U1] | eapply half_line_ext; [|exact U2]]; intros x _; cbv beta; rewrite E, ?E'; reflexivity.
Qed.
Lemma poly_line f f' : poly f f' -> half_line (fun x => f x * w2 x) (int2 f).
Proof. intros H. destruct (poly_int f f' H) as (v & V & _). rewrite (int2_val f v V). exact V. Qed.
Lemma poly_by_parts f f' : poly f f' -> half_line (fun x => (f x + x * f' x - 4 * x ^ 2 * f x) * w2 x) 0.
Proof. intros H. destruct (poly_int f f' H) as (v & _ & V). exact V. Qed.
Lemma pair_line i j k l : half_line (fun x => hp i j x * hp k l x * w2 x) (int2 (fun x => hp i j x * hp k l x)).
Proof. eapply (poly_line (fun x => hp i j x * hp k l x)). apply poly_mul; apply hp_poly. Qed.

(** ** The functional *)
Definition fourier (g0 g1 g2 g3 : nat) : R :=
  if (g0 + g1 =? g2 + g3)%nat then (-1) ^ (g0 + g2) * int2 (fun x => hp g3 g0 x * hp g2 g1 x) else 0.

Record symmetric_functional (M : nat -> nat -> nat -> nat -> R) : Prop := SymF {
  sf_zero : forall g0 g1 g2 g3, (g0 + g1 <> g2 + g3)%nat -> M g0 g1 g2 g3 = 0;
  sf_move : forall g0 g1 g2 g3, INR g3 * M g0 g1 g2 (pred g3) + INR g2 * M g0 g1 (pred g2) g3 = M (S g0) g1 g2 g3 + M g0 (S g1) g2 g3;
  sf_move' : forall g0 g1 g2 g3, INR g0 * M (pred g0) g1 g2 g3 + INR g1 * M g0 (pred g1) g2 g3 = M g0 g1 g2 (S g3) + M g0 g1 (S g2) g3;
  sf_scale : forall g0 g1 g2 g3, INR (g0 + g1 + g2 + g3 + 3) * M g0 g1 g2 g3 = 2 * (M (S g0) g1 g2 (S g3) + M g0 (S g1) (S g2) g3) }.

(** Only one, up to its first value *)
Lemma functional_zero M : symmetric_functional M -> M O O O O = 0 -> forall g0 g1 g2 g3, M g0 g1 g2 g3 = 0.
Proof.
  intros F Z.
  enough (H : forall N g0 g1 g2 g3, (g0 + g1 + g2 + g3 <= N)%nat -> M g0 g1 g2 g3 = 0) by (intros; eapply H; apply Nat.le_refl).
  induction N as [|N IH].
  - intros [|] [|] [|] [|] H; try lia. exact Z.
  - assert (K : forall k g0 g1 g2 g3, (g1 + g2 <= k)%nat -> (g0 + g1 + g2 + g3 <= S N)%nat -> M g0 g1 g2 g3 = 0).
    { induction k as [|k IHk]; intros g0 g1 g2 g3 Hk HN.
      - destruct g1; [|lia]. destruct g2; [|lia]. destruct (Nat.eq_dec g0 g3) as [<-|N0]; [|apply (sf_zero M F); lia].
        destruct g0 as [|n]; [exact Z|].
        pose proof (sf_scale M F n 0%nat 0%nat n) as D. pose proof (sf_move M F n 0%nat 1%nat n) as A. pose proof (sf_move' M F (S n) 0%nat 0%nat n) as B.
        cbn [pred] in A, B. rewrite (IH n 0 0 n)%nat in D, A, B by lia.
        assert (P : INR n * M n 0%nat 1%nat (pred n) = 0) by (destruct n; [cbn [INR]; ring | rewrite IH by (cbn; lia); ring]).
        rewrite P in A. cbn [INR] in A, B. lra.
      - destruct g1 as [|g1].
        + destruct g2 as [|g2]; [apply IHk; lia|]. pose proof (sf_move' M F g0 0%nat g2 g3) as B. rewrite (IHk g0 0%nat g2 (S g3)) in B by lia.
          cbn [INR] in B. assert (P : INR g0 * M (pred g0) 0%nat g2 g3 = 0) by (destruct g0; [cbn [INR]; ring | rewrite IH by (cbn; lia); ring]). lra.
        + pose proof (sf_move M F g0 g1 g2 g3) as A. rewrite (IHk (S g0) g1 g2 g3) in A by lia.
          assert (P : INR g3 * M g0 g1 g2 (pred g3) = 0) by (destruct g3; [cbn [INR]; ring | rewrite IH by (cbn; lia); ring]).
          assert (Q : INR g2 * M g0 g1 (pred g2) g3 = 0) by (destruct g2; [cbn [INR]; ring | rewrite IH by (cbn; lia); ring]). lra. }
    intros g0 g1 g2 g3 H. eapply K; [apply Nat.le_refl | exact H].
Qed.
Lemma functional_unique M K c : symmetric_functional M -> symmetric_functional K -> M O O O O = c * K O O O O ->
  forall g0 g1 g2 g3, M g0 g1 g2 g3 = c * K g0 g1 g2 g3.
Proof.
  intros FM FK E g0 g1 g2 g3. apply Rminus_diag_uniq. revert g0 g1 g2 g3.
  apply (functional_zero (fun g0 g1 g2 g3 => M g0 g1 g2 g3 - c * K g0 g1 g2 g3)); [|lra]. constructor; intros g0 g1 g2 g3.
  - intros H. rewrite (sf_zero M FM), (sf_zero K FK) by exact H. ring.
  - pose proof (sf_move M FM g0 g1 g2 g3). pose proof (sf_move K FK g0 g1 g2 g3) as X. apply (f_equal (Rmult c)) in X. lra.
  - pose proof (sf_move' M FM g0 g1 g2 g3). pose proof (sf_move' K FK g0 g1 g2 g3) as X. apply (f_equal (Rmult c)) in X. lra.
  - pose proof (sf_scale M FM g0 g1 g2 g3). pose proof (sf_scale K FK g0 g1 g2 g3) as X. apply (f_equal (Rmult c)) in X. lra.
Qed.

(** The Fourier form has the symmetries. *)
Lemma fourier_on g0 g1 g2 g3 : (g0 + g1 = g2 + g3)%nat -> fourier g0 g1 g2 g3 = (-1) ^ (g0 + g2) * int2 (fun x => hp g3 g0 x * hp g2 g1 x).
Proof. intros H. unfold fourier. rewrite (proj2 (Nat.eqb_eq _ _) H). reflexivity. Qed.
Lemma fourier_off g0 g1 g2 g3 : (g0 + g1 <> g2 + g3)%nat -> fourier g0 g1 g2 g3 = 0.
Proof. intros H. unfold fourier. rewrite (proj2 (Nat.eqb_neq _ _) H). reflexivity. Qed.
Lemma int2_null4 f1 f2 f3 f4 c1 c2 c3 c4 v1 v2 v3 v4 : half_line (fun x => f1 x * w2 x) v1 -> half_line (fun x => f2 x * w2 x) v2 -> half_line (fun x => f3 x * w2 x) v3 -> half_line (fun x => f4 x * w2 x) v4 ->
  (forall x, c1 * f1 x + c2 * f2 x + c3 * f3 x + c4 * f4 x = 0) -> c1 * v1 + c2 * v2 + c3 * v3 + c4 * v4 = 0.
Proof.
  intros H1 H2 H3 H4 E. eapply half_line_unique; [|apply half_line_zero].
  eapply half_line_ext; [|exact (half_line_plus _ _ _ _ (half_line_plus _ _ _ _ (half_line_plus _ _ _ _ (half_line_scal c1 _ _ H1) (half_line_scal c2 _ _ H2)) (half_line_scal c3 _ _ H3)) (half_line_scal c4 _ _ H4))].
  intros x _. cbv beta. rewrite <- (Rmult_0_l (w2 x)). rewrite <- (E x). ring.
Qed.
Lemma fourier_symmetric : symmetric_functional fourier.
Proof.
  constructor; intros g0 g1 g2 g3.
  - apply fourier_off.
  - destruct (Nat.eq_dec (S g0 + g1) (g2 + g3)) as [E|E].
    + rewrite (fourier_on (S g0)), (fourier_on g0 (S g1)) by lia.
      assert (A : INR g3 * fourier g0 g1 g2 (pred g3) = INR g3 * ((-1) ^ (g0 + g2) * int2 (fun x => hp (pred g3) g0 x * hp g2 g1 x))).
      { destruct g3; [cbn [INR]; ring|]. rewrite fourier_on by (cbn; lia). reflexivity. }
      assert (B : INR g2 * fourier g0 g1 (pred g2) g3 = INR g2 * (- (-1) ^ (g0 + g2) * int2 (fun x => hp g3 g0 x * hp (pred g2) g1 x))).
      { destruct g2; [cbn [INR]; ring|]. rewrite fourier_on by (cbn; lia). cbn [pred]. replace (g0 + S g2)%nat with (S (g0 + g2)) by lia. cbn [pow]. ring. }
      rewrite A, B. cbn [Nat.add pow].
      pose proof (int2_null4 _ _ _ _ (INR g3) (- INR g2) 1 (-1) _ _ _ _ (pair_line (pred g3) g0 g2 g1) (pair_line g3 g0 (pred g2) g1) (pair_line g3 (S g0) g2 g1) (pair_line g3 g0 g2 (S g1))) as I.
      cbv beta in I. assert (J := I ltac:(intros x; rewrite (hp_right g3 g0), (hp_right g2 g1); ring)). clear I.
      set (s := (-1) ^ (g0 + g2)) in *. apply (f_equal (Rmult s)) in J. lra.
    + rewrite (fourier_off (S g0)), (fourier_off g0 (S g1)) by lia.
      assert (A : INR g3 * fourier g0 g1 g2 (pred g3) = 0) by (destruct g3; [cbn [INR]; ring | rewrite fourier_off by (cbn; lia); ring]).
      assert (B : INR g2 * fourier g0 g1 (pred g2) g3 = 0) by (destruct g2; [cbn [INR]; ring | rewrite fourier_off by (cbn; lia); ring]).
      lra.
  - destruct (Nat.eq_dec (g0 + g1) (g2 + S g3)) as [E|E].
    + rewrite (fourier_on g0 g1 g2 (S g3)), (fourier_on g0 g1 (S g2) g3) by lia.
      assert (A : INR g0 * fourier (pred g0) g1 g2 g3 = INR g0 * (- (-1) ^ (g0 + g2) * int2 (fun x => hp g3 (pred g0) x * hp g2 g1 x))).
      { destruct g0; [cbn [INR]; ring|]. rewrite fourier_on by (cbn; lia). cbn [pred Nat.add pow]. ring. }
      assert (B : INR g1 * fourier g0 (pred g1) g2 g3 = INR g1 * ((-1) ^ (g0 + g2) * int2 (fun x => hp g3 g0 x * hp g2 (pred g1) x))).
      { destruct g1; [cbn [INR]; ring|]. rewrite fourier_on by (cbn; lia). reflexivity. }
      rewrite A, B. replace (g0 + S g2)%nat with (S (g0 + g2)) by lia. cbn [pow].
      pose proof (int2_null4 _ _ _ _ (- INR g0) (INR g1) (-1) 1 _ _ _ _ (pair_line g3 (pred g0) g2 g1) (pair_line g3 g0 g2 (pred g1)) (pair_line (S g3) g0 g2 g1) (pair_line g3 g0 (S g2) g1)) as I.
      cbv beta in I. assert (J := I ltac:(intros x; rewrite (hp_left g3 g0), (hp_left g2 g1); ring)). clear I.
      set (s := (-1) ^ (g0 + g2)) in *. apply (f_equal (Rmult s)) in J. lra.
    + rewrite (fourier_off g0 g1 g2 (S g3)), (fourier_off g0 g1 (S g2) g3) by lia.
      assert (A : INR g0 * fourier (pred g0) g1 g2 g3 = 0) by (destruct g0; [cbn [INR]; ring | rewrite fourier_off by (cbn; lia); ring]).
      assert (B : INR g1 * fourier g0 (pred g1) g2 g3 = 0) by (destruct g1; [cbn [INR]; ring | rewrite fourier_off by (cbn; lia); ring]).
      lra.
  - destruct (Nat.eq_dec (g0 + g1) (g2 + g3)) as [E|E]; [|rewrite !fourier_off by lia; ring].
    rewrite !fourier_on by lia. replace (g0 + S g2)%nat with (S (g0 + g2)) by lia. cbn [Nat.add pow].
    set (s := (-1) ^ (g0 + g2)).
    pose proof (poly_by_parts _ _ (poly_mul _ _ _ _ (hp_poly g3 g0) (hp_poly g2 g1))) as P. cbv beta in P.
    pose proof (int2_null4 _ _ _ _ (INR (g0 + g1 + g2 + g3 + 3)) 2 2 1 _ _ _ _ (pair_line g3 g0 g2 g1) (pair_line (S g3) (S g0) g2 g1) (pair_line g3 g0 (S g2) (S g1)) P) as I.
    cbv beta in I. assert (J : INR (g0 + g1 + g2 + g3 + 3) * int2 (fun x => hp g3 g0 x * hp g2 g1 x) + 2 * int2 (fun x => hp (S g3) (S g0) x * hp g2 g1 x) + 2 * int2 (fun x => hp g3 g0 x * hp (S g2) (S g1) x) + 1 * 0 = 0).
    { apply I. intros x.
      assert (T : forall i j, 2 * hp (S i) (S j) x = 2 * x ^ 2 * hp i j x - x * (INR i * hp (pred i) j x + INR j * hp i (pred j) x) - (INR i + INR j + 2) * hp i j x).
      { intros i j. assert (T1 : hp (S i) (S j) x = x * (x * hp i j x - INR i * hp (pred i) j x) - INR (S j) * hp i j x) by (rewrite hp_left, hp_right; reflexivity).
        assert (T2 : hp (S i) (S j) x = x * (x * hp i j x - INR j * hp i (pred j) x) - INR (S i) * hp i j x) by (rewrite hp_right, hp_left; reflexivity).
        rewrite !S_INR in T1, T2. transitivity (hp (S i) (S j) x + hp (S i) (S j) x); [ring|]. rewrite T1 at 1. rewrite T2. ring. }
      pose proof (T g3 g0) as T1. pose proof (T g2 g1) as T2. rewrite !plus_INR. cbn [INR].
      apply (f_equal (fun y => y * hp g2 g1 x)) in T1. apply (f_equal (fun y => hp g3 g0 x * y)) in T2. lra. }
    apply (f_equal (Rmult s)) in J. lra.
Qed.
Lemma fourier_first : 0 < fourier 0 0 0 0.
Proof.
  rewrite fourier_on by reflexivity. cbn [Nat.add pow hp]. rewrite (int2_val _ (moment (sqrt 2) 0)).
  - unfold moment. cbn [gamma2 pow]. pose proof sqrt2_pos2. pose proof (sqrt_lt_R0 PI PI_RGT_0).
    rewrite Rmult_1_l. apply Rdiv_lt_0_compat; lra.
  - eapply half_line_ext; [|apply (moment_ok (sqrt 2) sqrt2_pos2 0)]. intros x _. unfold w2. cbn [pow]. ring.
Qed.
