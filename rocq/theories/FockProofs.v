(** Anticommutation relations, determinants, and the algebra of one- and
    two-body operators. *)
From Coq Require Import List Arith Lia Bool Setoid Ring.
From Verif Require Import Scalar Spec FockSpec.
Import ListNotations.

Section FockProofs.
  Variable K : scalar.
  Local Open Scope K_scope.
  Add Ring Kring : (s_ring K).
  Notation state := (state K).
  Implicit Types (f g : state) (o c : occupation) (A B h : nat -> nat -> K) (u U : nat -> nat -> nat -> nat -> K).

  Definition same f g : Prop := forall o, f o = g o.
  Local Infix "==" := same (at level 70).

  Lemma put_same p x o : put p x o p = x.
  Proof. unfold put. rewrite Nat.eqb_refl. reflexivity. Qed.
  Lemma put_other p q x o : p <> q -> put p x o q = o q.
  Proof. intros H. unfold put. destruct (Nat.eqb_spec q p); congruence. Qed.

  Lemma parity_ext p o o' : (forall q, (q < p)%nat -> o q = o' q) -> parity p o = parity p o' :> K.
  Proof.
    induction p as [|p IH]; intros H; cbn; [reflexivity|].
    rewrite (H p) by lia. rewrite IH by (intros; apply H; lia). reflexivity.
  Qed.
  Lemma parity_above p q x o : (p <= q)%nat -> parity p (put q x o) = parity p o :> K.
  Proof. intros H. apply parity_ext. intros r Hr. apply put_other. lia. Qed.
  Lemma parity_below p q x o : (q < p)%nat ->
    parity p (put q x o) = (if Bool.eqb x (o q) then parity p o else - parity p o) :> K.
  Proof.
    induction p as [|p IH]; intros H; [lia|]. cbn.
    destruct (Nat.eq_dec q p) as [->|Hne].
    - rewrite put_same, parity_above by lia. destruct x, (o p); cbn; ring.
    - rewrite put_other by lia. rewrite IH by lia. destruct (o p), (Bool.eqb x (o q)); ring.
  Qed.
  Lemma parity_square p o : parity p o * parity p o = 1 :> K.
  Proof. induction p as [|p IH]; cbn; [ring|]. destruct (o p); [|exact IH]. rewrite <- IH. ring. Qed.

  (** ** Congruence and linearity *)
  Lemma create_ext p f g : f == g -> create p f == create p g.
  Proof. intros H o. unfold create. rewrite H. reflexivity. Qed.
  Lemma annihilate_ext p f g : f == g -> annihilate p f == annihilate p g.
  Proof. intros H o. unfold annihilate. rewrite H. reflexivity. Qed.
  Lemma create_proper p f : proper f -> proper (create p f).
  Proof.
    intros H o o' E. unfold create. rewrite <- E. rewrite (parity_ext p o o') by (intros; apply E).
    rewrite (H (put p false o) (put p false o')); [reflexivity|].
    intros q. unfold put. rewrite E. reflexivity.
  Qed.
  Lemma annihilate_proper p f : proper f -> proper (annihilate p f).
  Proof.
    intros H o o' E. unfold annihilate. rewrite <- E. rewrite (parity_ext p o o') by (intros; apply E).
    rewrite (H (put p true o) (put p true o')); [reflexivity|].
    intros q. unfold put. rewrite E. reflexivity.
  Qed.
  Lemma create_zero p f : f == (fun _ => 0) -> create p f == (fun _ => 0).
  Proof. intros H o. unfold create. rewrite H. destruct (o p); ring. Qed.
  Lemma annihilate_zero p f : f == (fun _ => 0) -> annihilate p f == (fun _ => 0).
  Proof. intros H o. unfold annihilate. rewrite H. destruct (o p); ring. Qed.
  Lemma create_lin p x f g : create p (fun o => x * f o + g o) == (fun o => x * create p f o + create p g o).
  Proof. intros o. unfold create. destruct (o p); ring. Qed.
  Lemma annihilate_lin p x f g : annihilate p (fun o => x * f o + g o) == (fun o => x * annihilate p f o + annihilate p g o).
  Proof. intros o. unfold annihilate. destruct (o p); ring. Qed.
  Lemma create_sub p f g : create p (fun o => f o - g o) == (fun o => create p f o - create p g o).
  Proof. intros o. unfold create. destruct (o p); ring. Qed.
  Lemma annihilate_sub p f g : annihilate p (fun o => f o - g o) == (fun o => annihilate p f o - annihilate p g o).
  Proof. intros o. unfold annihilate. destruct (o p); ring. Qed.
  Lemma create_opp p f : create p (fun o => - f o) == (fun o => - create p f o).
  Proof. intros o. unfold create. destruct (o p); ring. Qed.
  Lemma annihilate_opp p f : annihilate p (fun o => - f o) == (fun o => - annihilate p f o).
  Proof. intros o. unfold annihilate. destruct (o p); ring. Qed.
  Lemma create_scal p x f : create p (fun o => x * f o) == (fun o => x * create p f o).
  Proof. intros o. unfold create. destruct (o p); ring. Qed.
  Lemma annihilate_scal p x f : annihilate p (fun o => x * f o) == (fun o => x * annihilate p f o).
  Proof. intros o. unfold annihilate. destruct (o p); ring. Qed.
  Lemma create_sum p n (F : nat -> state) : create p (fun o => sumn n (fun k => F k o)) == (fun o => sumn n (fun k => create p (F k) o)).
  Proof.
    intros o. unfold create. destruct (o p); [apply sumn_mul_l | symmetry; apply sumn_zero].
  Qed.
  Lemma annihilate_sum p n (F : nat -> state) : annihilate p (fun o => sumn n (fun k => F k o)) == (fun o => sumn n (fun k => annihilate p (F k) o)).
  Proof.
    intros o. unfold annihilate. destruct (o p); [symmetry; apply sumn_zero | apply sumn_mul_l].
  Qed.

  (** ** Anticommutation relations *)
  Lemma put_swap p q x y o : p <> q -> forall r, put p x (put q y o) r = put q y (put p x o) r.
  Proof. intros H r. unfold put. destruct (Nat.eqb_spec r p), (Nat.eqb_spec r q); congruence. Qed.
  Lemma put_put p x y o : forall r, put p x (put p y o) r = put p x o r.
  Proof. intros r. unfold put. destruct (Nat.eqb_spec r p); reflexivity. Qed.
  Lemma put_id p x o : o p = x -> forall r, put p x o r = o r.
  Proof. intros H r. unfold put. destruct (Nat.eqb_spec r p); congruence. Qed.

  Ltac below Ho := rewrite parity_below by lia; rewrite Ho; cbn [Bool.eqb].

  Lemma anti_aa p q f : proper f -> annihilate p (annihilate q f) == (fun o => - annihilate q (annihilate p f) o).
  Proof.
    intros E o. unfold annihilate. destruct (Nat.eq_dec p q) as [->|H].
    - destruct (o q); rewrite ?put_same; ring.
    - rewrite (put_other p q), (put_other q p) by congruence.
      destruct (o p) eqn:Ep, (o q) eqn:Eq; try ring.
      rewrite (E _ _ (put_swap q p true true o ltac:(congruence))).
      destruct (Nat.lt_ge_cases p q).
      + rewrite (parity_above p q) by lia. rewrite (parity_below q p) by lia. rewrite Ep. cbn. ring.
      + rewrite (parity_above q p) by lia. rewrite (parity_below p q) by lia. rewrite Eq. cbn. ring.
  Qed.
  Lemma anti_cc p q f : proper f -> create p (create q f) == (fun o => - create q (create p f) o).
  Proof.
    intros E o. unfold create. destruct (Nat.eq_dec p q) as [->|H].
    - destruct (o q); rewrite ?put_same; ring.
    - rewrite (put_other p q), (put_other q p) by congruence.
      destruct (o p) eqn:Ep, (o q) eqn:Eq; try ring.
      rewrite (E _ _ (put_swap q p false false o ltac:(congruence))).
      destruct (Nat.lt_ge_cases p q).
      + rewrite (parity_above p q) by lia. rewrite (parity_below q p) by lia. rewrite Ep. cbn. ring.
      + rewrite (parity_above q p) by lia. rewrite (parity_below p q) by lia. rewrite Eq. cbn. ring.
  Qed.
  Lemma anti_ac p q f : proper f -> annihilate p (create q f) == (fun o => delta p q * f o - create q (annihilate p f) o).
  Proof.
    intros E o. unfold annihilate, create, delta. destruct (Nat.eqb_spec p q) as [->|H].
    - destruct (o q) eqn:Eq; rewrite ?put_same.
      + rewrite (parity_above q q) by lia.
        rewrite (E (put q true (put q false o)) o)
          by (intros r; rewrite put_put; apply put_id; exact Eq).
        transitivity (f o - (parity q o * parity q o) * f o); [rewrite parity_square | ]; ring.
      + rewrite (parity_above q q) by lia.
        rewrite (E (put q false (put q true o)) o)
          by (intros r; rewrite put_put; apply put_id; exact Eq).
        transitivity ((parity q o * parity q o) * f o); [ring |rewrite parity_square; ring].
    - rewrite (put_other p q), (put_other q p) by congruence.
      destruct (o p) eqn:Ep, (o q) eqn:Eq; try ring.
      rewrite (E _ _ (put_swap q p false true o ltac:(congruence))).
      destruct (Nat.lt_ge_cases p q).
      + rewrite (parity_above p q) by lia. rewrite (parity_below q p) by lia. rewrite Ep. cbn. ring.
      + rewrite (parity_above q p) by lia. rewrite (parity_below p q) by lia. rewrite Eq. cbn. ring.
  Qed.
  Lemma anti_ca p q f : proper f -> create q (annihilate p f) == (fun o => delta p q * f o - annihilate p (create q f) o).
  Proof. intros E o. rewrite (anti_ac p q f E o). ring. Qed.

  (** ** Determinants *)
  Lemma det_proper l c : proper (determinant l c : state).
  Proof.
    intros o o' E. unfold determinant.
    assert (Ef : forall xs, forallb (fun p => Bool.eqb (o p) (c p)) xs = forallb (fun p => Bool.eqb (o' p) (c p)) xs).
    { induction xs as [|x xs IH]; cbn; [reflexivity|]. rewrite E, IH. reflexivity. }
    rewrite Ef. reflexivity.
  Qed.
  Lemma det_self l c : determinant l c c = 1 :> K.
  Proof.
    unfold determinant. assert (E : forallb (fun p => Bool.eqb (c p) (c p)) (seq 0 l) = true).
    { apply forallb_forall. intros p _. apply Bool.eqb_reflx. }
    rewrite E. reflexivity.
  Qed.
  Lemma det_other l c o p : (p < l)%nat -> o p <> c p -> determinant l c o = 0 :> K.
  Proof.
    intros Hp Ho. unfold determinant. destruct (forallb _ _) eqn:E; [|reflexivity].
    rewrite forallb_forall in E. specialize (E p). rewrite in_seq in E.
    specialize (E ltac:(lia)). apply Bool.eqb_prop in E. congruence.
  Qed.
  Lemma det_annihilate l c p : (p < l)%nat -> c p = false -> annihilate p (determinant l c : state) == (fun _ => 0).
  Proof.
    intros Hp Hc o. unfold annihilate. destruct (o p); [reflexivity|].
    rewrite (det_other l c _ p) by (try exact Hp; rewrite put_same, Hc; discriminate). ring.
  Qed.
  Lemma det_create l c p : (p < l)%nat -> c p = true -> create p (determinant l c : state) == (fun _ => 0).
  Proof.
    intros Hp Hc o. unfold create. destruct (o p); [|reflexivity].
    rewrite (det_other l c _ p) by (try exact Hp; rewrite put_same, Hc; discriminate). ring.
  Qed.
  (** a_p^+ a_p counts. *)
  Lemma det_number l c p : (p < l)%nat ->
    create p (annihilate p (determinant l c : state)) == (fun o => if c p then determinant l c o else 0).
  Proof.
    intros Hp. destruct (c p) eqn:Hc.
    - intros o. rewrite (anti_ca p p _ (det_proper l c) o). unfold delta. rewrite Nat.eqb_refl.
      rewrite (annihilate_zero p _ (det_create l c p Hp Hc) o). ring.
    - apply create_zero. apply det_annihilate; assumption.
  Qed.
  Definition occ (c : occupation) (p : nat) : K := if c p then 1 else 0.

  Lemma density1 l c p q : (p < l)%nat -> (q < l)%nat ->
    create p (annihilate q (determinant l c : state)) c = delta p q * occ c p.
  Proof.
    intros Hp Hq. unfold delta, occ. destruct (Nat.eqb_spec p q) as [->|H].
    - rewrite (det_number l c q Hq c). destruct (c q); [rewrite det_self|]; ring.
    - unfold create. destruct (c p) eqn:Ep; [|ring].
      unfold annihilate. destruct (put p false c q); [ring|].
      rewrite (det_other l c _ p); [ring | exact Hp|].
      rewrite put_other by congruence. rewrite put_same, Ep. discriminate.
  Qed.
  (** a_q^+ moved to the right through two annihilators. *)
  Lemma move_create q r s f : proper f -> create q (annihilate s (annihilate r f)) ==
    (fun o => delta s q * annihilate r f o - delta r q * annihilate s f o + annihilate s (annihilate r (create q f)) o).
  Proof.
    intros E o. rewrite (anti_ca s q _ (annihilate_proper r f E) o).
    rewrite (annihilate_ext s _ _ (anti_ca r q f E) o).
    rewrite (annihilate_sub s (fun o => delta r q * f o) _ o). rewrite (annihilate_scal s (delta r q) f o). ring.
  Qed.
  Lemma density2 l c p q r s : (p < l)%nat -> (q < l)%nat -> (r < l)%nat -> (s < l)%nat ->
    create p (create q (annihilate s (annihilate r (determinant l c : state)))) c
    = occ c p * occ c q * (delta p r * delta q s - delta p s * delta q r).
  Proof.
    intros Hp Hq Hr Hs. pose proof (det_proper l c) as E.
    destruct (c q) eqn:Eq.
    - rewrite (create_ext p _ _ (move_create q r s _ E) c).
      assert (Z : (fun o => delta s q * annihilate r (determinant l c) o - delta r q * annihilate s (determinant l c) o
          + annihilate s (annihilate r (create q (determinant l c))) o)
        == (fun o => delta s q * annihilate r (determinant l c) o - delta r q * annihilate s (determinant l c) o)).
      { intros o. rewrite (annihilate_zero s _ (annihilate_zero r _ (det_create l c q Hq Eq)) o). ring. }
      rewrite (create_ext p _ _ Z c).
      rewrite (create_sub p (fun o => delta s q * annihilate r (determinant l c) o) _ c).
      rewrite (create_scal p _ _ c), (create_scal p _ (annihilate s _) c).
      rewrite !density1 by assumption.
      replace (occ c q) with (1 : K) by (unfold occ; rewrite Eq; reflexivity).
      unfold delta. rewrite (Nat.eqb_sym s q), (Nat.eqb_sym r q).
      destruct (q =? s)%nat, (q =? r)%nat, (p =? r)%nat, (p =? s)%nat; ring.
    - rewrite (anti_cc p q _ (annihilate_proper s _ (annihilate_proper r _ E)) c).
      unfold create at 1. rewrite Eq. replace (occ c q) with (0 : K) by (unfold occ; rewrite Eq; reflexivity). ring.
  Qed.

  (** ** Expectation values *)
  Lemma expect_one l A c : one_body l A (determinant l c) c = sumn l (fun p => occ c p * A p p).
  Proof.
    unfold one_body. apply sumn_ext. intros p Hp.
    rewrite (sumn_pick K l p) by (first [exact Hp | intros q Hq Hne; rewrite density1 by assumption;
      unfold delta; destruct (Nat.eqb_spec p q); [congruence | ring]]).
    rewrite density1 by assumption. unfold delta. rewrite Nat.eqb_refl. ring.
  Qed.
  Lemma sum_delta_r n j (g : nat -> K) : (j < n)%nat -> sumn n (fun k => g k * delta j k) = g j.
  Proof.
    intros H. rewrite (sumn_pick K n j) by (first [exact H | intros k Hk Hne; unfold delta; destruct (Nat.eqb_spec j k); [congruence | ring]]).
    unfold delta. rewrite Nat.eqb_refl. ring.
  Qed.
  Lemma expect_two l U c : two_body l U (determinant l c) c
    = sumn l (fun p => sumn l (fun q => occ c p * occ c q * (U p q p q - U p q q p))).
  Proof.
    unfold two_body. apply sumn_ext. intros p Hp. apply sumn_ext. intros q Hq.
    rewrite (sumn_ext K l _ (fun r => occ c p * occ c q * (U p q r q * delta p r - U p q r p * delta q r))).
    2:{ intros r Hr.
        rewrite (sumn_ext K l _ (fun s => (occ c p * occ c q * delta p r * U p q r s) * delta q s
           - (occ c p * occ c q * delta q r * U p q r s) * delta p s))
          by (intros s Hs; rewrite density2 by assumption; ring).
        rewrite sumn_sub, !sum_delta_r by assumption. ring. }
    rewrite <- sumn_mul_l, sumn_sub, !sum_delta_r by assumption. reflexivity.
  Qed.
  Lemma expect_ham l x h u c : expect l (hamiltonian l x h u) c
    = sumn l (fun p => occ c p * h p p)
      + x * sumn l (fun p => sumn l (fun q => occ c p * occ c q * (u p q p q - u p q q p))).
  Proof. unfold expect, hamiltonian. rewrite expect_one, expect_two. reflexivity. Qed.
  Lemma sum_lowest l N (g : nat -> K) : (N <= l)%nat -> sumn l (fun p => occ (lowest N) p * g p) = sumn N g.
  Proof.
    intros H. replace l with (N + (l - N))%nat by lia. rewrite sumn_app.
    rewrite (sumn_zero' K (l - N)) by (intros k Hk; unfold occ, lowest; destruct (Nat.ltb_spec (N + k) N); [lia | ring]).
    rewrite (sumn_ext K N _ g) by (intros k Hk; unfold occ, lowest; destruct (Nat.ltb_spec k N); [ring | lia]). ring.
  Qed.
  Lemma sum_lowest2 l N (g : nat -> nat -> K) : (N <= l)%nat ->
    sumn l (fun p => sumn l (fun q => occ (lowest N) p * occ (lowest N) q * g p q)) = sumn N (fun p => sumn N (fun q => g p q)).
  Proof.
    intros H. rewrite <- (sum_lowest l N) by exact H. apply sumn_ext. intros p _.
    rewrite <- (sum_lowest l N) by exact H. rewrite sumn_mul_l. apply sumn_ext. intros. ring.
  Qed.
  Lemma expect_lowest l x h u N : (N <= l)%nat -> expect l (hamiltonian l x h u) (lowest N)
    = sumn N (fun p => h p p) + x * sumn N (fun p => sumn N (fun q => u p q p q - u p q q p)).
  Proof. intros H. rewrite expect_ham, sum_lowest, sum_lowest2 by exact H. reflexivity. Qed.

  (** ** One determinant against another: removing or adding a particle *)
  Definition pair u p q : K := u p q p q - u p q q p.
  Lemma sum_put l c i x (g : nat -> K) : (i < l)%nat -> c i = negb x ->
    sumn l (fun p => occ (put i x c) p * g p)
    = sumn l (fun p => occ c p * g p) + (if x then g i else - g i).
  Proof.
    intros Hi Hc.
    rewrite (sumn_ext K l _ (fun p => occ c p * g p + (if x then g p else - g p) * delta i p)).
    - rewrite sumn_add, sum_delta_r by exact Hi. reflexivity.
    - intros p Hp. unfold occ, put, delta. rewrite (Nat.eqb_sym i p).
      destruct (Nat.eqb_spec p i) as [->|]; [rewrite Hc; destruct x; cbn; ring | ring].
  Qed.
  Lemma expect_put l x h u c i y : (i < l)%nat -> c i = negb y ->
    expect l (hamiltonian l x h u) (put i y c)
    = expect l (hamiltonian l x h u) c
      + (if y then 1 else - (1)) * (h i i + x * sumn l (fun j => occ c j * (pair u i j + pair u j i))).
  Proof.
    intros Hi Hc. rewrite !expect_ham. fold (pair u).
    rewrite sum_put by assumption.
    rewrite (sumn_ext K l (fun p => sumn l (fun q => occ (put i y c) p * occ (put i y c) q * (u p q p q - u p q q p)))
      (fun p => occ (put i y c) p * (sumn l (fun q => occ c q * pair u p q) + (if y then pair u p i else - pair u p i)))).
    2:{ intros p Hp. rewrite <- sum_put by assumption. rewrite sumn_mul_l. apply sumn_ext. intros. unfold pair. ring. }
    rewrite sum_put by assumption.
    replace (pair u i i) with (0 : K) by (unfold pair; ring).
    rewrite (sumn_ext K l (fun p => sumn l (fun q => occ c p * occ c q * (u p q p q - u p q q p)))
      (fun p => occ c p * sumn l (fun q => occ c q * pair u p q)))
      by (intros p Hp; rewrite sumn_mul_l; apply sumn_ext; intros; unfold pair; ring).
    rewrite (sumn_ext K l (fun j => occ c j * (pair u i j + pair u j i))
      (fun j => occ c j * pair u i j + occ c j * pair u j i)) by (intros; ring).
    rewrite sumn_add.
    destruct y.
    - rewrite (sumn_ext K l (fun p => occ c p * (sumn l (fun q => occ c q * pair u p q) + pair u p i))
        (fun p => occ c p * sumn l (fun q => occ c q * pair u p q) + occ c p * pair u p i)) by (intros; ring).
      rewrite sumn_add. ring.
    - rewrite (sumn_ext K l (fun p => occ c p * (sumn l (fun q => occ c q * pair u p q) + - pair u p i))
        (fun p => occ c p * sumn l (fun q => occ c q * pair u p q) - occ c p * pair u p i)) by (intros; ring).
      rewrite sumn_sub. ring.
  Qed.

  (** ** Linear operators *)
  Lemma one_body_proper l A f : proper f -> proper (one_body l A f).
  Proof.
    intros E o o' H. unfold one_body. apply sumn_ext. intros p _. apply sumn_ext. intros q _.
    rewrite (create_proper p _ (annihilate_proper q f E) o o' H). reflexivity.
  Qed.
  Lemma two_body_proper l U f : proper f -> proper (two_body l U f).
  Proof.
    intros E o o' H. unfold two_body. do 4 (apply sumn_ext; intros ? _).
    rewrite (create_proper _ _ (create_proper _ _ (annihilate_proper _ _ (annihilate_proper _ f E))) o o' H). reflexivity.
  Qed.
  (** An operator that commutes with sums and factors. *)
  Record linear (X : state -> state) : Prop := Linear {
    lin_ext : forall f g, f == g -> X f == X g;
    lin_scal : forall x f, X (fun o => x * f o) == (fun o => x * X f o);
    lin_sum : forall n F, X (fun o => sumn n (fun k => F k o)) == (fun o => sumn n (fun k => X (F k) o))
  }.
  Lemma create_linear p : linear (create p).
  Proof. split; [apply create_ext | apply create_scal | apply create_sum]. Qed.
  Lemma annihilate_linear p : linear (annihilate p).
  Proof. split; [apply annihilate_ext | apply annihilate_scal | apply annihilate_sum]. Qed.
  Lemma comp_linear X Y : linear X -> linear Y -> linear (fun f => X (Y f)).
  Proof.
    intros [X1 X2 X3] [Y1 Y2 Y3]. split.
    - intros f g H. apply X1, Y1, H.
    - intros x f o. rewrite (X1 _ _ (Y2 x f) o). apply X2.
    - intros n F o. rewrite (X1 _ _ (Y3 n F) o). apply X3.
  Qed.
  Lemma lin_one X l A f : linear X -> X (one_body l A f)
    == (fun o => sumn l (fun p => sumn l (fun q => A p q * X (create p (annihilate q f)) o))).
  Proof.
    intros [E1 E2 E3] o. unfold one_body.
    rewrite (E3 l (fun p o => sumn l (fun q => A p q * create p (annihilate q f) o)) o). apply sumn_ext. intros p _.
    rewrite (E3 l (fun q o => A p q * create p (annihilate q f) o) o). apply sumn_ext. intros q _. apply E2.
  Qed.
  Lemma lin_two X l U f : linear X -> X (two_body l U f)
    == (fun o => sumn l (fun p => sumn l (fun q => sumn l (fun r => sumn l (fun s =>
          U p q r s * X (create p (create q (annihilate s (annihilate r f)))) o))))).
  Proof.
    intros [E1 E2 E3] o. unfold two_body.
    rewrite (E3 l (fun p o => sumn l (fun q => sumn l (fun r => sumn l (fun s => U p q r s * create p (create q (annihilate s (annihilate r f))) o)))) o).
    apply sumn_ext. intros p _.
    rewrite (E3 l (fun q o => sumn l (fun r => sumn l (fun s => U p q r s * create p (create q (annihilate s (annihilate r f))) o))) o).
    apply sumn_ext. intros q _.
    rewrite (E3 l (fun r o => sumn l (fun s => U p q r s * create p (create q (annihilate s (annihilate r f))) o)) o).
    apply sumn_ext. intros r _.
    rewrite (E3 l (fun s o => U p q r s * create p (create q (annihilate s (annihilate r f))) o) o).
    apply sumn_ext. intros s _. apply E2.
  Qed.
  Lemma sum_linear (n : nat) (X : nat -> state -> state) :
    (forall k, linear (X k)) -> linear (fun f o => sumn n (fun k => X k f o)).
  Proof.
    intros H. split.
    - intros f g E o. apply sumn_ext. intros k _. apply (lin_ext _ (H k)), E.
    - intros x f o. rewrite sumn_mul_l. apply sumn_ext. intros k _. apply (lin_scal _ (H k)).
    - intros m F o. rewrite (sumn_ext K n _ (fun k => sumn m (fun j => X k (F j) o))) by (intros k _; apply (lin_sum _ (H k))).
      apply sumn_swap.
  Qed.
  Lemma scal_linear x X : linear X -> linear (fun f o => x * X f o).
  Proof.
    intros [E1 E2 E3]. split.
    - intros f g E o. rewrite (E1 f g E o). reflexivity.
    - intros y f o. rewrite (E2 y f o). ring.
    - intros m F o. rewrite (E3 m F o). apply sumn_mul_l.
  Qed.
  Lemma add_linear X Y : linear X -> linear Y -> linear (fun f o => X f o + Y f o).
  Proof.
    intros [E1 E2 E3] [D1 D2 D3]. split.
    - intros f g E o. rewrite (E1 f g E o), (D1 f g E o). reflexivity.
    - intros y f o. rewrite (E2 y f o), (D2 y f o). ring.
    - intros m F o. rewrite (E3 m F o), (D3 m F o). symmetry. apply sumn_add.
  Qed.
  Lemma one_body_linear l A : linear (one_body l A).
  Proof.
    unfold one_body. apply (sum_linear l (fun p f o => sumn l (fun q => A p q * create p (annihilate q f) o))). intros p.
    apply (sum_linear l (fun q f o => A p q * create p (annihilate q f) o)). intros q.
    apply (scal_linear (A p q) (fun f => create p (annihilate q f))). apply comp_linear; [apply create_linear | apply annihilate_linear].
  Qed.
  Lemma quad_linear p q s r : linear (fun f => create p (create q (annihilate s (annihilate r f)))).
  Proof.
    apply (comp_linear (create p)); [apply create_linear|]. apply (comp_linear (create q)); [apply create_linear|].
    apply (comp_linear (annihilate s)); apply annihilate_linear.
  Qed.
  Lemma two_body_linear l U : linear (two_body l U).
  Proof.
    unfold two_body.
    apply (sum_linear l (fun p f o => sumn l (fun q => sumn l (fun r => sumn l (fun s => U p q r s * create p (create q (annihilate s (annihilate r f))) o))))). intros p.
    apply (sum_linear l (fun q f o => sumn l (fun r => sumn l (fun s => U p q r s * create p (create q (annihilate s (annihilate r f))) o)))). intros q.
    apply (sum_linear l (fun r f o => sumn l (fun s => U p q r s * create p (create q (annihilate s (annihilate r f))) o))). intros r.
    apply (sum_linear l (fun s f o => U p q r s * create p (create q (annihilate s (annihilate r f))) o)). intros s.
    apply (scal_linear (U p q r s) (fun f => create p (create q (annihilate s (annihilate r f))))). apply quad_linear.
  Qed.
  Lemma hamiltonian_linear l x h u : linear (hamiltonian l x h u).
  Proof. unfold hamiltonian. apply add_linear; [apply one_body_linear|]. apply (scal_linear x (two_body l u)), two_body_linear. Qed.
  Lemma hamiltonian_proper l x h u f : proper f -> proper (hamiltonian l x h u f).
  Proof.
    intros E o o' H. unfold hamiltonian. rewrite (one_body_proper l h f E o o' H), (two_body_proper l u f E o o' H). reflexivity.
  Qed.

  (** ** Single excitations *)
  Lemma excite_one l h c i a : (i < l)%nat -> (a < l)%nat -> c a = false ->
    create i (annihilate a (one_body l h (determinant l c))) c = occ c i * h a i.
  Proof.
    intros Hi Ha Ea. pose proof (det_proper l c) as E.
    rewrite (lin_one (fun f => create i (annihilate a f)) l h _ (comp_linear _ _ (create_linear i) (annihilate_linear a)) c).
    assert (T : forall p q, (p < l)%nat -> (q < l)%nat ->
      create i (annihilate a (create p (annihilate q (determinant l c)))) c = delta a p * (delta i q * occ c i)).
    { intros p q Hp Hq. rewrite <- (density1 l c i q) by assumption. rewrite <- (create_scal i (delta a p) (annihilate q (determinant l c)) c).
      apply create_ext. intros o. rewrite (anti_ac a p _ (annihilate_proper q _ E) o).
      assert (Z : annihilate a (annihilate q (determinant l c)) == (fun _ => 0)).
      { intros o'. rewrite (anti_aa a q _ E o'). rewrite (annihilate_zero q _ (det_annihilate l c a Ha Ea) o'). ring. }
      rewrite (create_zero p _ Z o). ring. }
    rewrite (sumn_ext K l _ (fun p => (occ c i * h p i) * delta a p)).
    - apply sum_delta_r. exact Ha.
    - intros p Hp. rewrite (sumn_ext K l _ (fun q => (delta a p * occ c i * h p q) * delta i q)) by (intros q Hq; rewrite T by assumption; ring).
      rewrite sum_delta_r by exact Hi. ring.
  Qed.
  Lemma excite_two l u c i a : (i < l)%nat -> (a < l)%nat -> c a = false ->
    create i (annihilate a (two_body l u (determinant l c))) c
    = occ c i * sumn l (fun j => occ c j * ((u a j i j - u a j j i) + (u j a j i - u j a i j))).
  Proof.
    intros Hi Ha Ea. pose proof (det_proper l c) as E.
    rewrite (lin_two (fun f => create i (annihilate a f)) l u _ (comp_linear _ _ (create_linear i) (annihilate_linear a)) c).
    assert (T : forall p q r s, (p < l)%nat -> (q < l)%nat -> (r < l)%nat -> (s < l)%nat ->
      create i (annihilate a (create p (create q (annihilate s (annihilate r (determinant l c)))))) c
      = delta a p * (occ c i * occ c q * (delta i r * delta q s - delta i s * delta q r))
        - delta a q * (occ c i * occ c p * (delta i r * delta p s - delta i s * delta p r))).
    { intros p q r s Hp Hq Hr Hs. rewrite <- (density2 l c i q r s), <- (density2 l c i p r s) by assumption.
      set (g := annihilate s (annihilate r (determinant l c))).
      assert (Eg : proper g) by (apply annihilate_proper, annihilate_proper, E).
      assert (Z : annihilate a g == (fun _ => 0)).
      { intros o. unfold g. rewrite (anti_aa a s _ (annihilate_proper r _ E) o).
        assert (Z' : annihilate a (annihilate r (determinant l c)) == (fun _ => 0)).
        { intros o'. rewrite (anti_aa a r _ E o'). rewrite (annihilate_zero r _ (det_annihilate l c a Ha Ea) o'). ring. }
        rewrite (annihilate_zero s _ Z' o). ring. }
      assert (Y : annihilate a (create p (create q g)) == (fun o => delta a p * create q g o - delta a q * create p g o)).
      { intros o. rewrite (anti_ac a p _ (create_proper q g Eg) o).
        rewrite (create_ext p _ _ (anti_ac a q g Eg) o).
        rewrite (create_sub p (fun o => delta a q * g o) _ o). rewrite (create_zero p _ (create_zero q _ Z) o).
        rewrite (create_scal p _ g o). ring. }
      rewrite (create_ext i _ _ Y c). rewrite (create_sub i (fun o => delta a p * create q g o) _ c).
      rewrite (create_scal i _ (create q g) c), (create_scal i _ (create p g) c). reflexivity. }
    rewrite (sumn_ext K l _ (fun p => sumn l (fun q =>
      occ c i * occ c q * (u p q i q - u p q q i) * delta a p - (occ c i * occ c p * (u p q i p - u p q p i)) * delta a q))).
    2:{ intros p Hp. apply sumn_ext. intros q Hq.
        rewrite (sumn_ext K l _ (fun r => (delta a p * occ c i * occ c q * u p q r q - delta a q * occ c i * occ c p * u p q r p) * delta i r
          - ((delta a p * occ c i * occ c q * u p q r i) * delta q r - (delta a q * occ c i * occ c p * u p q r i) * delta p r))).
        - rewrite !sumn_sub, !sum_delta_r by assumption. ring.
        - intros r Hr.
          rewrite (sumn_ext K l _ (fun s => (delta a p * occ c i * occ c q * delta i r * u p q r s) * delta q s
            - (delta a p * occ c i * occ c q * delta q r * u p q r s) * delta i s
            - ((delta a q * occ c i * occ c p * delta i r * u p q r s) * delta p s
               - (delta a q * occ c i * occ c p * delta p r * u p q r s) * delta i s)))
            by (intros s Hs; rewrite T by assumption; ring).
          rewrite !sumn_sub, !sum_delta_r by assumption. ring. }
    rewrite (sumn_ext K l _ (fun p => sumn l (fun q => occ c i * occ c q * (u p q i q - u p q q i)) * delta a p
      - occ c i * occ c p * (u p a i p - u p a p i))).
    2:{ intros p Hp. rewrite sumn_sub, sum_delta_r by exact Ha. rewrite sumn_mul_r. reflexivity. }
    rewrite sumn_sub, sum_delta_r by exact Ha. rewrite <- sumn_sub, sumn_mul_l.
    apply sumn_ext. intros. ring.
  Qed.

  (** ** Products and commutators *)
  Lemma one_one l A B f : proper f -> one_body l A (one_body l B f)
    == (fun o => one_body l (mmul l A B) f o + two_body l (fun p q r s => A p r * B q s) f o).
  Proof.
    intros E o. unfold one_body at 1.
    rewrite (sumn_ext K l _ (fun p => sumn l (fun r => sumn l (fun q => sumn l (fun s =>
      (A p r * B q s * create p (annihilate s f) o) * delta r q
      + A p r * B q s * create p (create q (annihilate s (annihilate r f))) o))))).
    2:{ intros p _. apply sumn_ext. intros r _.
        rewrite (lin_one (fun f => create p (annihilate r f)) l B f (comp_linear _ _ (create_linear p) (annihilate_linear r)) o).
        rewrite sumn_mul_l. apply sumn_ext. intros q _. rewrite sumn_mul_l. apply sumn_ext. intros s _.
        rewrite (create_ext p _ _ (anti_ac r q _ (annihilate_proper s f E)) o).
        rewrite (create_sub p (fun o => delta r q * annihilate s f o) _ o).
        rewrite (create_scal p _ (annihilate s f) o).
        rewrite (create_ext p (create q (annihilate r (annihilate s f))) (fun o => - create q (annihilate s (annihilate r f)) o)).
        - rewrite (create_opp p _ o). ring.
        - intros o'. rewrite (create_ext q _ _ (anti_aa r s f E) o'). apply create_opp. }
    rewrite (sumn_ext K l _ (fun p => sumn l (fun s => mmul l A B p s * create p (annihilate s f) o)
       + sumn l (fun q => sumn l (fun r => sumn l (fun s => A p r * B q s * create p (create q (annihilate s (annihilate r f))) o))))).
    - rewrite sumn_add. reflexivity.
    - intros p _.
      rewrite (sumn_ext K l _ (fun r => sumn l (fun s => A p r * B r s * create p (annihilate s f) o)
        + sumn l (fun q => sumn l (fun s => A p r * B q s * create p (create q (annihilate s (annihilate r f))) o)))).
      + rewrite sumn_add. f_equal.
        * rewrite sumn_swap. apply sumn_ext. intros s _. unfold mmul. rewrite sumn_mul_r. reflexivity.
        * rewrite sumn_swap. reflexivity.
      + intros r Hr. rewrite (sumn_ext K l _ (fun q => sumn l (fun s => A p r * B q s * create p (annihilate s f) o) * delta r q
          + sumn l (fun s => A p r * B q s * create p (create q (annihilate s (annihilate r f))) o)))
          by (intros q _; rewrite sumn_add, sumn_mul_r; reflexivity).
        rewrite sumn_add, sum_delta_r by exact Hr. reflexivity.
  Qed.
  Lemma two_ext l U U' f : (forall p q r s, (p < l)%nat -> (q < l)%nat -> (r < l)%nat -> (s < l)%nat -> U p q r s = U' p q r s) ->
    two_body l U f == two_body l U' f.
  Proof.
    intros H o. unfold two_body. apply sumn_ext; intros p Hp. apply sumn_ext; intros q Hq.
    apply sumn_ext; intros r Hr. apply sumn_ext; intros s Hs. rewrite H by assumption. reflexivity.
  Qed.
  Lemma one_ext l A B f : (forall p q, (p < l)%nat -> (q < l)%nat -> A p q = B p q) -> one_body l A f == one_body l B f.
  Proof.
    intros H o. unfold one_body. apply sumn_ext; intros p Hp. apply sumn_ext; intros q Hq. rewrite H by assumption. reflexivity.
  Qed.
  Lemma two_add l U U' f : two_body l (fun p q r s => U p q r s + U' p q r s) f == (fun o => two_body l U f o + two_body l U' f o).
  Proof.
    intros o. unfold two_body. rewrite <- sumn_add. apply sumn_ext; intros p Hp. rewrite <- sumn_add. apply sumn_ext; intros q Hq.
    rewrite <- sumn_add. apply sumn_ext; intros r Hr. rewrite <- sumn_add. apply sumn_ext; intros s Hs. ring.
  Qed.
  Lemma one_add l A B f : one_body l (fun p q => A p q + B p q) f == (fun o => one_body l A f o + one_body l B f o).
  Proof.
    intros o. unfold one_body. rewrite <- sumn_add. apply sumn_ext; intros p Hp. rewrite <- sumn_add. apply sumn_ext; intros q Hq. ring.
  Qed.
  (** Exchanging the two annihilators flips the sign. *)
  Lemma two_swap_ket l U f : proper f -> two_body l (fun p q r s => U p q s r) f == (fun o => - two_body l U f o).
  Proof.
    intros E o. unfold two_body. rewrite <- sumn_opp. apply sumn_ext; intros p Hp. rewrite <- sumn_opp. apply sumn_ext; intros q Hq.
    rewrite sumn_swap. rewrite <- sumn_opp. apply sumn_ext; intros r Hr. rewrite <- sumn_opp. apply sumn_ext; intros s Hs.
    rewrite (create_ext p (create q (annihilate r (annihilate s f))) (fun o => - create q (annihilate s (annihilate r f)) o)).
    - rewrite (create_opp p _ o). ring.
    - intros o'. rewrite (create_ext q _ _ (anti_aa r s f E) o'). apply create_opp.
  Qed.
  Lemma two_exch l U f : proper f -> two_body l (exch U) f == (fun o => two_body l U f o + two_body l U f o).
  Proof.
    intros E o. rewrite (two_ext l (exch U) (fun p q r s => U p q r s + - U p q s r) f) by (intros; unfold exch; ring).
    rewrite (two_add l U (fun p q r s => - U p q s r) f o). f_equal.
    rewrite (two_swap_ket l (fun p q r s => - U p q r s) f E o).
    unfold two_body. rewrite <- sumn_opp. apply sumn_ext; intros p Hp. rewrite <- sumn_opp. apply sumn_ext; intros q Hq.
    rewrite <- sumn_opp. apply sumn_ext; intros r Hr. rewrite <- sumn_opp. apply sumn_ext; intros s Hs. ring.
  Qed.
  (** Anti-symmetrized elements with the factor 1/4 are plain elements with 1/2. *)
  Lemma ham_exch l h U f : proper f -> hamiltonian l quarter h (exch U) f == hamiltonian l shalf h U f.
  Proof.
    intros E o. unfold hamiltonian. rewrite (two_exch l U f E o). f_equal. unfold quarter.
    transitivity (shalf * (shalf * (two_body l U f o + two_body l U f o))); [ring|]. rewrite half_double. reflexivity.
  Qed.

  (** A one-body operator passes a creator or an annihilator. *)
  Lemma one_create l A p f : proper f -> (p < l)%nat -> one_body l A (create p f)
    == (fun o => sumn l (fun t => A t p * create t f o) + create p (one_body l A f) o).
  Proof.
    intros E Hp o. rewrite (lin_one (create p) l A f (create_linear p) o). unfold one_body.
    rewrite <- sumn_add. apply sumn_ext. intros t Ht.
    rewrite (sumn_ext K l _ (fun v => (A t v * create t f o) * delta p v + A t v * create p (create t (annihilate v f)) o)).
    - rewrite sumn_add, sum_delta_r by exact Hp. reflexivity.
    - intros v Hv. rewrite (create_ext t _ _ (anti_ac v p f E) o).
      rewrite (create_sub t (fun o => delta v p * f o) _ o). rewrite (create_scal t _ f o).
      rewrite (anti_cc t p _ (annihilate_proper v f E) o). unfold delta. rewrite (Nat.eqb_sym v p). ring.
  Qed.
  Lemma annihilate_one l A r f : proper f -> (r < l)%nat -> annihilate r (one_body l A f)
    == (fun o => sumn l (fun v => A r v * annihilate v f o) + one_body l A (annihilate r f) o).
  Proof.
    intros E Hr o. rewrite (lin_one (annihilate r) l A f (annihilate_linear r) o). unfold one_body.
    rewrite (sumn_ext K l _ (fun t => sumn l (fun v => A t v * annihilate v f o) * delta r t
      + sumn l (fun v => A t v * create t (annihilate v (annihilate r f)) o))).
    - rewrite sumn_add, sum_delta_r by exact Hr. reflexivity.
    - intros t Ht. rewrite sumn_mul_r, <- sumn_add. apply sumn_ext. intros v Hv.
      rewrite (anti_ac r t _ (annihilate_proper v f E) o).
      rewrite (create_ext t _ _ (anti_aa r v f E) o), (create_opp t _ o). ring.
  Qed.
  Definition act A U p q r s l : K :=
    sumn l (fun t => A p t * U t q r s) + sumn l (fun t => A q t * U p t r s).
  Definition coact A U p q r s l : K :=
    sumn l (fun t => U p q t s * A t r) + sumn l (fun t => U p q r t * A t s).
  Lemma one_two l A U f : proper f -> one_body l A (two_body l U f)
    == (fun o => two_body l (fun p q r s => act A U p q r s l) f o
                 + sumn l (fun p => sumn l (fun q => sumn l (fun r => sumn l (fun s =>
                     U p q r s * create p (create q (one_body l A (annihilate s (annihilate r f)))) o))))).
  Proof.
    intros E o. rewrite (lin_two (one_body l A) l U f (one_body_linear l A) o).
    pose (Q := fun p q r s => create p (create q (annihilate s (annihilate r f))) o).
    rewrite (sumn_ext K l _ (fun p => sumn l (fun q => sumn l (fun r => sumn l (fun s =>
      (sumn l (fun t => U p q r s * A t p * Q t q r s) + sumn l (fun t => U p q r s * A t q * Q p t r s))
      + U p q r s * create p (create q (one_body l A (annihilate s (annihilate r f)))) o))))).
    2:{ intros p Hp. apply sumn_ext; intros q Hq. apply sumn_ext; intros r Hr. apply sumn_ext; intros s Hs.
        set (g := annihilate s (annihilate r f)).
        assert (Eg : proper g) by (apply annihilate_proper, annihilate_proper, E).
        rewrite (one_create l A p (create q g) (create_proper q g Eg) Hp o).
        rewrite (create_ext p _ _ (one_create l A q g Eg Hq) o).
        rewrite (create_ext p (fun o => sumn l (fun t => A t q * create t g o) + create q (one_body l A g) o)
          (fun o => 1 * (sumn l (fun t => A t q * create t g o)) + create q (one_body l A g) o)) by (intros o'; ring).
        rewrite (create_lin p 1 (fun o => sumn l (fun t => A t q * create t g o)) _ o).
        rewrite (create_sum p l (fun t o => A t q * create t g o) o).
        rewrite (sumn_ext K l (fun k => create p (fun o => A k q * create k g o) o) (fun k => A k q * create p (create k g) o))
          by (intros k _; apply create_scal).
        transitivity (U p q r s * sumn l (fun t => A t p * create t (create q g) o)
          + U p q r s * sumn l (fun k => A k q * create p (create k g) o) + U p q r s * create p (create q (one_body l A g)) o); [ring|].
        f_equal. f_equal; rewrite sumn_mul_l; apply sumn_ext; intros t _; unfold Q, g; ring. }
    rewrite (sumn_ext K l _ (fun p => sumn l (fun q => sumn l (fun r => sumn l (fun s =>
       sumn l (fun t => U p q r s * A t p * Q t q r s)))) + sumn l (fun q => sumn l (fun r => sumn l (fun s => sumn l (fun t => U p q r s * A t q * Q p t r s))))
      + sumn l (fun q => sumn l (fun r => sumn l (fun s => U p q r s * create p (create q (one_body l A (annihilate s (annihilate r f)))) o))))).
    2:{ intros p _. rewrite <- !sumn_add. apply sumn_ext; intros q _. rewrite <- !sumn_add. apply sumn_ext; intros r _.
        rewrite <- !sumn_add. apply sumn_ext; intros s _. reflexivity. }
    rewrite !sumn_add. f_equal. unfold two_body, act. fold Q.
    rewrite (sumn_ext K l (fun p => sumn l (fun q => sumn l (fun r => sumn l (fun s =>
       (sumn l (fun t => A p t * U t q r s) + sumn l (fun t => A q t * U p t r s)) * create p (create q (annihilate s (annihilate r f))) o))))
      (fun p => sumn l (fun q => sumn l (fun r => sumn l (fun s => sumn l (fun t => A p t * U t q r s * Q p q r s))))
        + sumn l (fun q => sumn l (fun r => sumn l (fun s => sumn l (fun t => A q t * U p t r s * Q p q r s)))))).
    2:{ intros p _. rewrite <- !sumn_add. apply sumn_ext; intros q _. rewrite <- !sumn_add. apply sumn_ext; intros r _.
        rewrite <- !sumn_add. apply sumn_ext; intros s _. rewrite <- !sumn_mul_r. unfold Q. ring. }
    rewrite sumn_add. f_equal.
    - (* rename p <-> t *)
      rewrite (sumn_ext K l (fun p => sumn l (fun q => sumn l (fun r => sumn l (fun s => sumn l (fun t => U p q r s * A t p * Q t q r s)))))
        (fun p => sumn l (fun t => sumn l (fun q => sumn l (fun r => sumn l (fun s => A t p * U p q r s * Q t q r s)))))).
      2:{ intros p _. rewrite (sumn_swap K l l (fun t q => sumn l (fun r => sumn l (fun s => A t p * U p q r s * Q t q r s)))).
          apply sumn_ext; intros q _. rewrite (sumn_swap K l l (fun t r => sumn l (fun s => A t p * U p q r s * Q t q r s))).
          apply sumn_ext; intros r _. rewrite (sumn_swap K l l (fun t s => A t p * U p q r s * Q t q r s)).
          apply sumn_ext; intros s _. apply sumn_ext; intros t _. ring. }
      rewrite sumn_swap. apply sumn_ext; intros t _.
      rewrite (sumn_swap K l l (fun p q => sumn l (fun r => sumn l (fun s => A t p * U p q r s * Q t q r s)))).
      apply sumn_ext; intros q _. rewrite (sumn_swap K l l (fun p r => sumn l (fun s => A t p * U p q r s * Q t q r s))).
      apply sumn_ext; intros r _. apply sumn_swap.
    - apply sumn_ext; intros p _.
      rewrite (sumn_ext K l (fun q => sumn l (fun r => sumn l (fun s => sumn l (fun t => U p q r s * A t q * Q p t r s))))
        (fun q => sumn l (fun t => sumn l (fun r => sumn l (fun s => A t q * U p q r s * Q p t r s))))).
      2:{ intros q _. rewrite (sumn_swap K l l (fun t r => sumn l (fun s => A t q * U p q r s * Q p t r s))).
          apply sumn_ext; intros r _. rewrite (sumn_swap K l l (fun t s => A t q * U p q r s * Q p t r s)).
          apply sumn_ext; intros s _. apply sumn_ext; intros t _. ring. }
      rewrite sumn_swap. apply sumn_ext; intros t _.
      rewrite (sumn_swap K l l (fun q r => sumn l (fun s => A t q * U p q r s * Q p t r s))).
      apply sumn_ext; intros r _. apply sumn_swap.
  Qed.
  Lemma two_one l A U f : proper f -> two_body l U (one_body l A f)
    == (fun o => two_body l (fun p q r s => coact A U p q r s l) f o
                 + sumn l (fun p => sumn l (fun q => sumn l (fun r => sumn l (fun s =>
                     U p q r s * create p (create q (one_body l A (annihilate s (annihilate r f)))) o))))).
  Proof.
    intros E o. unfold two_body. rewrite <- sumn_add. apply sumn_ext; intros p Hp. rewrite <- sumn_add. apply sumn_ext; intros q Hq.
    pose (Q := fun r s => create p (create q (annihilate s (annihilate r f))) o).
    rewrite (sumn_ext K l _ (fun r => sumn l (fun s =>
      (sumn l (fun t => U p q r s * A r t * Q t s) + sumn l (fun t => U p q r s * A s t * Q r t))
      + U p q r s * create p (create q (one_body l A (annihilate s (annihilate r f)))) o))).
    2:{ intros r Hr. apply sumn_ext; intros s Hs.
        pose proof (comp_linear _ _ (create_linear p) (create_linear q)) as L.
        assert (T : annihilate s (annihilate r (one_body l A f)) ==
          (fun o => (sumn l (fun t => A r t * annihilate s (annihilate t f) o) + sumn l (fun t => A s t * annihilate t (annihilate r f) o))
            + one_body l A (annihilate s (annihilate r f)) o)).
        { intros o'. rewrite (annihilate_ext s _ _ (annihilate_one l A r f E Hr) o').
          rewrite (annihilate_ext s _ (fun o => 1 * (sumn l (fun v => A r v * annihilate v f o)) + one_body l A (annihilate r f) o)) by (intros x; ring).
          rewrite (annihilate_lin s 1 (fun o => sumn l (fun v => A r v * annihilate v f o)) _ o').
          rewrite (annihilate_sum s l (fun v o => A r v * annihilate v f o) o').
          rewrite (sumn_ext K l _ (fun v => A r v * annihilate s (annihilate v f) o')) by (intros v _; apply annihilate_scal).
          rewrite (annihilate_one l A s _ (annihilate_proper r f E) Hs o'). ring. }
        rewrite (lin_ext _ L _ _ T o).
        pose (X := fun f => create p (create q f)). change (fun f => create p (create q f)) with X in L.
        change (U p q r s * X (fun o => (sumn l (fun t => A r t * annihilate s (annihilate t f) o) + sumn l (fun t => A s t * annihilate t (annihilate r f) o))
            + one_body l A (annihilate s (annihilate r f)) o) o = 
           sumn l (fun t => U p q r s * A r t * Q t s) + sumn l (fun t => U p q r s * A s t * Q r t) + U p q r s * X (one_body l A (annihilate s (annihilate r f))) o).
        assert (LA : forall g h : state, X (fun o => g o + h o) == (fun o => X g o + X h o)).
        { intros g h o'. unfold X.
          rewrite (create_ext p _ (fun o => 1 * create q g o + create q h o)).
          - rewrite (create_lin p 1 _ _ o'). ring.
          - intros x. rewrite (create_ext q _ (fun o => 1 * g o + h o)) by (intros y; ring). apply create_lin. }
        rewrite (LA (fun o => sumn l (fun t => A r t * annihilate s (annihilate t f) o) + sumn l (fun t => A s t * annihilate t (annihilate r f) o)) _ o).
        rewrite (LA (fun o => sumn l (fun t => A r t * annihilate s (annihilate t f) o)) _ o).
        rewrite (lin_sum _ L l (fun t o => A r t * annihilate s (annihilate t f) o) o).
        rewrite (lin_sum _ L l (fun t o => A s t * annihilate t (annihilate r f) o) o).
        transitivity (U p q r s * sumn l (fun t => X (fun o => A r t * annihilate s (annihilate t f) o) o)
          + U p q r s * sumn l (fun t => X (fun o => A s t * annihilate t (annihilate r f) o) o)
          + U p q r s * X (one_body l A (annihilate s (annihilate r f))) o); [ring|].
        f_equal. f_equal; rewrite sumn_mul_l; apply sumn_ext; intros t _.
        - rewrite (lin_scal _ L (A r t) _ o). unfold X, Q. ring.
        - rewrite (lin_scal _ L (A s t) _ o). unfold X, Q. ring. }
    rewrite (sumn_ext K l _ (fun r => sumn l (fun s => sumn l (fun t => U p q r s * A r t * Q t s))
      + sumn l (fun s => sumn l (fun t => U p q r s * A s t * Q r t))
      + sumn l (fun s => U p q r s * create p (create q (one_body l A (annihilate s (annihilate r f)))) o)))
      by (intros r _; rewrite <- !sumn_add; reflexivity).
    rewrite !sumn_add. f_equal. unfold coact. 
    rewrite (sumn_ext K l (fun r => sumn l (fun s => (sumn l (fun t => U p q t s * A t r) + sumn l (fun t => U p q r t * A t s)) * create p (create q (annihilate s (annihilate r f))) o))
      (fun r => sumn l (fun s => sumn l (fun t => U p q t s * A t r * Q r s)) + sumn l (fun s => sumn l (fun t => U p q r t * A t s * Q r s)))).
    2:{ intros r _. rewrite <- sumn_add. apply sumn_ext; intros s _. rewrite <- !sumn_mul_r. unfold Q. ring. }
    rewrite sumn_add. f_equal.
    - rewrite (sumn_ext K l (fun r => sumn l (fun s => sumn l (fun t => U p q r s * A r t * Q t s)))
        (fun r => sumn l (fun t => sumn l (fun s => U p q r s * A r t * Q t s)))) by (intros; apply sumn_swap).
      rewrite sumn_swap. apply sumn_ext; intros t _. apply sumn_swap.
    - apply sumn_ext; intros r _. apply sumn_swap.
  Qed.
  (** A one-body operator whose matrix commutes with h and with u (on each pair)
      commutes with the Hamiltonian. *)
  Lemma symmetry_commutes l x A h u f : proper f ->
    (forall p q, (p < l)%nat -> (q < l)%nat -> mmul l A h p q = mmul l h A p q) ->
    (forall p q r s, (p < l)%nat -> (q < l)%nat -> (r < l)%nat -> (s < l)%nat -> act A u p q r s l = coact A u p q r s l) ->
    one_body l A (hamiltonian l x h u f) == hamiltonian l x h u (one_body l A f).
  Proof.
    intros E Hh Hu o. unfold hamiltonian.
    pose proof (one_body_linear l A) as L.
    rewrite (lin_ext _ L _ (fun o => sumn 2 (fun k => match k with O => one_body l h f o | _ => x * two_body l u f o end)))
      by (intros o'; cbn; ring).
    rewrite (lin_sum _ L 2 (fun k o => match k with O => one_body l h f o | _ => x * two_body l u f o end) o). cbn [sumn].
    change (fun o => one_body l h f o) with (one_body l h f).
    rewrite (lin_scal _ L x (two_body l u f) o).
    rewrite (one_one l A h f E o), (one_one l h A f E o), (one_two l A u f E o), (two_one l A u f E o).
    rewrite (one_ext l _ _ f Hh o), (two_ext l _ _ f Hu o).
    assert (W : two_body l (fun p q r s => A p r * h q s) f o = two_body l (fun p q r s => h p r * A q s) f o).
    { unfold two_body. rewrite sumn_swap. apply sumn_ext; intros q _. apply sumn_ext; intros p _.
      rewrite sumn_swap. apply sumn_ext; intros s _. apply sumn_ext; intros r _.
      rewrite (anti_cc p q _ (annihilate_proper s _ (annihilate_proper r f E)) o).
      rewrite (create_ext q (create p (annihilate s (annihilate r f))) (fun o => - create p (annihilate r (annihilate s f)) o)).
      - rewrite (create_opp q _ o). ring.
      - intros o'. rewrite (create_ext p _ _ (anti_aa s r f E) o'). apply create_opp. }
    rewrite W. ring.
  Qed.

  (** ** Closed shells *)
  Lemma closed_one l A c : closed_shell c ->
    (forall P Q, (P < 2 * l)%nat -> (Q < 2 * l)%nat -> (P / 2 <> Q / 2)%nat -> A P Q = 0) ->
    (forall p, (p < l)%nat -> A (2 * p)%nat (2 * p)%nat + A (2 * p + 1)%nat (2 * p + 1)%nat = 0) ->
    one_body (2 * l) A (determinant (2 * l) c) == (fun _ => 0).
  Proof.
    intros Hc Hoff Htr o. unfold one_body. rewrite sumn_double. apply sumn_zero'. intros p Hp.
    pose (V := fun P Q => create P (annihilate Q (determinant (2 * l) c : state)) o).
    assert (D0 : (2 * p / 2 = p)%nat) by (rewrite Nat.mul_comm; apply Nat.div_mul; lia).
    assert (D1 : ((2 * p + 1) / 2 = p)%nat) by (rewrite Nat.mul_comm, Nat.div_add_l by lia; cbn; lia).
    assert (Row : forall P, (P < 2 * l)%nat -> (P / 2 = p)%nat -> sumn (2 * l) (fun Q => A P Q * create P (annihilate Q (determinant (2 * l) c)) o)
      = A P (2 * p)%nat * V P (2 * p)%nat + A P (2 * p + 1)%nat * V P (2 * p + 1)%nat).
    { intros P HP HPp. rewrite sumn_double.
      rewrite (sumn_pick K l p).
      - reflexivity.
      - exact Hp.
      - intros q Hq Hne. rewrite !(Hoff P) by (first [lia | rewrite HPp;
          first [rewrite (Nat.mul_comm 2 q), Nat.div_mul by lia; congruence | rewrite (Nat.mul_comm 2 q), Nat.div_add_l by lia; cbn; lia]]). ring. }
    rewrite !Row by (first [lia | assumption]).
    assert (N : forall P, (P < 2 * l)%nat -> V P P = if c P then determinant (2 * l) c o else 0) by (intros P HP; apply det_number; exact HP).
    assert (X : forall P Q, (P < 2 * l)%nat -> (Q < 2 * l)%nat -> c P = c Q -> P <> Q -> V P Q = 0).
    { intros P Q HP HQ Hc' Hne. unfold V. destruct (c P) eqn:EP.
      - rewrite (anti_ca Q P _ (det_proper _ _) o). rewrite (annihilate_zero Q _ (det_create _ c P HP EP) o).
        unfold delta. destruct (Nat.eqb_spec Q P); [congruence | ring].
      - apply (create_zero P _ (det_annihilate _ c Q HQ (eq_sym Hc')) o). }
    rewrite (X (2 * p)%nat (2 * p + 1)%nat), (X (2 * p + 1)%nat (2 * p)%nat) by (first [lia | apply Hc | symmetry; apply Hc]).
    rewrite !N by lia. rewrite (Hc p). specialize (Htr p Hp).
    destruct (c (2 * p + 1)%nat); [|ring].
    transitivity ((A (2 * p)%nat (2 * p)%nat + A (2 * p + 1)%nat (2 * p + 1)%nat) * determinant (2 * l) c o); [ring|].
    rewrite Htr. ring.
  Qed.

  (** The operators of a transformed basis. *)
  Lemma anti_in l k (C D : nat -> nat -> K) p q f : proper f -> (p < k)%nat -> (q < k)%nat ->
    forall o, annihilate_in l D p (create_in l C q f) o + create_in l C q (annihilate_in l D p f) o = mmul l D C p q * f o.
  Proof.
    intros E Hp Hq o. unfold annihilate_in at 1, create_in.
    rewrite (sumn_ext K l _ (fun a => sumn l (fun b => D p a * C b q * annihilate a (create b f) o))).
    2:{ intros a _. rewrite (annihilate_sum a l (fun b o => C b q * create b f o) o), sumn_mul_l.
        apply sumn_ext. intros b _. rewrite (annihilate_scal a (C b q) _ o). ring. }
    rewrite (sumn_ext K l (fun a => C a q * create a (annihilate_in l D p f) o) (fun b => sumn l (fun a => D p a * C b q * create b (annihilate a f) o))).
    2:{ intros b _. unfold annihilate_in. rewrite (create_sum b l (fun a o => D p a * annihilate a f o) o), sumn_mul_l.
        apply sumn_ext. intros a _. rewrite (create_scal b (D p a) _ o). ring. }
    rewrite (sumn_swap K l l (fun b a => D p a * C b q * create b (annihilate a f) o)).
    rewrite <- sumn_add. unfold mmul. rewrite sumn_mul_r. apply sumn_ext. intros a Ha. rewrite <- sumn_add.
    rewrite (sumn_ext K l _ (fun b => (D p a * C b q * f o) * delta a b)).
    - rewrite sum_delta_r by exact Ha. reflexivity.
    - intros b _. rewrite (anti_ac a b f E o). ring.
  Qed.
  Lemma new_fermions l k (C D : nat -> nat -> K) :
    (forall p q, (p < k)%nat -> (q < k)%nat -> mmul l D C p q = delta p q) ->
    forall p q f, proper f -> (p < k)%nat -> (q < k)%nat -> forall o,
    annihilate_in l D p (create_in l C q f) o + create_in l C q (annihilate_in l D p f) o = delta p q * f o.
  Proof. intros H p q f E Hp Hq o. rewrite (anti_in l k C D p q f E Hp Hq o), H by assumption. reflexivity. Qed.
  Lemma fermions p q f : proper f -> forall o,
    annihilate p (create q f) o + create q (annihilate p f) o = delta p q * f o /\
    annihilate p (annihilate q f) o + annihilate q (annihilate p f) o = 0 /\
    create p (create q f) o + create q (create p f) o = 0.
  Proof.
    intros E o. rewrite (anti_ac p q f E o), (anti_aa p q f E o), (anti_cc p q f E o). repeat split; ring.
  Qed.
  Lemma number_conserved l x h u f : proper f -> forall o,
    one_body l delta (hamiltonian l x h u f) o = hamiltonian l x h u (one_body l delta f) o.
  Proof.
    intros E. assert (L : forall p (g : nat -> K), (p < l)%nat -> sumn l (fun t => delta p t * g t) = g p :> K).
    { intros p g Hp. rewrite <- (sum_delta_r l p g Hp). apply sumn_ext. intros. ring. }
    assert (R : forall p (g : nat -> K), (p < l)%nat -> sumn l (fun t => g t * delta t p) = g p :> K).
    { intros p g Hp. rewrite <- (sum_delta_r l p g Hp). apply sumn_ext. intros. unfold delta. rewrite Nat.eqb_sym. reflexivity. }
    apply symmetry_commutes; [exact E | |].
    - intros p q Hp Hq. unfold mmul. rewrite L, R by assumption. reflexivity.
    - intros p q r s Hp Hq Hr Hs. unfold act, coact.
      rewrite (L p (fun t => u t q r s)), (L q (fun t => u p t r s)), (R r (fun t => u p q t s)), (R s (fun t => u p q r t)) by assumption.
      reflexivity.
  Qed.
End FockProofs.
