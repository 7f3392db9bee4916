(** Characterising lemmas for the array functions of Numpy.v: what they return
    on arrays of the ranks the library uses. *)
From Coq Require Import List Arith ZArith Lia Bool.
From Verif Require Import Scalar Py Numpy.
Import ListNotations.

Lemma list_eqb_spec a b : list_eqb a b = true <-> a = b.
Proof.
  revert b. induction a as [|x a IH]; intros [|y b]; cbn; split; intros H; try congruence; try discriminate.
  - apply andb_true_iff in H. destruct H as [H1 H2]. apply Nat.eqb_eq in H1. apply IH in H2. congruence.
  - injection H as -> ->. rewrite Nat.eqb_refl. apply IH. reflexivity.
Qed.
Lemma list_eqb_refl a : list_eqb a a = true.
Proof. apply list_eqb_spec. reflexivity. Qed.

Lemma dmax_idem d : dmax d d = d.
Proof. destruct d; reflexivity. Qed.
Lemma dmax_complex_l d : dmax Complex128 d = Complex128.
Proof. destruct d; reflexivity. Qed.
Lemma dmax_complex_r d : dmax d Complex128 = Complex128.
Proof. destruct d; reflexivity. Qed.
Lemma castable_complex d : castable d Complex128 = true.
Proof. destruct d; reflexivity. Qed.
Lemma castable_refl d : castable d d = true.
Proof. destruct d; reflexivity. Qed.
Lemma deqb_spec d e : deqb d e = true <-> d = e.
Proof. destruct d, e; cbn; split; intros; congruence. Qed.

Section Facts.
  Variable K : scalar.
  Local Open Scope K_scope.
  Add Ring Kring : (s_ring K).
  Notation arr := (arr K).
  Implicit Types a b c : arr.

  Lemma aeq_refl a : aeq a a.
  Proof. split; [reflexivity|]. reflexivity. Qed.
  Lemma aeq_sym a b : aeq a b -> aeq b a.
  Proof. intros [H1 H2]. split; [congruence|]. intros idx V. symmetry. apply H2. rewrite H1. exact V. Qed.
  Lemma aeq_trans a b c : aeq a b -> aeq b c -> aeq a c.
  Proof.
    intros [H1 H2] [H3 H4]. split; [congruence|]. intros idx V. rewrite H2 by exact V.
    apply H4. rewrite <- H1. exact V.
  Qed.

  Lemma valid2 n m idx : valid [n; m] idx -> exists p q, idx = [p; q] /\ p < n /\ q < m.
  Proof.
    intros V. inversion V as [|p ? i1 ? Hp V1]; subst. inversion V1 as [|q ? i2 ? Hq V2]; subst.
    inversion V2; subst. eauto.
  Qed.
  Lemma valid3 n m o idx : valid [n; m; o] idx -> exists p q r, idx = [p; q; r] /\ p < n /\ q < m /\ r < o.
  Proof.
    intros V. inversion V as [|p ? i1 ? Hp V1]; subst. destruct (valid2 _ _ _ V1) as (q & r & -> & Hq & Hr).
    exists p, q, r. auto.
  Qed.
  Lemma valid4 n m o t idx : valid [n; m; o; t] idx ->
    exists p q r s, idx = [p; q; r; s] /\ p < n /\ q < m /\ r < o /\ s < t.
  Proof.
    intros V. inversion V as [|p ? i1 ? Hp V1]; subst. destruct (valid3 _ _ _ _ V1) as (q & r & s & -> & Hq & Hr & Hs).
    exists p, q, r, s. auto.
  Qed.
  Lemma valid_cons n sh idx : valid (n :: sh) idx -> exists p x, idx = p :: x /\ p < n /\ valid sh x.
  Proof. intros V. inversion V as [|p ? x ? Hp V1]; subst. eauto. Qed.
  Lemma valid_length sh idx : valid sh idx -> length idx = length sh.
  Proof. intros V. induction V; cbn; congruence. Qed.

  Lemma aeq2 a b n m : shape a = [n; m] -> shape b = [n; m] ->
    (forall p q, p < n -> q < m -> mat a p q = mat b p q) -> aeq a b.
  Proof.
    intros Ha Hb H. split; [congruence|]. intros idx V. rewrite Ha in V.
    destruct (valid2 _ _ _ V) as (p & q & -> & Hp & Hq). apply H; assumption.
  Qed.
  Lemma aeq4 a b n m o t : shape a = [n; m; o; t] -> shape b = [n; m; o; t] ->
    (forall p q r s, p < n -> q < m -> r < o -> s < t -> ten a p q r s = ten b p q r s) -> aeq a b.
  Proof.
    intros Ha Hb H. split; [congruence|]. intros idx V. rewrite Ha in V.
    destruct (valid4 _ _ _ _ _ V) as (p & q & r & s & -> & Hp & Hq & Hr & Hs). apply H; assumption.
  Qed.

  (** dot, matmul *)
  Lemma dot22 a b n m k : shape a = [n; m] -> shape b = [m; k] ->
    exists c, dot a b = Ok c /\ shape c = [n; k] /\ dt c = dmax (dt a) (dt b) /\
      forall p q, mat c p q = sumn m (fun x => mat a p x * mat b x q).
  Proof.
    destruct a as [sa da ga], b as [sb db gb]; cbn [shape]; intros -> ->.
    eexists. unfold dot, ndim, tensordot; cbn. rewrite Nat.eqb_refl. cbn.
    split; [reflexivity|]. split; [reflexivity|]. split; [reflexivity|].
    intros p q. reflexivity.
  Qed.
  Lemma dot22_mismatch a b n m m' k : shape a = [n; m] -> shape b = [m'; k] -> m <> m' ->
    dot a b = Err ValueError.
  Proof.
    destruct a as [sa da ga], b as [sb db gb]; cbn [shape]; intros -> -> H.
    unfold dot, ndim, tensordot; cbn. destruct (Nat.eqb_spec m m'); [contradiction|]. reflexivity.
  Qed.
  Lemma matmul22 a b n m k : shape a = [n; m] -> shape b = [m; k] ->
    exists c, matmul a b = Ok c /\ shape c = [n; k] /\ dt c = dmax (dt a) (dt b) /\
      forall p q, mat c p q = sumn m (fun x => mat a p x * mat b x q).
  Proof.
    intros Ha Hb. unfold matmul, ndim. rewrite Ha, Hb. cbn. apply dot22; assumption.
  Qed.

  (** conj().T *)
  Lemma aT_conj2 a n m : shape a = [n; m] ->
    shape (aT (aconj a)) = [m; n] /\ forall p q, mat (aT (aconj a)) p q = sconj (mat a q p).
  Proof. destruct a as [sa da ga]; cbn [shape]; intros ->. split; [reflexivity|]. reflexivity. Qed.

  (** Broadcasting on equal shapes *)
  Lemma bshape_rev_same sh : bshape_rev sh sh = Ok sh.
  Proof. induction sh as [|n sh IH]; cbn; [reflexivity|]. rewrite IH. cbn. rewrite Nat.eqb_refl. reflexivity. Qed.
  Lemma bshape_same sh : bshape sh sh = Ok sh.
  Proof. unfold bshape. rewrite bshape_rev_same. cbn. rewrite rev_involutive. reflexivity. Qed.
  Lemma bget_valid a idx : valid (shape a) idx -> bget a idx = get a idx.
  Proof.
    intros V. unfold bget, ndim. rewrite (valid_length _ _ V), Nat.sub_diag. cbn [skipn]. f_equal.
    induction V as [|i n idx sh Hi V IH]; cbn; [reflexivity|].
    rewrite IH. f_equal. destruct (Nat.eqb_spec n 1); lia.
  Qed.
  Lemma broadcast2_same f a b : shape a = shape b ->
    exists c, broadcast2 f a b = Ok c /\ shape c = shape a /\ dt c = dmax (dt a) (dt b) /\
      forall idx, valid (shape a) idx -> get c idx = f (get a idx) (get b idx).
  Proof.
    intros H. unfold broadcast2. rewrite H, bshape_same. cbn. eexists. split; [reflexivity|].
    cbn. split; [reflexivity|]. split; [reflexivity|].
    intros idx V. rewrite !bget_valid; [reflexivity | exact V | rewrite H; exact V].
  Qed.
  Lemma inplace_same f a b : shape a = shape b -> castable (dt b) (dt a) = true ->
    exists c, inplace f a b = Ok c /\ shape c = shape a /\ dt c = dt a /\
      forall idx, valid (shape a) idx -> get c idx = f (get a idx) (get b idx).
  Proof.
    intros H Hc. unfold inplace. destruct (broadcast2_same f a b H) as (c & -> & Hs & Hd & Hg). cbn.
    rewrite Hs, list_eqb_refl, Hc. eexists. split; [reflexivity|]. cbn. auto.
  Qed.
  Lemma inplace_cast f a b : shape a = shape b -> castable (dt b) (dt a) = false ->
    inplace f a b = Err UFuncTypeError.
  Proof.
    intros H Hc. unfold inplace. destruct (broadcast2_same f a b H) as (c & -> & Hs & Hd & Hg). cbn.
    rewrite Hs, list_eqb_refl, Hc. reflexivity.
  Qed.

  (** kron *)
  Lemma kron22 a b n m n' m' : shape a = [n; m] -> shape b = [n'; m'] ->
    shape (kron a b) = [(n * n')%nat; (m * m')%nat] /\ dt (kron a b) = dmax (dt a) (dt b) /\
    forall p q, mat (kron a b) p q = mat a (p / n') (q / m') * mat b (p mod n') (q mod m').
  Proof.
    destruct a as [sa da ga], b as [sb db gb]; cbn [shape]; intros -> ->.
    split; [reflexivity|]. split; [reflexivity|]. reflexivity.
  Qed.
  Lemma kron44 a b n m o t n' m' o' t' : shape a = [n; m; o; t] -> shape b = [n'; m'; o'; t'] ->
    shape (kron a b) = [(n * n')%nat; (m * m')%nat; (o * o')%nat; (t * t')%nat] /\
    dt (kron a b) = dmax (dt a) (dt b) /\
    forall p q r s, ten (kron a b) p q r s
      = ten a (p / n') (q / m') (r / o') (s / t') * ten b (p mod n') (q mod m') (r mod o') (s mod t').
  Proof.
    destruct a as [sa da ga], b as [sb db gb]; cbn [shape]; intros -> ->.
    split; [reflexivity|]. split; [reflexivity|]. reflexivity.
  Qed.

  (** transposing the last two of four axes *)
  Lemma transpose_last a n m o t : shape a = [n; m; o; t] ->
    exists c, transpose [0; 1; 3; 2]%nat a = Ok c /\ shape c = [n; m; t; o] /\ dt c = dt a /\
      forall p q r s, ten c p q r s = ten a p q s r.
  Proof.
    destruct a as [sa da ga]; cbn [shape]; intros ->. eexists. unfold transpose, ndim; cbn.
    split; [reflexivity|]. cbn. split; [reflexivity|]. split; [reflexivity|]. reflexivity.
  Qed.

  (** stack of rows *)
  Lemma row_ok a n sh i : shape a = n :: sh -> i < n ->
    exists r, row a i = Ok r /\ shape r = sh /\ dt r = dt a /\ forall idx, get r idx = get a (i :: idx).
  Proof.
    intros Hs Hi. unfold row. rewrite Hs. apply Nat.ltb_lt in Hi. rewrite Hi.
    eexists. split; [reflexivity|]. cbn. auto.
  Qed.

  Lemma stack_ok (xs : list arr) sh : (forall x, In x xs -> shape x = sh) -> xs <> [] ->
    exists c, stack xs = Ok c /\ shape c = length xs :: sh /\
      forall i x idx, nth_error xs i = Some x -> get c (i :: idx) = get x idx.
  Proof.
    intros H Hne. destruct xs as [|a xs]; [congruence|]. unfold stack.
    assert (E : forallb (fun b => list_eqb (shape a) (shape b)) xs = true).
    { apply forallb_forall. intros b Hb. rewrite (H a), (H b) by (cbn; auto). apply list_eqb_refl. }
    rewrite E. eexists. split; [reflexivity|]. cbn [shape]. split.
    - rewrite (H a) by (cbn; auto). reflexivity.
    - intros i x idx Hn. cbn [get]. f_equal. apply nth_error_nth with (d := a) in Hn. exact Hn.
  Qed.

  (** rmap over a range *)
  Lemma rmap_ok {A B} (f : A -> res B) (g : A -> B) xs :
    (forall x, In x xs -> f x = Ok (g x)) -> rmap f xs = Ok (map g xs).
  Proof.
    induction xs as [|x xs IH]; intros H; cbn; [reflexivity|].
    rewrite (H x) by (cbn; auto). cbn. rewrite IH by (intros; apply H; cbn; auto). reflexivity.
  Qed.
  Lemma rmap_ok_ex {A B} (f : A -> res B) (P : A -> B -> Prop) xs :
    (forall x, In x xs -> exists y, f x = Ok y /\ P x y) -> exists ys, rmap f xs = Ok ys /\ Forall2 P xs ys.
  Proof.
    induction xs as [|x xs IH]; intros H; cbn.
    - exists []. split; [reflexivity | constructor].
    - destruct (H x) as (y & -> & Hy); [cbn; auto|]. destruct IH as (ys & -> & Hys); [intros; apply H; cbn; auto|].
      exists (y :: ys). split; [reflexivity | constructor; assumption].
  Qed.

  (** outer product *)
  Lemma outer22 a b n m n' m' : shape a = [n; m] -> shape b = [n'; m'] ->
    exists c, einsum_outer a b = Ok c /\ shape c = [n; n'; m; m'] /\ dt c = dmax (dt a) (dt b) /\
      forall p q r s, ten c p q r s = mat a p r * mat b q s.
  Proof.
    intros Ha Hb. unfold einsum_outer. rewrite Ha, Hb. eexists. split; [reflexivity|]. cbn. auto.
  Qed.
End Facts.
