(** Algebra of the basis-change formulas of Spec.v. *)
From Coq Require Import List Arith ZArith Lia Bool.
From Verif Require Import Scalar Spec.
Import ListNotations.

Section Facts.
  Variable K : scalar.
  Local Open Scope K_scope.
  Add Ring Kring : (s_ring K).
  Implicit Types h C D A B : nat -> nat -> K.
  Implicit Types u v : nat -> nat -> nat -> nat -> K.

  Lemma T1_ext n h h' C C' D D' p q :
    (forall a b, (a < n)%nat -> (b < n)%nat -> h a b = h' a b) ->
    (forall b, (b < n)%nat -> C b q = C' b q) ->
    (forall a, (a < n)%nat -> D p a = D' p a) ->
    T1 n h C D p q = T1 n h' C' D' p q.
  Proof.
    intros H1 H2 H3. unfold T1. apply sumn_ext; intros a Ha. apply sumn_ext; intros b Hb.
    rewrite H1, H2, H3 by assumption. reflexivity.
  Qed.

  Lemma T1_zero n C D p q : T1 n (fun _ _ => 0) C D p q = 0.
  Proof. unfold T1. apply sumn_zero'; intros. apply sumn_zero'; intros. ring. Qed.
  Lemma T1_sub n h g C D p q :
    T1 n (fun a b => h a b - g a b) C D p q = T1 n h C D p q - T1 n g C D p q.
  Proof.
    unfold T1. rewrite <- sumn_sub. apply sumn_ext; intros. rewrite <- sumn_sub. apply sumn_ext; intros. ring.
  Qed.
  Lemma T1_add n h g C D p q :
    T1 n (fun a b => h a b + g a b) C D p q = T1 n h C D p q + T1 n g C D p q.
  Proof.
    unfold T1. rewrite <- sumn_add. apply sumn_ext; intros. rewrite <- sumn_add. apply sumn_ext; intros. ring.
  Qed.
  Lemma T1_opp n h C D p q :
    T1 n (fun a b => - h a b) C D p q = - T1 n h C D p q.
  Proof.
    unfold T1. rewrite <- sumn_opp. apply sumn_ext; intros. rewrite <- sumn_opp. apply sumn_ext; intros. ring.
  Qed.
  Lemma T1_scale n c h C D p q :
    T1 n (fun a b => c * h a b) C D p q = c * T1 n h C D p q.
  Proof.
    unfold T1. rewrite sumn_mul_l. apply sumn_ext; intros. rewrite sumn_mul_l. apply sumn_ext; intros. ring.
  Qed.
  Lemma T1_sumn n m (h : nat -> nat -> nat -> K) C D p q :
    T1 n (fun a b => sumn m (fun i => h i a b)) C D p q = sumn m (fun i => T1 n (h i) C D p q).
  Proof.
    induction m as [|m IH]; cbn; [apply T1_zero|]. rewrite T1_add, IH. reflexivity.
  Qed.

  (** The same formula as two matrix products. *)
  Lemma T1_mmul n h C D p q : T1 n h C D p q = mmul n D (mmul n h C) p q.
  Proof.
    unfold T1, mmul. apply sumn_ext; intros. rewrite sumn_mul_l. apply sumn_ext; intros. ring.
  Qed.
  Lemma mmul_assoc n m A B C p q : mmul n A (mmul m B C) p q = mmul m (mmul n A B) C p q.
  Proof.
    unfold mmul.
    transitivity (sumn n (fun x => sumn m (fun y => A p x * B x y * C y q))).
    - apply sumn_ext; intros. rewrite sumn_mul_l. apply sumn_ext; intros. ring.
    - rewrite sumn_swap. apply sumn_ext; intros. rewrite sumn_mul_r. reflexivity.
  Qed.
  Lemma mmul_ext n A A' B B' p q :
    (forall x, (x < n)%nat -> A p x = A' p x) -> (forall x, (x < n)%nat -> B x q = B' x q) ->
    mmul n A B p q = mmul n A' B' p q.
  Proof. intros H1 H2. unfold mmul. apply sumn_ext; intros. rewrite H1, H2 by assumption. reflexivity. Qed.

  Lemma mmul_delta_l n A p q : (p < n)%nat -> mmul n delta A p q = A p q.
  Proof.
    intros H. unfold mmul, delta. rewrite <- (sumn_delta K n p (fun x => A x q) H).
    apply sumn_ext; intros k Hk. rewrite Nat.eqb_sym. reflexivity.
  Qed.
  Lemma mmul_delta_r n A p q : (q < n)%nat -> mmul n A delta p q = A p q.
  Proof.
    intros H. unfold mmul, delta. rewrite <- (sumn_delta K n q (fun x => A p x) H).
    apply sumn_ext; intros k Hk. destruct (k =? q)%nat; ring.
  Qed.

  Lemma T1_compose l k h C1 D1 C2 D2 p q :
    T1 k (T1 l h C1 D1) C2 D2 p q = T1 l h (mmul k C1 C2) (mmul k D2 D1) p q.
  Proof.
    rewrite !T1_mmul.
    rewrite (mmul_ext k D2 D2 _ (mmul l D1 (mmul k (mmul l h C1) C2)) p q).
    - rewrite mmul_assoc. apply mmul_ext; [reflexivity|]. intros x Hx. symmetry. apply mmul_assoc.
    - reflexivity.
    - intros x Hx. rewrite mmul_assoc. apply mmul_ext; [|reflexivity]. intros y Hy. apply T1_mmul.
  Qed.

  Lemma T1_delta n h p q : (p < n)%nat -> (q < n)%nat -> T1 n h delta delta p q = h p q.
  Proof.
    intros Hp Hq. rewrite T1_mmul, mmul_delta_l by exact Hp. apply mmul_delta_r. exact Hq.
  Qed.

  Lemma T1_conj n h C D p q :
    sconj (T1 n h C D p q) = T1 n (adj h) (adj D) (adj C) q p.
  Proof.
    unfold T1. rewrite sumn_conj.
    transitivity (sumn n (fun a => sumn n (fun b => sconj (D p a * h a b * C b q)))).
    { apply sumn_ext; intros. apply sumn_conj. }
    rewrite sumn_swap.
    apply sumn_ext; intros b Hb. apply sumn_ext; intros a Ha.
    rewrite !conj_mul. unfold adj. ring.
  Qed.

  (** Fubini for two independent basis changes. *)
  Lemma T1_comm n m (F : nat -> nat -> nat -> nat -> K) C D C' D' p r q s :
    T1 n (fun a c => T1 m (fun b d => F a b c d) C' D' q s) C D p r
    = T1 m (fun b d => T1 n (fun a c => F a b c d) C D p r) C' D' q s.
  Proof.
    unfold T1.
    transitivity (sumn n (fun a => sumn n (fun c => sumn m (fun b => sumn m (fun d =>
       D p a * D' q b * F a b c d * C c r * C' d s))))).
    { apply sumn_ext; intros a _. apply sumn_ext; intros c _.
      rewrite sumn_mul_l, sumn_mul_r. apply sumn_ext; intros b _.
      rewrite sumn_mul_l, sumn_mul_r. apply sumn_ext; intros d _. ring. }
    transitivity (sumn m (fun b => sumn m (fun d => sumn n (fun a => sumn n (fun c =>
       D p a * D' q b * F a b c d * C c r * C' d s))))).
    { transitivity (sumn n (fun a => sumn m (fun b => sumn n (fun c => sumn m (fun d =>
         D p a * D' q b * F a b c d * C c r * C' d s))))).
      { apply sumn_ext; intros a _. apply sumn_swap. }
      rewrite sumn_swap. apply sumn_ext; intros b _.
      transitivity (sumn n (fun a => sumn m (fun d => sumn n (fun c =>
         D p a * D' q b * F a b c d * C c r * C' d s)))).
      { apply sumn_ext; intros a _. apply sumn_swap. }
      apply sumn_swap. }
    apply sumn_ext; intros b _. apply sumn_ext; intros d _.
    rewrite sumn_mul_l, sumn_mul_r. apply sumn_ext; intros a _.
    rewrite sumn_mul_l, sumn_mul_r. apply sumn_ext; intros c _. ring.
  Qed.

  (** The two-body formula as two nested one-body changes: particle 1 has the
      index pair (a,c), particle 2 the pair (b,d). *)
  Lemma T2_T1 n u C D p q r s :
    T2 n u C D p q r s = T1 n (fun a c => T1 n (fun b d => u a b c d) C D q s) C D p r.
  Proof.
    unfold T1, T2.
    transitivity (sumn n (fun a => sumn n (fun c => sumn n (fun b => sumn n (fun d =>
      D p a * D q b * u a b c d * C c r * C d s))))).
    { apply sumn_ext; intros a _. apply sumn_swap. }
    apply sumn_ext; intros a _. apply sumn_ext; intros c _.
    rewrite sumn_mul_l, sumn_mul_r. apply sumn_ext; intros b _.
    rewrite sumn_mul_l, sumn_mul_r. apply sumn_ext; intros d _. ring.
  Qed.

  Lemma T2_ext n u v C C' D D' p q r s :
    (forall a b c d, (a < n)%nat -> (b < n)%nat -> (c < n)%nat -> (d < n)%nat -> u a b c d = v a b c d) ->
    (forall x, (x < n)%nat -> C x r = C' x r /\ C x s = C' x s) ->
    (forall x, (x < n)%nat -> D p x = D' p x /\ D q x = D' q x) ->
    T2 n u C D p q r s = T2 n v C' D' p q r s.
  Proof.
    intros H1 H2 H3. unfold T2.
    apply sumn_ext; intros a Ha. apply sumn_ext; intros b Hb.
    apply sumn_ext; intros c Hc. apply sumn_ext; intros d Hd.
    rewrite H1 by assumption.
    destruct (H2 c Hc) as [-> _], (H2 d Hd) as [_ ->], (H3 a Ha) as [-> _], (H3 b Hb) as [_ ->].
    reflexivity.
  Qed.

  Lemma T2_compose l k u C1 D1 C2 D2 p q r s :
    T2 k (T2 l u C1 D1) C2 D2 p q r s = T2 l u (mmul k C1 C2) (mmul k D2 D1) p q r s.
  Proof.
    rewrite !T2_T1.
    transitivity (T1 k (fun a c => T1 k (fun b d =>
        T1 l (fun a' c' => T1 l (fun b' d' => u a' b' c' d') C1 D1 b d) C1 D1 a c) C2 D2 q s) C2 D2 p r).
    { apply T1_ext; [|reflexivity|reflexivity]. intros a c _ _.
      apply T1_ext; [|reflexivity|reflexivity]. intros b d _ _. apply T2_T1. }
    transitivity (T1 k (fun a c => T1 l (fun a' c' =>
        T1 k (fun b d => T1 l (fun b' d' => u a' b' c' d') C1 D1 b d) C2 D2 q s) C1 D1 a c) C2 D2 p r).
    { apply T1_ext; [|reflexivity|reflexivity]. intros a c _ _.
      apply (T1_comm k l (fun b a' d c' => T1 l (fun b' d' => u a' b' c' d') C1 D1 b d)). }
    rewrite T1_compose. apply T1_ext; [|reflexivity|reflexivity]. intros a c _ _.
    apply T1_compose.
  Qed.

  Lemma T2_delta n u p q r s : (p < n)%nat -> (q < n)%nat -> (r < n)%nat -> (s < n)%nat ->
    T2 n u delta delta p q r s = u p q r s.
  Proof. intros. rewrite T2_T1. rewrite (T1_delta n _ p r) by assumption. exact (T1_delta n (fun b d => u p b r d) q s ltac:(assumption) ltac:(assumption)). Qed.

  Lemma T2_sub n u v C D p q r s :
    T2 n (fun a b c d => u a b c d - v a b c d) C D p q r s = T2 n u C D p q r s - T2 n v C D p q r s.
  Proof.
    rewrite !T2_T1, <- T1_sub. apply T1_ext; [|reflexivity|reflexivity]. intros. apply T1_sub.
  Qed.
  Lemma T2_opp n u C D p q r s :
    T2 n (fun a b c d => - u a b c d) C D p q r s = - T2 n u C D p q r s.
  Proof.
    rewrite !T2_T1, <- T1_opp. apply T1_ext; [|reflexivity|reflexivity]. intros. apply T1_opp.
  Qed.
  Lemma T2_particle n u C D p q r s :
    T2 n (fun a b c d => u b a d c) C D p q r s = T2 n u C D q p s r.
  Proof. rewrite !T2_T1. apply (T1_comm n n (fun a b c d => u b a d c)). Qed.
  Lemma T2_ket_swap n u C D p q r s :
    T2 n (fun a b c d => u a b d c) C D p q r s = T2 n u C D p q s r.
  Proof.
    unfold T2. apply sumn_ext; intros a _. apply sumn_ext; intros b _.
    rewrite sumn_swap. apply sumn_ext; intros c _. apply sumn_ext; intros d _. ring.
  Qed.
  Lemma T2_bra_swap n u C D p q r s :
    T2 n (fun a b c d => u b a c d) C D p q r s = T2 n u C D q p r s.
  Proof.
    unfold T2. rewrite sumn_swap. apply sumn_ext; intros a _. apply sumn_ext; intros b _.
    apply sumn_ext; intros c _. apply sumn_ext; intros d _. ring.
  Qed.
  Lemma T2_conj n u C D p q r s :
    sconj (T2 n u C D p q r s)
    = T2 n (fun a b c d => sconj (u c d a b)) (adj D) (adj C) r s p q.
  Proof.
    rewrite !T2_T1, T1_conj. apply T1_ext; [|reflexivity|reflexivity]. intros a c _ _.
    unfold adj at 1. rewrite T1_conj. apply T1_ext; reflexivity.
  Qed.
End Facts.
