(** Scalars: the numbers the library computes with.

    The repository stores float64 / complex128 numbers.  This development
    models them by EXACT numbers: a commutative ring with a complex
    conjugation, an imaginary unit, one half, and a decidable test
    [small x] standing for the Python test [abs(x) < 1e-12]
    (quantum_systems/basis_set.py:550-552).  Rounding is modelled
    separately, in the files named Float*.
    A record (not a module type) carries the operations and the laws, so a
    theorem quantified over [K : scalar] holds for the real numbers'
    complexification (see ScalarC.v) and for the computable Gaussian
    rationals [QI] below, which the examples use. *)
From Coq Require Import List Arith Lia Ring Ring_theory QArith Qcanon Bool.
Import ListNotations.

Record scalar := Scalar {
  car :> Type;
  s0 : car; s1 : car; si : car; shalf : car;
  sadd : car -> car -> car;
  smul : car -> car -> car;
  ssub : car -> car -> car;
  sopp : car -> car;
  sconj : car -> car;
  small : car -> bool;
  s_ring : ring_theory s0 s1 sadd smul ssub sopp eq;
  conj_add : forall x y, sconj (sadd x y) = sadd (sconj x) (sconj y);
  conj_mul : forall x y, sconj (smul x y) = smul (sconj x) (sconj y);
  conj_invol : forall x, sconj (sconj x) = x;
  conj_i : sconj si = sopp si;
  i_squared : smul si si = sopp s1;
  half_half : sadd shalf shalf = s1;
  small_0 : small s0 = true;
  small_1 : small s1 = false
}.

Arguments s0 {s}. Arguments s1 {s}. Arguments si {s}. Arguments shalf {s}.
Arguments sadd {s}. Arguments smul {s}. Arguments ssub {s}.
Arguments sopp {s}. Arguments sconj {s}. Arguments small {s}.

Declare Scope K_scope.
Delimit Scope K_scope with K.
Infix "+" := sadd : K_scope.
Infix "*" := smul : K_scope.
Infix "-" := ssub : K_scope.
Notation "- x" := (sopp x) : K_scope.
Notation "0" := s0 : K_scope.
Notation "1" := s1 : K_scope.

(** Finite sums [sumn n f = f 0 + ... + f (n-1)]. *)
Fixpoint sumn {K : scalar} (n : nat) (f : nat -> K) : K :=
  match n with
  | O => s0
  | S n' => sadd (sumn n' f) (f n')
  end.

Section Facts.
  Variable K : scalar.
  Local Open Scope K_scope.
  Add Ring Kring : (s_ring K).

  Implicit Types (x y : K) (f g : nat -> K).

  Lemma conj_0 : sconj (0 : K) = 0.
  Proof.
    assert (E : sconj (0 : K) + sconj 0 = sconj 0).
    { rewrite <- conj_add. f_equal. ring. }
    assert (E2 : sconj (0:K) + sconj 0 - sconj 0 = sconj 0 - sconj 0) by (rewrite E; reflexivity).
    ring_simplify in E2. exact E2.
  Qed.

  Lemma conj_1 : sconj (1 : K) = 1.
  Proof.
    assert (E : sconj (1 : K) * sconj (sconj 1) = sconj (sconj 1)).
    { rewrite <- conj_mul. f_equal. ring. }
    rewrite conj_invol in E. transitivity (sconj 1 * 1 : K); [ring | exact E].
  Qed.

  Lemma conj_opp x : sconj (- x) = - sconj x.
  Proof.
    assert (E : sconj (- x) + sconj x = 0).
    { rewrite <- conj_add. replace (- x + x) with (0 : K) by ring. apply conj_0. }
    assert (E2 : sconj (- x) = (sconj (- x) + sconj x) - sconj x) by ring.
    rewrite E2, E. ring.
  Qed.

  Lemma conj_sub x y : sconj (x - y) = sconj x - sconj y.
  Proof.
    assert (E : x - y = x + - y) by ring.
    rewrite E, conj_add, conj_opp. ring.
  Qed.

  (** Division by two is unambiguous. *)
  Lemma half_cancel x y : x + x = y + y -> x = y.
  Proof.
    intros E.
    assert (Ex : forall z : K, z = shalf * (z + z)).
    { intros z. transitivity ((shalf + shalf) * z); [rewrite half_half; ring | ring]. }
    rewrite (Ex x), (Ex y), E. reflexivity.
  Qed.

  Lemma conj_half : sconj (shalf : K) = shalf.
  Proof. apply half_cancel. rewrite <- conj_add, half_half. apply conj_1. Qed.

  Lemma half_double x : shalf * (x + x) = x.
  Proof. transitivity ((shalf + shalf) * x); [ring | rewrite half_half; ring]. Qed.

  Lemma one_neq_zero : (1 : K) <> 0.
  Proof. intros E. pose proof (small_0 K) as H0. pose proof (small_1 K) as H1. rewrite E in H1. congruence. Qed.

  Lemma sumn_ext n f g : (forall k, (k < n)%nat -> f k = g k) -> sumn n f = sumn n g.
  Proof.
    induction n as [|n IH]; intros H; cbn; [reflexivity|].
    rewrite IH by (intros; apply H; lia). rewrite H by lia. reflexivity.
  Qed.

  Lemma sumn_zero n : sumn n (fun _ => 0 : K) = 0.
  Proof. induction n as [|n IH]; cbn; [reflexivity|]. rewrite IH. ring. Qed.

  Lemma sumn_zero' n f : (forall k, (k < n)%nat -> f k = 0) -> sumn n f = 0.
  Proof. intros H. rewrite (sumn_ext n f (fun _ => 0)) by exact H. apply sumn_zero. Qed.

  Lemma sumn_add n f g : sumn n (fun k => f k + g k) = sumn n f + sumn n g.
  Proof. induction n as [|n IH]; cbn; [ring|]. rewrite IH. ring. Qed.

  Lemma sumn_sub n f g : sumn n (fun k => f k - g k) = sumn n f - sumn n g.
  Proof. induction n as [|n IH]; cbn; [ring|]. rewrite IH. ring. Qed.

  Lemma sumn_opp n f : sumn n (fun k => - f k) = - sumn n f.
  Proof. induction n as [|n IH]; cbn; [ring|]. rewrite IH. ring. Qed.

  Lemma sumn_mul_l n x f : x * sumn n f = sumn n (fun k => x * f k).
  Proof. induction n as [|n IH]; cbn; [ring|]. rewrite <- IH. ring. Qed.

  Lemma sumn_mul_r n x f : sumn n f * x = sumn n (fun k => f k * x).
  Proof. induction n as [|n IH]; cbn; [ring|]. rewrite <- IH. ring. Qed.

  Lemma sumn_conj n f : sconj (sumn n f) = sumn n (fun k => sconj (f k)).
  Proof. induction n as [|n IH]; cbn; [apply conj_0|]. rewrite conj_add, IH. reflexivity. Qed.

  Lemma sumn_swap n m (f : nat -> nat -> K) :
    sumn n (fun i => sumn m (fun j => f i j)) = sumn m (fun j => sumn n (fun i => f i j)).
  Proof.
    induction n as [|n IH]; cbn.
    - symmetry. apply sumn_zero.
    - rewrite IH, <- sumn_add. reflexivity.
  Qed.

  Lemma sumn_app n m f : sumn (n + m) f = sumn n f + sumn m (fun k => f (n + k)%nat).
  Proof.
    induction m as [|m IH]; cbn.
    - rewrite Nat.add_0_r. ring.
    - rewrite Nat.add_succ_r. cbn. rewrite IH. ring.
  Qed.

  Lemma sumn_double n f :
    sumn (2 * n) f = sumn n (fun k => f (2 * k)%nat + f (2 * k + 1)%nat).
  Proof.
    induction n as [|n IH]; [reflexivity|].
    replace (2 * S n)%nat with (S (S (2 * n))) by lia.
    cbn [sumn]. rewrite IH. replace (S (2 * n)) with (2 * n + 1)%nat by lia. ring.
  Qed.

  Lemma sumn_delta n j f : (j < n)%nat ->
    sumn n (fun k => (if Nat.eqb k j then 1 else 0) * f k) = f j.
  Proof.
    induction n as [|n IH]; intros H; [lia|]. cbn.
    destruct (Nat.eq_dec n j) as [->|Hn].
    - rewrite Nat.eqb_refl. rewrite (sumn_zero' j).
      + ring.
      + intros k Hk. destruct (Nat.eqb_spec k j); [lia|]. ring.
    - destruct (Nat.eqb_spec n j); [lia|]. rewrite IH by lia. ring.
  Qed.

  Lemma sumn_pick n j f : (j < n)%nat -> (forall k, (k < n)%nat -> k <> j -> f k = 0) -> sumn n f = f j.
  Proof.
    intros Hj H. rewrite <- (sumn_delta n j f Hj). apply sumn_ext. intros k Hk.
    destruct (Nat.eqb_spec k j) as [E|E]; [ring|]. rewrite (H k Hk E). ring.
  Qed.

  Lemma sumn_const n x : sumn n (fun _ => x) = sumn n (fun _ => 1) * x.
  Proof. rewrite sumn_mul_r. apply sumn_ext. intros. ring. Qed.

  Lemma sumn_mul_sumn n m f g :
    sumn n f * sumn m g = sumn n (fun i => sumn m (fun j => f i * g j)).
  Proof. rewrite sumn_mul_r. apply sumn_ext. intros. apply sumn_mul_l. Qed.
End Facts.

(** * Gaussian rationals, the computable instance used by examples. *)
Definition qi := (Qc * Qc)%type.
Definition qi_add (x y : qi) : qi := (fst x + fst y, snd x + snd y)%Qc.
Definition qi_mul (x y : qi) : qi :=
  (fst x * fst y - snd x * snd y, fst x * snd y + snd x * fst y)%Qc.
Definition qi_opp (x : qi) : qi := (- fst x, - snd x)%Qc.
Definition qi_sub (x y : qi) : qi := (fst x - fst y, snd x - snd y)%Qc.
Definition qi_conj (x : qi) : qi := (fst x, - snd x)%Qc.
(** |x| < 10^-12, i.e. |x|^2 < 10^-24. *)
Definition qi_small (x : qi) : bool :=
  match ((fst x * fst x + snd x * snd x)%Qc ?= Q2Qc (1 # 10 ^ 24))%Qc with
  | Lt => true | _ => false end.

Definition QI : scalar.
Proof.
  refine (Scalar qi (0, 0)%Qc (1, 0)%Qc (0, 1)%Qc (Q2Qc (1 # 2), 0%Qc)
            qi_add qi_mul qi_sub qi_opp qi_conj qi_small _ _ _ _ _ _ _ _ _).
  - constructor; intros; unfold qi_add, qi_mul, qi_sub, qi_opp; cbn;
      repeat match goal with x : qi |- _ => destruct x end; cbn; f_equal; ring.
  - intros x y; unfold qi_add, qi_conj; destruct x, y; cbn; f_equal; ring.
  - intros x y; unfold qi_mul, qi_conj; destruct x, y; cbn; f_equal; ring.
  - intros x; unfold qi_conj; destruct x; cbn; f_equal; ring.
  - unfold qi_conj, qi_opp; cbn; f_equal; ring.
  - unfold qi_mul, qi_opp; cbn; f_equal; ring.
  - unfold qi_add; cbn. f_equal. apply Qc_is_canon. reflexivity.
  - reflexivity.
  - reflexivity.
Defined.

(** Literals: [qz a b = a + b i], [qr a d = a/d]. *)
Definition qz (a b : Z) : QI := (Q2Qc (inject_Z a), Q2Qc (inject_Z b)).
Definition qr (a : Z) (d : positive) : QI := (Q2Qc (a # d), 0%Qc).
(** Decidable equality, used to compare computed arrays in examples. *)
Definition qi_eqb (x y : QI) : bool :=
  match (fst x ?= fst y)%Qc, (snd x ?= snd y)%Qc with Eq, Eq => true | _, _ => false end.
Lemma qi_eqb_eq (x y : QI) : qi_eqb x y = true -> x = y.
Proof.
  unfold qi_eqb. destruct (fst x ?= fst y)%Qc eqn:E1; try discriminate.
  destruct (snd x ?= snd y)%Qc eqn:E2; try discriminate. intros _.
  apply Qceq_alt in E1. apply Qceq_alt in E2. destruct x, y; cbn in *; congruence.
Qed.
Lemma qi_eqb_refl (x : QI) : qi_eqb x x = true.
Proof.
  unfold qi_eqb. assert (H : forall a : Qc, (a ?= a)%Qc = Eq) by (intros; apply Qceq_alt; reflexivity).
  rewrite !H. reflexivity.
Qed.
Lemma qi_eqb_neq (x y : QI) : qi_eqb x y = false -> x <> y.
Proof. intros H ->. rewrite qi_eqb_refl in H. discriminate. Qed.
(** Closes a (dis)equation between two computed Gaussian rationals. *)
Ltac qi := first [ apply qi_eqb_eq; vm_compute; reflexivity | apply qi_eqb_neq; vm_compute; reflexivity ].
