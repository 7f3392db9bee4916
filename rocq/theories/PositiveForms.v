(** Forms built from four-index arrays. *)
From Coq Require Import List Arith ZArith Reals Lra Lia Bool.
From Coquelicot Require Import Coquelicot.
From Verif Require Import Scalar ScalarC OneDim OneDimProofs DotProofs GridSpec GridProofs PositiveSpec PositiveKernel.
Open Scope R_scope.

Local Notation S_ := (sumn (K := CC)).
Ltac cx := match goal with |- @eq _ ?a ?b => change (@eq C a b) end.
Section Sums.
  Variable K : scalar.
  Add Ring KringPF : (s_ring K).
  Local Open Scope K_scope.
  Lemma sum_out n N (G : nat -> nat -> nat -> K) :
    sumn n (fun s => sumn N (fun i => sumn N (fun j => G s i j))) = sumn N (fun i => sumn N (fun j => sumn n (fun s => G s i j))).
  Proof. rewrite sumn_swap. apply sumn_ext. intros i _. apply sumn_swap. Qed.
  Lemma sum_out2 n N (G : nat -> nat -> nat -> nat -> K) :
    sumn n (fun p => sumn n (fun q => sumn N (fun i => sumn N (fun j => G p q i j)))) = sumn N (fun i => sumn N (fun j => sumn n (fun p => sumn n (fun q => G p q i j)))).
  Proof.
    transitivity (sumn n (fun p => sumn N (fun i => sumn N (fun j => sumn n (fun q => G p q i j))))).
    - apply sumn_ext. intros p _. apply (sum_out n N (fun q i j => G p q i j)).
    - apply (sum_out n N (fun p i j => sumn n (fun q => G p q i j))).
  Qed.
  Lemma sum_out4 n N (G : nat -> nat -> nat -> nat -> nat -> nat -> K) :
    sumn n (fun p => sumn n (fun q => sumn n (fun r => sumn n (fun s => sumn N (fun i => sumn N (fun j => G p q r s i j)))))) =
    sumn N (fun i => sumn N (fun j => sumn n (fun p => sumn n (fun q => sumn n (fun r => sumn n (fun s => G p q r s i j)))))).
  Proof.
    transitivity (sumn n (fun p => sumn n (fun q => sumn N (fun i => sumn N (fun j => sumn n (fun r => sumn n (fun s => G p q r s i j))))))).
    - apply sumn_ext. intros p _. apply sumn_ext. intros q _. apply (sum_out2 n N (fun r s i j => G p q r s i j)).
    - apply (sum_out2 n N (fun p q i j => sumn n (fun r => sumn n (fun s => G p q r s i j)))).
  Qed.
  (** [sum_out4] through four sums *)
  Lemma sum_out44 n N (G : nat -> nat -> nat -> nat -> nat -> nat -> nat -> nat -> K) :
    sumn n (fun p => sumn n (fun q => sumn n (fun r => sumn n (fun s =>
      sumn N (fun a => sumn N (fun b => sumn N (fun c => sumn N (fun d => G p q r s a b c d)))))))) =
    sumn N (fun a => sumn N (fun b => sumn N (fun c => sumn N (fun d =>
      sumn n (fun p => sumn n (fun q => sumn n (fun r => sumn n (fun s => G p q r s a b c d)))))))).
  Proof.
    rewrite sum_out4. apply sumn_ext. intros a _. apply sumn_ext. intros b _. apply sum_out4.
  Qed.
  Lemma split4 n (A B : nat -> nat -> K) :
    sumn n (fun p => sumn n (fun q => sumn n (fun r => sumn n (fun s => A p r * B s q)))) =
    sumn n (fun p => sumn n (fun r => A p r)) * sumn n (fun s => sumn n (fun q => B s q)).
  Proof.
    rewrite sumn_mul_r. apply sumn_ext. intros p _. rewrite sumn_mul_r. rewrite sumn_swap. apply sumn_ext. intros r _.
    rewrite sumn_mul_l. rewrite sumn_swap. apply sumn_ext. intros s _. rewrite sumn_mul_l. reflexivity.
  Qed.
End Sums.

(** ** Elements computed on a grid *)
Lemma grid_positive l N (f : nat -> nat -> nat -> C) (v : nat -> nat -> C) (u : nat -> nat -> nat -> nat -> C) :
  positive_matrix N v -> (forall p r i, Cconj (f p r i) = f r p i) ->
  (forall p q r s, u p q r s = S_ N (fun i => S_ N (fun j => (f p r i * f q s j * v i j)%C))) -> positive_interaction l u.
Proof.
  intros P Hf Hu x. unfold self_energy.
  set (z i := S_ l (fun p => S_ l (fun r => (x p r * f p r i)%C))).
  specialize (P z). match goal with |- nonneg ?w => replace w with (S_ N (fun i => S_ N (fun j => (z i * Cconj (z j) * v i j)%C))) end; [exact P|].
  symmetry. transitivity (S_ l (fun p => S_ l (fun q => S_ l (fun r => S_ l (fun s => S_ N (fun i => S_ N (fun j => ((x p r * f p r i) * (Cconj (x s q) * f q s j * v i j))%C))))))).
  - apply csum_ext; intros p _. apply csum_ext; intros q _. apply csum_ext; intros r _. apply csum_ext; intros s _. rewrite Hu.
    rewrite csum_scal. apply csum_ext; intros i _. rewrite csum_scal. apply csum_ext; intros j _. cx. ring.
  - rewrite (sum_out4 CC). apply csum_ext; intros i _. apply csum_ext; intros j _.
    pose proof (split4 CC l (fun p r => (x p r * f p r i)%C) (fun s q => (Cconj (x s q) * f q s j * v i j)%C)) as E. cbn beta in E.
    etransitivity; [exact E|]. change (@smul CC) with Cmult. fold (z i).
    assert (Ez : Cconj (z j) = S_ l (fun s => S_ l (fun q => (Cconj (x s q) * f q s j)%C))).
    { unfold z. change Cconj with (@sconj CC) at 1. rewrite (sumn_conj CC). apply csum_ext; intros s _. rewrite (sumn_conj CC). apply csum_ext; intros q _.
      change (@sconj CC) with Cconj. rewrite <- (Hf s q j). destruct (x s q), (f s q j). unfold Cconj, Cmult. cbn. f_equal; ring. }
    rewrite Ez. transitivity (z i * (S_ l (fun s => S_ l (fun q => (Cconj (x s q) * f q s j)%C)) * v i j))%C; [|cx; ring]. f_equal.
    pose proof (sumn_mul_r CC l (v i j) (fun s => S_ l (fun q => (Cconj (x s q) * f q s j)%C))) as M. change (@smul CC) with Cmult in M. rewrite M.
    apply csum_ext; intros s _. exact (eq_sym (sumn_mul_r CC l (v i j) (fun q => (Cconj (x s q) * f q s j)%C))).
Qed.
Section Grid.
  Variables (spf : nat -> nat -> C) (N : nat) (grid : nat -> R) (alpha a : R).
  Hypothesis Halpha : 0 <= alpha.
  Hypothesis Ha : a <> 0.
  Lemma orbitals_positive l : positive_interaction l (orbital_integral spf N grid alpha a).
  Proof.
    apply (grid_positive l N (fun p r i => RtoC ((grid 1%nat - grid 0%nat) * wt N i) * (Cconj (spf p i) * spf r i))%C (fun i j => RtoC (shielded_coulomb (grid i) (grid j) alpha a))).
    - apply shielded_matrix; assumption.
    - intros p r i. destruct (spf p i), (spf r i). unfold Cconj, Cmult, RtoC. cbn. f_equal; ring.
    - intros p q r s. rewrite u_sums. apply csum_ext; intros i _. apply csum_ext; intros j _. cx. ring.
  Qed.
End Grid.

(** ** Consequences *)
Definition form (l : nat) (u : nat -> nat -> nat -> nat -> C) (x y : nat -> nat -> C) : C :=
  S_ l (fun p => S_ l (fun q => S_ l (fun r => S_ l (fun s => (x p r * y s q * u p q r s)%C)))).
Lemma form_add_l l u x x' y : form l u (fun p r => x p r + x' p r)%C y = (form l u x y + form l u x' y)%C.
Proof.
  unfold form. rewrite <- csum_add. apply csum_ext; intros p _. rewrite <- csum_add. apply csum_ext; intros q _. rewrite <- csum_add. apply csum_ext; intros r _.
  rewrite <- csum_add. apply csum_ext; intros s _. cx. ring.
Qed.
Lemma form_add_r l u x y y' : form l u x (fun p r => y p r + y' p r)%C = (form l u x y + form l u x y')%C.
Proof.
  unfold form. rewrite <- csum_add. apply csum_ext; intros p _. rewrite <- csum_add. apply csum_ext; intros q _. rewrite <- csum_add. apply csum_ext; intros r _.
  rewrite <- csum_add. apply csum_ext; intros s _. cx. ring.
Qed.
Definition unit2 (p r : nat) (c : C) : nat -> nat -> C := fun p' r' => if (p' =? p)%nat && (r' =? r)%nat then c else RtoC 0.
Lemma form_unit l u p q r s c d : (p < l)%nat -> (q < l)%nat -> (r < l)%nat -> (s < l)%nat -> form l u (unit2 p r c) (unit2 s q d) = (c * d * u p q r s)%C.
Proof.
  intros Hp Hq Hr Hs. unfold form.
  rewrite (sumn_pick CC l p); [|exact Hp|]. 2: { intros k _ N. apply csum_zero; intros ? _. apply csum_zero; intros ? _. apply csum_zero; intros ? _. unfold unit2. rewrite (proj2 (Nat.eqb_neq k p) N). cbn [andb]. cx. ring. }
  rewrite (sumn_pick CC l q); [|exact Hq|]. 2: { intros k _ N. apply csum_zero; intros ? _. apply csum_zero; intros ? _. unfold unit2. rewrite (proj2 (Nat.eqb_neq k q) N), Bool.andb_false_r. cx. ring. }
  rewrite (sumn_pick CC l r); [|exact Hr|]. 2: { intros k _ N. apply csum_zero; intros ? _. unfold unit2. rewrite (proj2 (Nat.eqb_neq k r) N), Bool.andb_false_r. cx. ring. }
  rewrite (sumn_pick CC l s); [|exact Hs|]. 2: { intros k _ N. unfold unit2. rewrite (proj2 (Nat.eqb_neq k s) N). cbn [andb]. change (@s0 CC) with (RtoC 0). cx. ring. }
  unfold unit2. rewrite !Nat.eqb_refl. reflexivity.
Qed.
Lemma unit2_conj p r c p' r' : Cconj (unit2 p r c p' r') = unit2 p r (Cconj c) p' r'.
Proof. unfold unit2. destruct (_ && _)%bool; [reflexivity|]. unfold Cconj, RtoC. cbn. f_equal. ring. Qed.
Lemma form_ext l u x x' y y' : (forall p r, x p r = x' p r) -> (forall p r, y p r = y' p r) -> form l u x y = form l u x' y'.
Proof. intros X Y. unfold form. apply csum_ext; intros p _. apply csum_ext; intros q _. apply csum_ext; intros r _. apply csum_ext; intros s _. rewrite X, Y. reflexivity. Qed.
Lemma exchange_nonneg l u p q : positive_interaction l u -> (p < l)%nat -> (q < l)%nat -> nonneg (u p q q p).
Proof.
  intros P Hp Hq. specialize (P (unit2 p q (RtoC 1))). change (self_energy l u (unit2 p q (RtoC 1))) with (form l u (unit2 p q (RtoC 1)) (fun s t => Cconj (unit2 p q (RtoC 1) s t))) in P.
  rewrite (form_ext _ _ _ (unit2 p q (RtoC 1)) _ (unit2 p q (RtoC 1))), form_unit in P; try assumption; [|reflexivity|].
  - replace (RtoC 1 * RtoC 1 * u p q q p)%C with (u p q q p) in P by ring. exact P.
  - intros s t. rewrite unit2_conj. f_equal. unfold Cconj, RtoC. cbn. f_equal. ring.
Qed.
(** The two-dimensional Cauchy-Schwarz inequality *)
Lemma schwarz2 (A B D E : C) : (forall a b : C, nonneg (a * Cconj a * A + a * Cconj b * B + b * Cconj a * D + b * Cconj b * E)%C) ->
  Cmod B ^ 2 <= Re A * Re E.
Proof.
  intros H. destruct A as [A1 A2], B as [B1 B2], D as [D1 D2], E as [E1 E2].
  assert (HA : A2 = 0 /\ 0 <= A1). { destruct (H (RtoC 1) (RtoC 0)) as [X Y]. cbn in X, Y. split; lra. }
  assert (HE : E2 = 0 /\ 0 <= E1). { destruct (H (RtoC 0) (RtoC 1)) as [X Y]. cbn in X, Y. split; lra. }
  assert (HD : D1 = B1 /\ D2 = - B2). { destruct (H (RtoC 1) (RtoC 1)) as [X _]. destruct (H Ci (RtoC 1)) as [Y _]. cbn in X, Y. split; lra. }
  destruct HA as [-> HA], HE as [-> HE], HD as [-> ->].
  assert (M : Cmod (B1, B2) ^ 2 = B1 ^ 2 + B2 ^ 2).
  { unfold Cmod. cbn [fst snd]. change (sqrt (B1 ^ 2 + B2 ^ 2) ^ 2) with (sqrt (B1 ^ 2 + B2 ^ 2) * (sqrt (B1 ^ 2 + B2 ^ 2) * 1)). rewrite Rmult_1_r. apply sqrt_sqrt. pose proof (pow2_ge_0 B1). pose proof (pow2_ge_0 B2). lra. }
  rewrite M. cbn [Re fst]. set (m := B1 ^ 2 + B2 ^ 2).
  assert (Q : forall t, 0 <= t ^ 2 * m * A1 - 2 * t * m + E1).
  { intros t. destruct (H (- (t * B1), t * B2) (RtoC 1)) as [_ Y]. cbn in Y. eapply Rle_trans; [exact Y|]. right. unfold m. ring. }
  assert (Hm : 0 <= m) by (unfold m; pose proof (pow2_ge_0 B1); pose proof (pow2_ge_0 B2); lra).
  destruct (Rle_lt_or_eq_dec 0 A1 HA) as [Z|Z].
  - specialize (Q (/ A1)). assert (I : (/ A1) ^ 2 * m * A1 - 2 * / A1 * m + E1 = E1 - m / A1) by (field; lra). rewrite I in Q.
    apply Rmult_le_reg_l with (/ A1); [apply Rinv_0_lt_compat, Z|]. replace (/ A1 * (A1 * E1)) with E1 by (field; lra). unfold Rdiv in Q. lra.
  - rewrite <- Z in *. destruct (Rle_lt_or_eq_dec 0 m Hm) as [Zm|Zm]; [|lra]. specialize (Q ((E1 + 1) / (2 * m))).
    replace (2 * ((E1 + 1) / (2 * m)) * m) with (E1 + 1) in Q by (field; lra). lra.
Qed.
Lemma schwarz l u p q r s : positive_interaction l u -> (p < l)%nat -> (q < l)%nat -> (r < l)%nat -> (s < l)%nat ->
  Cmod (u p q r s) ^ 2 <= Re (u p r r p) * Re (u s q q s).
Proof.
  intros P Hp Hq Hr Hs. apply (schwarz2 _ _ (u s r q p) _). intros a b.
  specialize (P (fun k m => unit2 p r a k m + unit2 s q b k m)%C).
  change (self_energy l u ?x) with (form l u x (fun k m => Cconj (x k m))) in P.
  rewrite (form_ext _ _ _ (fun k m => unit2 p r a k m + unit2 s q b k m)%C _ (fun k m => unit2 p r (Cconj a) k m + unit2 s q (Cconj b) k m)%C) in P; [|reflexivity|].
  - rewrite form_add_l, !form_add_r, !form_unit in P by assumption.
    match goal with |- nonneg ?z => match type of P with nonneg ?w => replace z with w by ring end end. exact P.
  - intros k m. rewrite <- !unit2_conj. destruct (unit2 p r a k m), (unit2 s q b k m). unfold Cconj, Cplus. cbn. f_equal. ring.
Qed.

(** ** Change of basis *)
Lemma transformed_positive l k (u u' : nat -> nat -> nat -> nat -> C) (c : nat -> nat -> C) : positive_interaction l u ->
  (forall p q r s, (p < k)%nat -> (q < k)%nat -> (r < k)%nat -> (s < k)%nat -> u' p q r s =
    S_ l (fun a => S_ l (fun b => S_ l (fun d => S_ l (fun e => (Cconj (c a p) * Cconj (c b q) * u a b d e * c d r * c e s)%C))))) ->
  positive_interaction k u'.
Proof.
  intros P Hu x. unfold self_energy.
  set (y a d := S_ k (fun p => S_ k (fun r => (x p r * (Cconj (c a p) * c d r))%C))).
  specialize (P y). match goal with |- nonneg ?w => replace w with (self_energy l u y) end; [exact P|]. unfold self_energy.
  symmetry. transitivity (S_ k (fun p => S_ k (fun q => S_ k (fun r => S_ k (fun s => S_ l (fun a => S_ l (fun b => S_ l (fun d => S_ l (fun e =>
    ((x p r * (Cconj (c a p) * c d r)) * (Cconj (x s q) * (Cconj (c b q) * c e s) * u a b d e))%C))))))))).
  - apply csum_ext; intros p Hp. apply csum_ext; intros q Hq. apply csum_ext; intros r Hr. apply csum_ext; intros s Hs. rewrite Hu by assumption.
    rewrite csum_scal. apply csum_ext; intros a _. rewrite csum_scal. apply csum_ext; intros b _. rewrite csum_scal. apply csum_ext; intros d _. rewrite csum_scal. apply csum_ext; intros e _. cx. ring.
  - rewrite (sum_out44 CC). apply csum_ext; intros a _. apply csum_ext; intros b _. apply csum_ext; intros d _. apply csum_ext; intros e _.
    pose proof (split4 CC k (fun p r => (x p r * (Cconj (c a p) * c d r))%C) (fun s q => (Cconj (x s q) * (Cconj (c b q) * c e s) * u a b d e)%C)) as E. cbn beta in E.
    etransitivity; [exact E|]. change (@smul CC) with Cmult. fold (y a d).
    assert (Ez : Cconj (y e b) = S_ k (fun s => S_ k (fun q => (Cconj (x s q) * (Cconj (c b q) * c e s))%C))).
    { unfold y. change Cconj with (@sconj CC) at 1. rewrite (sumn_conj CC). apply csum_ext; intros s _. rewrite (sumn_conj CC). apply csum_ext; intros q _.
      change (@sconj CC) with Cconj. destruct (x s q), (c e s), (c b q). unfold Cconj, Cmult. cbn. f_equal; ring. }
    rewrite Ez. transitivity (y a d * (S_ k (fun s => S_ k (fun q => (Cconj (x s q) * (Cconj (c b q) * c e s))%C)) * u a b d e))%C; [|cx; ring]. f_equal.
    pose proof (sumn_mul_r CC k (u a b d e) (fun s => S_ k (fun q => (Cconj (x s q) * (Cconj (c b q) * c e s))%C))) as M. change (@smul CC) with Cmult in M. rewrite M.
    apply csum_ext; intros s _. exact (eq_sym (sumn_mul_r CC k (u a b d e) (fun q => (Cconj (x s q) * (Cconj (c b q) * c e s))%C))).
Qed.
