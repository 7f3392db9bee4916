(** The energy of a determinant as a function of its density matrix, and plane rotations. *)
From Coq Require Import List Arith Lia Bool.
From Verif Require Import Scalar Spec EnergySpec EnergyProofs RotationSpec.
Import ListNotations.

Section Algebra.
  Variable K : scalar.
  Add Ring KringRot : (s_ring K).
  Local Open Scope K_scope.
  Notation mx := (nat -> nat -> K).
  Notation tx := (nat -> nat -> nat -> nat -> K).
  Implicit Types (h C D f : mx) (u G : tx).
  Lemma trace2_ext l D D' f f' : (forall p q, (p < l)%nat -> (q < l)%nat -> D p q = D' p q) -> (forall p q, (p < l)%nat -> (q < l)%nat -> f p q = f' p q) -> trace2 l D f = trace2 l D' f'.
  Proof. intros H1 H2. apply sumn_ext. intros p Hp. apply sumn_ext. intros q Hq. rewrite H1, H2 by assumption. reflexivity. Qed.
  Lemma curv_ext l G G' D D' E E' : (forall p q, (p < l)%nat -> (q < l)%nat -> D p q = D' p q) -> (forall p q, (p < l)%nat -> (q < l)%nat -> E p q = E' p q) ->
    (forall p q r s, (p < l)%nat -> (q < l)%nat -> (r < l)%nat -> (s < l)%nat -> G p q r s = G' p q r s) -> curv l G D E = curv l G' D' E'.
  Proof.
    intros H1 H2 H3. apply sumn_ext. intros p Hp. apply sumn_ext. intros q Hq. apply sumn_ext. intros r Hr. apply sumn_ext. intros s Hs.
    rewrite H1, H2, H3 by assumption. reflexivity.
  Qed.
  Lemma trace2_lin l x y D D' f : trace2 l (fun q p => x * D q p + y * D' q p) f = x * trace2 l D f + y * trace2 l D' f.
  Proof.
    unfold trace2. rewrite !sumn_mul_l, <- sumn_add. apply sumn_ext. intros p _. rewrite !sumn_mul_l, <- sumn_add. apply sumn_ext. intros q _. ring.
  Qed.
  Lemma trace2_add l D f f' : trace2 l D (fun p q => f p q + f' p q) = trace2 l D f + trace2 l D f'.
  Proof.
    unfold trace2. rewrite <- sumn_add. apply sumn_ext. intros p _. rewrite <- sumn_add. apply sumn_ext. intros q _. ring.
  Qed.
  Lemma curv_lin_l l G x y D D' E : curv l G (fun q p => x * D q p + y * D' q p) E = x * curv l G D E + y * curv l G D' E.
  Proof.
    unfold curv. rewrite !sumn_mul_l, <- sumn_add. apply sumn_ext. intros p _. rewrite !sumn_mul_l, <- sumn_add. apply sumn_ext. intros q _.
    rewrite !sumn_mul_l, <- sumn_add. apply sumn_ext. intros r _. rewrite !sumn_mul_l, <- sumn_add. apply sumn_ext. intros s _. ring.
  Qed.
  Lemma curv_lin_r l G x y D D' E : curv l G E (fun q p => x * D q p + y * D' q p) = x * curv l G E D + y * curv l G E D'.
  Proof.
    unfold curv. rewrite !sumn_mul_l, <- sumn_add. apply sumn_ext. intros p _. rewrite !sumn_mul_l, <- sumn_add. apply sumn_ext. intros q _.
    rewrite !sumn_mul_l, <- sumn_add. apply sumn_ext. intros r _. rewrite !sumn_mul_l, <- sumn_add. apply sumn_ext. intros s _. ring.
  Qed.
  Lemma curv_sym l G D E : particle_sym l G -> curv l G D E = curv l G E D.
  Proof.
    intros H. unfold curv. rewrite sumn_swap. apply sumn_ext. intros q Hq. apply sumn_ext. intros p Hp. rewrite sumn_swap.
    apply sumn_ext. intros s Hs. apply sumn_ext. intros r Hr. rewrite (H p q r s) by assumption. ring.
  Qed.

  (** Densities of the first N columns *)
  Definition dens N C D (q p : nat) : K := sumn N (fun i => C q i * D i p).
  Definition filled N (q p : nat) : K := if (q =? p)%nat && (q <? N)%nat then 1 else 0.
  Lemma one_dens l N h C D : sumn N (fun i => T1 l h C D i i) = trace2 l (dens N C D) h.
  Proof.
    unfold T1, trace2, dens. rewrite sumn_swap. apply sumn_ext. intros p _. rewrite sumn_swap. apply sumn_ext. intros q _.
    rewrite sumn_mul_r. apply sumn_ext. intros i _. ring.
  Qed.
  Lemma swap4 l N (f : nat -> nat -> nat -> nat -> nat -> K) :
    sumn N (fun i => sumn l (fun p => sumn l (fun q => sumn l (fun r => sumn l (fun s => f i p q r s))))) =
    sumn l (fun p => sumn l (fun q => sumn l (fun r => sumn l (fun s => sumn N (fun i => f i p q r s))))).
  Proof.
    rewrite sumn_swap. apply sumn_ext. intros p _. rewrite sumn_swap. apply sumn_ext. intros q _. rewrite sumn_swap. apply sumn_ext. intros r _. apply sumn_swap.
  Qed.
  Lemma two_dens l N u C D : sumn N (fun i => sumn N (fun j => T2 l u C D i j i j)) = curv l u (dens N C D) (dens N C D).
  Proof.
    unfold T2, curv, dens. rewrite (sumn_ext K N _ _ (fun i _ => swap4 l N _)), swap4.
    apply sumn_ext. intros p _. apply sumn_ext. intros q _. apply sumn_ext. intros r _. apply sumn_ext. intros s _.
    rewrite sumn_mul_r, sumn_mul_r. apply sumn_ext. intros i _. rewrite sumn_mul_l, sumn_mul_r. apply sumn_ext. intros j _. ring.
  Qed.
  Lemma two_dens_x l N u C D : sumn N (fun i => sumn N (fun j => T2 l u C D i j j i)) = curv l (fun p q r s => u p q s r) (dens N C D) (dens N C D).
  Proof.
    unfold T2, curv, dens. rewrite (sumn_ext K N _ _ (fun i _ => swap4 l N _)), swap4.
    apply sumn_ext. intros p _. apply sumn_ext. intros q _. rewrite sumn_swap. apply sumn_ext. intros r _. apply sumn_ext. intros s _.
    rewrite sumn_mul_r, sumn_mul_r. apply sumn_ext. intros i _. rewrite sumn_mul_l, sumn_mul_r. apply sumn_ext. intros j _. ring.
  Qed.
  Lemma sum_filled l N p (g : nat -> K) : (N <= l)%nat -> (p < l)%nat -> sumn l (fun q => filled N q p * g q) = if (p <? N)%nat then g p else 0.
  Proof.
    intros HN Hp. rewrite (sumn_pick K l p); [|exact Hp|].
    - unfold filled. rewrite Nat.eqb_refl. cbn [andb]. destruct (p <? N)%nat; ring.
    - intros q _ Hq. unfold filled. apply Nat.eqb_neq in Hq. rewrite Hq. cbn [andb]. ring.
  Qed.
  Lemma sum_if l N (g : nat -> K) : (N <= l)%nat -> sumn l (fun p => if (p <? N)%nat then g p else 0) = sumn N g.
  Proof.
    intros HN. rewrite (sumn_restrict K l N); [|exact HN|].
    - apply sumn_ext. intros p Hp. apply Nat.ltb_lt in Hp. rewrite Hp. reflexivity.
    - intros k Hk. assert (E : (k <? N)%nat = false) by (apply Nat.ltb_ge; lia). rewrite E. reflexivity.
  Qed.
  Lemma trace_filled l N f : (N <= l)%nat -> trace2 l (filled N) f = sumn N (fun i => f i i).
  Proof.
    intros HN. unfold trace2. rewrite (sumn_ext K l _ (fun p => if (p <? N)%nat then f p p else 0)).
    - apply (sum_if l N (fun p => f p p)). exact HN.
    - intros p Hp. apply (sum_filled l N p (fun q => f p q) HN Hp).
  Qed.
  Lemma curv_filled_r l N G D : (N <= l)%nat -> curv l G D (filled N) = trace2 l D (fun p r => sumn N (fun i => G p i r i)).
  Proof.
    intros HN. unfold curv, trace2. apply sumn_ext. intros p _. rewrite sumn_swap. apply sumn_ext. intros r _.
    rewrite sumn_mul_l, <- (sum_if l N) by exact HN. apply sumn_ext. intros q Hq.
    rewrite (sumn_ext K l _ (fun s => filled N s q * (D r p * G p q r s))) by (intros; ring).
    rewrite (sum_filled l N q (fun s => D r p * G p q r s)) by assumption. reflexivity.
  Qed.
  (** ** The expansion of the energy *)
  Definition quad l h G D : K := (1 + 1) * trace2 l D h + curv l G D D.
  Lemma quad_expand l N h G D : (N <= l)%nat -> particle_sym l G ->
    quad l h G (fun q p => filled N q p + D q p) =
    quad l h G (filled N) + (1 + 1) * trace2 l D (fun p q => h p q + sumn N (fun i => G p i q i)) + curv l G D D.
  Proof.
    intros HN HG. unfold quad. pose proof (curv_filled_r l N G D HN) as E. pose proof (curv_sym l G (filled N) D HG) as E'.
    rewrite trace2_add.
    rewrite (trace2_ext l _ (fun q p => 1 * filled N q p + 1 * D q p) h h) by (intros; ring).
    rewrite (curv_ext l G G _ (fun q p => 1 * filled N q p + 1 * D q p) _ (fun q p => 1 * filled N q p + 1 * D q p)) by (intros; ring).
    rewrite trace2_lin, curv_lin_l, !curv_lin_r, E', E. ring.
  Qed.
  Lemma quad_filled l N h G : (N <= l)%nat -> quad l h G (filled N) = (1 + 1) * sumn N (fun i => h i i) + sumn N (fun i => sumn N (fun j => G i j i j)).
  Proof. intros HN. unfold quad. rewrite curv_filled_r, !trace_filled by exact HN. reflexivity. Qed.
  Lemma change_dens N C D q p : dens N C D q p = filled N q p + density_change N C D q p.
  Proof. unfold dens, filled, density_change. ring. Qed.
  Lemma sum_G N (w : tx) : sumn N (fun i => sumn N (fun j => (1 + 1) * w i j i j - w i j j i))
       = (1 + 1) * sumn N (fun i => sumn N (fun j => w i j i j)) - sumn N (fun i => sumn N (fun j => w i j j i)).
  Proof. rewrite sumn_mul_l, <- sumn_sub. apply sumn_ext. intros i _. rewrite sumn_mul_l, <- sumn_sub. reflexivity. Qed.
  Lemma curv_G l (w : tx) D E : curv l (fun p q r s => (1 + 1) * w p q r s - w p q s r) D E = (1 + 1) * curv l w D E - curv l (fun p q r s => w p q s r) D E.
  Proof.
    unfold curv. rewrite sumn_mul_l, <- sumn_sub. apply sumn_ext. intros p _. rewrite sumn_mul_l, <- sumn_sub. apply sumn_ext. intros q _.
    rewrite sumn_mul_l, <- sumn_sub. apply sumn_ext. intros r _. rewrite sumn_mul_l, <- sumn_sub. apply sumn_ext. intros s _. ring.
  Qed.
  Lemma expand_restricted l N h u C D : (N <= l)%nat -> particle_sym l u ->
    E_restricted N (T1 l h C D) (T2 l u C D) = E_restricted N h u +
      (1 + 1) * trace2 l (density_change N C D) (F_restricted N h u) +
      curv l (fun p q r s => (1 + 1) * u p q r s - u p q s r) (density_change N C D) (density_change N C D).
  Proof.
    intros HN Hu. set (G := fun p q r s => (1 + 1) * u p q r s - u p q s r).
    assert (HG : particle_sym l G). { intros p q r s Hp Hq Hr Hs. unfold G. rewrite (Hu p q r s), (Hu p q s r) by assumption. reflexivity. }
    transitivity (quad l h G (dens N C D)).
    - unfold E_restricted, quad, G. rewrite sum_G, one_dens, two_dens, two_dens_x, curv_G. reflexivity.
    - transitivity (quad l h G (fun q p => filled N q p + density_change N C D q p)).
      + unfold quad. f_equal; [f_equal; apply trace2_ext | apply curv_ext]; intros; try reflexivity; apply change_dens.
      + rewrite quad_expand, quad_filled by assumption. unfold E_restricted, F_restricted. reflexivity.
  Qed.
  Lemma expand_general l N h u C D : (N <= l)%nat -> particle_sym l u ->
    E_general N (T1 l h C D) (T2 l u C D) = E_general N h u +
      trace2 l (density_change N C D) (F_general N h u) +
      shalf * curv l u (density_change N C D) (density_change N C D).
  Proof.
    intros HN Hu.
    assert (X : forall x y : K, x + shalf * y = shalf * ((1 + 1) * x + y)).
    { intros x y. transitivity ((shalf + shalf) * x + shalf * y); [rewrite half_half; ring | ring]. }
    transitivity (shalf * quad l h u (dens N C D)).
    - unfold E_general, quad. rewrite one_dens, two_dens, X. reflexivity.
    - transitivity (shalf * quad l h u (fun q p => filled N q p + density_change N C D q p)).
      + unfold quad. f_equal. f_equal; [f_equal; apply trace2_ext | apply curv_ext]; intros; try reflexivity; apply change_dens.
      + rewrite quad_expand, quad_filled by assumption. unfold E_general, F_general. rewrite (X (sumn N (fun i => h i i)) (sumn N (fun i => sumn N (fun j => u i j i j)))).
        set (t := trace2 _ _ _). transitivity (shalf * ((1 + 1) * sumn N (fun i => h i i) + sumn N (fun i => sumn N (fun j => u i j i j))) + (shalf + shalf) * t + shalf * curv l u (density_change N C D) (density_change N C D)); [ring|]. rewrite half_half. ring.
  Qed.

  (** ** Plane rotations *)
  Definition along i a z (q p : nat) : K := if (q =? a)%nat && (p =? i)%nat then z else if (q =? i)%nat && (p =? a)%nat then sconj z else 0.
  Definition across i a (q p : nat) : K := if (q =? a)%nat && (p =? a)%nat then 1 else if (q =? i)%nat && (p =? i)%nat then - (1) else 0.
  Lemma plane_change N i a c s z q p : (i < N)%nat -> (N <= a)%nat -> sconj c = c -> sconj s = s -> c * c + s * s = 1 -> z * sconj z = 1 ->
    density_change N (plane i a c s z) (fun p q => sconj (plane i a c s z q p)) q p = (s * c) * along i a z q p + (s * s) * across i a q p.
  Proof.
    intros Hi Ha Hc Hs Hcs Hz. unfold density_change.
    assert (Nia : (i =? a)%nat = false) by (apply Nat.eqb_neq; lia). assert (Nai : (a =? i)%nat = false) by (apply Nat.eqb_neq; lia).
    set (S1 := sumn N _).
    assert (E : S1 = plane i a c s z q i * sconj (plane i a c s z p i) + (if (q =? p)%nat && (q <? N)%nat && negb (q =? i)%nat then 1 else 0)).
    { unfold S1. rewrite (sumn_ext K N _ (fun j => (if (j =? i)%nat then plane i a c s z q i * sconj (plane i a c s z p i) else 0) + (if (j =? i)%nat then 0 else delta q j * delta p j))).
      2: { intros j Hj. destruct (Nat.eqb_spec j i) as [->|Hne]; [ring|]. unfold plane. apply Nat.eqb_neq in Hne. rewrite Hne.
           assert (X : (j =? a)%nat = false) by (apply Nat.eqb_neq; lia). rewrite X.
           unfold delta. destruct (p =? j)%nat, (q =? j)%nat; rewrite ?conj_1, ?conj_0; ring. }
      rewrite sumn_add. f_equal.
      - rewrite (sumn_pick K N i); [rewrite Nat.eqb_refl; reflexivity | exact Hi |]. intros j _ Hj. apply Nat.eqb_neq in Hj. rewrite Hj. reflexivity.
      - destruct (Nat.ltb_spec q N) as [Hq|Hq].
        + rewrite (sumn_pick K N q); [|exact Hq|].
          * unfold delta. rewrite Nat.eqb_refl, (Nat.eqb_sym p q). destruct (q =? i)%nat, (q =? p)%nat; cbn [andb negb]; ring.
          * intros j _ Hj. unfold delta. assert (X : (q =? j)%nat = false) by (apply Nat.eqb_neq; congruence). rewrite X. destruct (j =? i)%nat; ring.
        + rewrite andb_false_r. cbn [andb]. apply sumn_zero'. intros j Hj. unfold delta. assert (X : (q =? j)%nat = false) by (apply Nat.eqb_neq; lia). rewrite X. destruct (j =? i)%nat; ring. }
    rewrite E. clear E S1. unfold plane, along, across. rewrite !Nat.eqb_refl.
    assert (C1 : c * c = 1 - s * s) by (rewrite <- Hcs; ring).
    destruct (Nat.eqb_spec q i) as [->|Hqi].
    - rewrite Nia. assert (L : (i <? N)%nat = true) by (apply Nat.ltb_lt; exact Hi). rewrite L, andb_false_r. cbn [andb]. rewrite andb_true_r.
      destruct (Nat.eqb_spec p i) as [->|Hpi].
      + rewrite Nat.eqb_refl, Nia. rewrite Hc, C1. ring.
      + assert (X : (i =? p)%nat = false) by (apply Nat.eqb_neq; congruence). rewrite X.
        destruct (p =? a)%nat; [rewrite conj_mul, Hs; ring | rewrite conj_0; ring].
    - assert (Z0 : forall x : bool, (x && true)%bool = x) by (intros []; reflexivity). cbn [negb]. rewrite Z0. cbn [andb].
      destruct (Nat.eqb_spec q a) as [->|Hqa].
      + assert (L : (a <? N)%nat = false) by (apply Nat.ltb_ge; exact Ha). rewrite L, andb_false_r. cbn [andb].
        destruct (Nat.eqb_spec p i) as [->|Hpi].
        * rewrite Nia, Hc. ring.
        * destruct (p =? a)%nat; [|rewrite conj_0; ring]. rewrite conj_mul, Hs.
          transitivity (s * s * (z * sconj z)); [ring | rewrite Hz; ring].
      + cbn [andb]. destruct ((q =? p)%nat && (q <? N)%nat); ring.
  Qed.
  Lemma trace_pick l x y f v : (x < l)%nat -> (y < l)%nat -> trace2 l (fun q p => if (q =? x)%nat && (p =? y)%nat then v else 0) f = v * f y x.
  Proof.
    intros Hx Hy. unfold trace2. rewrite (sumn_pick K l y); [|exact Hy|].
    - rewrite (sumn_pick K l x); [rewrite !Nat.eqb_refl; reflexivity | exact Hx |]. intros q _ Hq. apply Nat.eqb_neq in Hq. rewrite Hq. cbn [andb]. ring.
    - intros p _ Hp. apply sumn_zero'. intros q _. apply Nat.eqb_neq in Hp. rewrite Hp, andb_false_r. ring.
  Qed.
  Lemma trace_along l i a z f : (i < l)%nat -> (a < l)%nat -> i <> a -> trace2 l (along i a z) f = z * f i a + sconj z * f a i.
  Proof.
    intros Hi Ha Hne. rewrite <- (trace_pick l a i f z), <- (trace_pick l i a f (sconj z)) by assumption.
    transitivity (trace2 l (fun q p => 1 * (if (q =? a)%nat && (p =? i)%nat then z else 0) + 1 * (if (q =? i)%nat && (p =? a)%nat then sconj z else 0)) f).
    - apply trace2_ext; [|reflexivity]. intros q p _ _. unfold along. destruct (Nat.eqb_spec q a) as [->|]; [|cbn [andb]; ring].
      assert (X : (a =? i)%nat = false) by (apply Nat.eqb_neq; congruence). rewrite X. cbn [andb]. destruct (p =? i)%nat; ring.
    - rewrite trace2_lin. ring.
  Qed.
  Lemma trace_across l i a f : (i < l)%nat -> (a < l)%nat -> i <> a -> trace2 l (across i a) f = f a a - f i i.
  Proof.
    intros Hi Ha Hne. transitivity (1 * f a a + (- (1)) * f i i); [|ring]. rewrite <- (trace_pick l a a f 1), <- (trace_pick l i i f (- (1))) by assumption.
    transitivity (trace2 l (fun q p => 1 * (if (q =? a)%nat && (p =? a)%nat then 1 else 0) + 1 * (if (q =? i)%nat && (p =? i)%nat then - (1) else 0)) f).
    - apply trace2_ext; [|reflexivity]. intros q p _ _. unfold across. destruct (Nat.eqb_spec q a) as [->|]; [|cbn [andb]; ring].
      assert (X : (a =? i)%nat = false) by (apply Nat.eqb_neq; congruence). rewrite X. cbn [andb]. destruct (p =? a)%nat; ring.
    - rewrite trace2_lin. ring.
  Qed.
  Lemma plane_trace l N i a c s z f : (i < N)%nat -> (N <= a < l)%nat -> sconj c = c -> sconj s = s -> c * c + s * s = 1 -> z * sconj z = 1 ->
    trace2 l (density_change N (plane i a c s z) (fun p q => sconj (plane i a c s z q p))) f =
    (s * c) * (z * f i a + sconj z * f a i) + (s * s) * (f a a - f i i).
  Proof.
    intros Hi Ha Hc Hs Hcs Hz. rewrite (trace2_ext l _ (fun q p => (s * c) * along i a z q p + (s * s) * across i a q p) f f);
      [|intros; apply plane_change; lia || assumption | reflexivity].
    rewrite trace2_lin, trace_along, trace_across by lia. reflexivity.
  Qed.
  Lemma plane_curv l N i a c s z G : (i < N)%nat -> (N <= a < l)%nat -> sconj c = c -> sconj s = s -> c * c + s * s = 1 -> z * sconj z = 1 ->
    let D := density_change N (plane i a c s z) (fun p q => sconj (plane i a c s z q p)) in
    curv l G D D = (s * s) * ((c * c) * curv l G (along i a z) (along i a z) + (s * c) * (curv l G (along i a z) (across i a) + curv l G (across i a) (along i a z))
      + (s * s) * curv l G (across i a) (across i a)).
  Proof.
    intros Hi Ha Hc Hs Hcs Hz D.
    assert (E : forall q p, (q < l)%nat -> (p < l)%nat -> D q p = (s * c) * along i a z q p + (s * s) * across i a q p) by (intros; apply plane_change; lia || assumption).
    rewrite (curv_ext l G G D (fun q p => (s * c) * along i a z q p + (s * s) * across i a q p) D (fun q p => (s * c) * along i a z q p + (s * s) * across i a q p));
      try (intros; apply E; assumption); try reflexivity.
    rewrite curv_lin_l, !curv_lin_r. ring.
  Qed.
End Algebra.
