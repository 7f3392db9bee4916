(** Algebra of the energy and Fock formulas (C20-C23, C25). *)
From Coq Require Import List Arith ZArith Lia Bool.
From Verif Require Import Scalar Spec EnergySpec.
Import ListNotations.

Section EnergyProofs.
  Variable K : scalar.
  Add Ring Kring : (s_ring K).
  Local Open Scope K_scope.
  Notation mx := (nat -> nat -> K).
  Notation tx := (nat -> nat -> nat -> nat -> K).
  Implicit Types (h C D f : mx) (u : tx).

  (** C22 *)
  Lemma energy_from_fock_general N h u :
    E_general N h u = shalf * sumn N (fun i => h i i + F_general N h u i i).
  Proof.
    unfold E_general, F_general. rewrite !sumn_add.
    transitivity ((shalf + shalf) * sumn N (fun i => h i i) + shalf * sumn N (fun i => sumn N (fun j => u i j i j))).
    - rewrite half_half. ring.
    - ring.
  Qed.
  Lemma energy_from_fock_restricted N h u :
    E_restricted N h u = sumn N (fun i => h i i + F_restricted N h u i i).
  Proof. unfold E_restricted, F_restricted. rewrite !sumn_add. ring. Qed.

  (** C21 *)
  Lemma even_2k k : Nat.even (2 * k) = true.
  Proof. rewrite Nat.even_mul. reflexivity. Qed.
  Lemma even_2k1 k : Nat.even (2 * k + 1) = false.
  Proof. rewrite Nat.even_add, even_2k. reflexivity. Qed.
  Lemma div_2k k : ((2 * k) / 2 = k)%nat.
  Proof. rewrite Nat.mul_comm. apply Nat.div_mul. lia. Qed.
  Lemma div_2k1 k : ((2 * k + 1) / 2 = k)%nat.
  Proof. rewrite Nat.mul_comm, Nat.div_add_l by lia. cbn. lia. Qed.
  Lemma fock_doubled N h u P Q :
    F_general (2 * N) (dbl1 h) (exch (dbl2 u)) P Q = dbl1 (F_restricted N h u) P Q.
  Proof.
    unfold F_general, F_restricted, exch, dbl1. rewrite sumn_double.
    assert (E : forall k, (dbl2 u P (2 * k)%nat Q (2 * k)%nat - dbl2 u P (2 * k)%nat (2 * k)%nat Q
       + (dbl2 u P (2 * k + 1)%nat Q (2 * k + 1)%nat - dbl2 u P (2 * k + 1)%nat (2 * k + 1)%nat Q))
       = (if same_parity P Q then (1 + 1) * u (P / 2)%nat k (Q / 2)%nat k - u (P / 2)%nat k k (Q / 2)%nat else 0)).
    { intros k. unfold dbl2, same_parity. rewrite even_2k, even_2k1, div_2k, div_2k1.
      destruct (Nat.even P), (Nat.even Q); cbn; ring. }
    rewrite (sumn_ext K N _ _ (fun k _ => E k)). destruct (same_parity P Q); [reflexivity|].
    rewrite sumn_zero. ring.
  Qed.
  (** C20 *)
  Lemma energy_doubled N h u : E_general (2 * N) (dbl1 h) (exch (dbl2 u)) = E_restricted N h u.
  Proof.
    rewrite energy_from_fock_general, energy_from_fock_restricted, sumn_double.
    rewrite (sumn_ext K N _ (fun k => (h k k + F_restricted N h u k k) + (h k k + F_restricted N h u k k))).
    - rewrite sumn_add.
      set (S := sumn N _). transitivity ((shalf + shalf) * S); [ring | rewrite half_half; ring].
    - intros k _. rewrite !fock_doubled. unfold dbl1, same_parity. rewrite even_2k, even_2k1, div_2k, div_2k1.
      cbn. ring.
  Qed.
  (** Without anti-symmetrization the exchange part is missing. *)
  Lemma energy_doubled_plain N h u : E_general (2 * N) (dbl1 h) (dbl2 u)
    = E_restricted N h u + sumn N (fun i => sumn N (fun j => u i j j i)).
  Proof.
    unfold E_general, E_restricted. rewrite !sumn_double.
    rewrite (sumn_ext K N (fun k => dbl1 h (2 * k)%nat (2 * k)%nat + dbl1 h (2 * k + 1)%nat (2 * k + 1)%nat)
               (fun k => h k k + h k k)).
    2:{ intros k _. unfold dbl1, same_parity. rewrite even_2k, even_2k1, div_2k, div_2k1. reflexivity. }
    rewrite (sumn_ext K N (fun k => sumn (2 * N) _ + sumn (2 * N) _)
               (fun k => sumn N (fun j => (1 + 1) * ((1 + 1) * u k j k j)))).
    2:{ intros k _. rewrite !sumn_double, <- sumn_add. apply sumn_ext. intros j _.
        unfold dbl2, same_parity. rewrite !even_2k, !even_2k1, !div_2k, !div_2k1. cbn. ring. }
    assert (E : sumn N (fun k => sumn N (fun j => (1 + 1) * ((1 + 1) * u k j k j)))
                = (1 + 1) * sumn N (fun k => sumn N (fun j => (1 + 1) * u k j k j))).
    { rewrite sumn_mul_l. apply sumn_ext. intros k _. rewrite sumn_mul_l. reflexivity. }
    rewrite E.
    rewrite (sumn_ext K N (fun i => sumn N (fun j => (1 + 1) * u i j i j - u i j j i))
               (fun i => sumn N (fun j => (1 + 1) * u i j i j) - sumn N (fun j => u i j j i))).
    2:{ intros i _. apply sumn_sub. }
    rewrite sumn_sub, sumn_add.
    set (A := sumn N (fun k => sumn N (fun j => (1 + 1) * u k j k j))).
    transitivity ((1 + 1) * sumn N (fun i => h i i) + (shalf + shalf) * A); [ring|]. rewrite half_half. ring.
  Qed.

  (** C23 *)
  Lemma fock_general_hermitian l N h u : (N <= l)%nat -> hermitian l h -> hermitian2 l u ->
    hermitian l (F_general N h u).
  Proof.
    intros HN Hh Hu p q Hp Hq. unfold F_general. rewrite conj_add, sumn_conj, <- (Hh p q Hp Hq). f_equal.
    apply sumn_ext. intros i Hi. apply Hu; lia.
  Qed.
  Lemma fock_restricted_hermitian l N h u : (N <= l)%nat -> hermitian l h -> hermitian2 l u -> particle_sym l u ->
    hermitian l (F_restricted N h u).
  Proof.
    intros HN Hh Hu Hs p q Hp Hq. unfold F_restricted. rewrite conj_add, sumn_conj, <- (Hh p q Hp Hq). f_equal.
    apply sumn_ext. intros i Hi. rewrite conj_sub, conj_mul, conj_add, conj_1.
    rewrite (Hu p i q i), (Hu p i i q), (Hs i q p i) by lia. reflexivity.
  Qed.
  Lemma energy_general_real l N h u : (N <= l)%nat -> hermitian l h -> hermitian2 l u ->
    sconj (E_general N h u) = E_general N h u.
  Proof.
    intros HN Hh Hu. rewrite energy_from_fock_general, conj_mul, conj_half, sumn_conj. f_equal. apply sumn_ext. intros i Hi.
    rewrite conj_add. rewrite <- (Hh i i) by lia. f_equal. symmetry. apply (fock_general_hermitian l N h u HN Hh Hu); lia.
  Qed.
  Lemma energy_restricted_real l N h u : (N <= l)%nat -> hermitian l h -> hermitian2 l u -> particle_sym l u ->
    sconj (E_restricted N h u) = E_restricted N h u.
  Proof.
    intros HN Hh Hu Hs. rewrite energy_from_fock_restricted, sumn_conj. apply sumn_ext. intros i Hi.
    rewrite conj_add. rewrite <- (Hh i i) by lia. f_equal. symmetry. apply (fock_restricted_hermitian l N h u HN Hh Hu Hs); lia.
  Qed.

  (** C25: rotations among the first N orbitals. *)
  Definition keeps_occupied (l N : nat) C D : Prop :=
    (forall i a, (i < N)%nat -> (N <= a < l)%nat -> C a i = 0 /\ D i a = 0) /\
    (forall a b, (a < N)%nat -> (b < N)%nat -> sumn N (fun i => C a i * D i b) = delta a b).
  Lemma sumn_restrict l N (g : nat -> K) : (N <= l)%nat -> (forall k, (N <= k < l)%nat -> g k = 0) -> sumn l g = sumn N g.
  Proof.
    intros H Hz. replace l with (N + (l - N))%nat by lia. rewrite sumn_app.
    rewrite (sumn_zero' K (l - N)); [ring|]. intros k Hk. apply Hz. lia.
  Qed.
  Lemma T1_restrict l N h C D i j : (N <= l)%nat -> (forall i a, (i < N)%nat -> (N <= a < l)%nat -> C a i = 0 /\ D i a = 0) ->
    (i < N)%nat -> (j < N)%nat -> T1 l h C D i j = T1 N h C D i j.
  Proof.
    intros H HCD Hi Hj. unfold T1. rewrite (sumn_restrict l N) by
      (first [exact H | intros a Ha; apply sumn_zero'; intros b _; rewrite (proj2 (HCD i a Hi Ha)); ring]).
    apply sumn_ext. intros a Ha. apply sumn_restrict; [exact H|]. intros b Hb. rewrite (proj1 (HCD j b Hj Hb)). ring.
  Qed.
  Lemma T2_restrict l N u C D i j k m : (N <= l)%nat -> (forall i a, (i < N)%nat -> (N <= a < l)%nat -> C a i = 0 /\ D i a = 0) ->
    (i < N)%nat -> (j < N)%nat -> (k < N)%nat -> (m < N)%nat -> T2 l u C D i j k m = T2 N u C D i j k m.
  Proof.
    intros H HCD Hi Hj Hk Hm. unfold T2. rewrite (sumn_restrict l N); [|exact H|].
    2:{ intros a Ha. do 3 (apply sumn_zero'; intros ? _). rewrite (proj2 (HCD i a Hi Ha)). ring. }
    apply sumn_ext. intros a _. rewrite (sumn_restrict l N); [|exact H|].
    2:{ intros b Hb. do 2 (apply sumn_zero'; intros ? _). rewrite (proj2 (HCD j b Hj Hb)). ring. }
    apply sumn_ext. intros b _. rewrite (sumn_restrict l N); [|exact H|].
    2:{ intros c Hc. apply sumn_zero'; intros ? _. rewrite (proj1 (HCD k c Hk Hc)). ring. }
    apply sumn_ext. intros c _. apply sumn_restrict; [exact H|]. intros d Hd. rewrite (proj1 (HCD m d Hm Hd)). ring.
  Qed.
  Lemma sumn_delta_l N a (g : nat -> K) : (a < N)%nat -> sumn N (fun b => delta a b * g b) = g a.
  Proof.
    intros H. rewrite (sumn_pick K N a) by (first [exact H | intros k Hk Hne; unfold delta; destruct (Nat.eqb_spec a k); [congruence | ring]]).
    unfold delta. rewrite Nat.eqb_refl. ring.
  Qed.
  Lemma trace_T1 N h C D : (forall a b, (a < N)%nat -> (b < N)%nat -> sumn N (fun i => C a i * D i b) = delta a b) ->
    sumn N (fun i => T1 N h C D i i) = sumn N (fun a => h a a).
  Proof.
    intros H. unfold T1. rewrite sumn_swap. apply sumn_ext. intros a Ha. rewrite sumn_swap.
    transitivity (sumn N (fun b => delta a b * h a b)); [|apply sumn_delta_l; exact Ha].
    apply sumn_ext. intros b Hb.
    transitivity (sumn N (fun i => C b i * D i a) * h a b).
    - rewrite sumn_mul_r. apply sumn_ext. intros. ring.
    - rewrite H by assumption. f_equal. unfold delta. rewrite Nat.eqb_sym. reflexivity.
  Qed.
  Lemma contract_direct N u C D i k : (forall a b, (a < N)%nat -> (b < N)%nat -> sumn N (fun i => C a i * D i b) = delta a b) ->
    sumn N (fun j => T2 N u C D i j k j) = T1 N (fun a c => sumn N (fun b => u a b c b)) C D i k.
  Proof.
    intros H. unfold T2, T1. rewrite sumn_swap. apply sumn_ext. intros a Ha.
    transitivity (sumn N (fun c => sumn N (fun b => sumn N (fun d => sumn N (fun j =>
      D i a * D j b * u a b c d * C c k * C d j))))).
    { rewrite (sumn_ext K N _ (fun j => sumn N (fun c => sumn N (fun b => sumn N (fun d =>
        D i a * D j b * u a b c d * C c k * C d j))))) by (intros; apply sumn_swap).
      rewrite sumn_swap. apply sumn_ext. intros c _. rewrite sumn_swap. apply sumn_ext. intros b _. apply sumn_swap. }
    apply sumn_ext. intros c Hc. rewrite sumn_mul_l, sumn_mul_r. apply sumn_ext. intros b Hb.
    transitivity (sumn N (fun d => delta b d * (D i a * u a b c d * C c k))).
    - apply sumn_ext. intros d Hd. transitivity (sumn N (fun j => C d j * D j b) * (D i a * u a b c d * C c k)).
      + rewrite sumn_mul_r. apply sumn_ext. intros. ring.
      + rewrite H by assumption. f_equal. unfold delta. rewrite Nat.eqb_sym. reflexivity.
    - apply sumn_delta_l. exact Hb.
  Qed.
  Lemma contract_exchange N u C D i k : (forall a b, (a < N)%nat -> (b < N)%nat -> sumn N (fun i => C a i * D i b) = delta a b) ->
    sumn N (fun j => T2 N u C D i j j k) = T1 N (fun a d => sumn N (fun b => u a b b d)) C D i k.
  Proof.
    intros H. unfold T2, T1. rewrite sumn_swap. apply sumn_ext. intros a Ha.
    transitivity (sumn N (fun d => sumn N (fun b => sumn N (fun c => sumn N (fun j =>
      D i a * D j b * u a b c d * C c j * C d k))))).
    { rewrite (sumn_ext K N _ (fun j => sumn N (fun d => sumn N (fun b => sumn N (fun c =>
        D i a * D j b * u a b c d * C c j * C d k))))).
      2:{ intros j _. transitivity (sumn N (fun b => sumn N (fun d => sumn N (fun c =>
            D i a * D j b * u a b c d * C c j * C d k)))).
          - apply sumn_ext. intros b _. apply sumn_swap.
          - apply sumn_swap. }
      rewrite sumn_swap. apply sumn_ext. intros d _. rewrite sumn_swap. apply sumn_ext. intros b _. apply sumn_swap. }
    apply sumn_ext. intros d Hd. rewrite sumn_mul_l, sumn_mul_r. apply sumn_ext. intros b Hb.
    transitivity (sumn N (fun c => delta b c * (D i a * u a b c d * C d k))).
    - apply sumn_ext. intros c Hc. transitivity (sumn N (fun j => C c j * D j b) * (D i a * u a b c d * C d k)).
      + rewrite sumn_mul_r. apply sumn_ext. intros. ring.
      + rewrite H by assumption. f_equal. unfold delta. rewrite Nat.eqb_sym. reflexivity.
    - apply sumn_delta_l. exact Hb.
  Qed.

  Lemma occupied_invariants l N h u C D : (N <= l)%nat -> keeps_occupied l N C D ->
    sumn N (fun i => T1 l h C D i i) = sumn N (fun i => h i i) /\
    sumn N (fun i => sumn N (fun j => T2 l u C D i j i j)) = sumn N (fun i => sumn N (fun j => u i j i j)) /\
    sumn N (fun i => sumn N (fun j => T2 l u C D i j j i)) = sumn N (fun i => sumn N (fun j => u i j j i)).
  Proof.
    intros HN [H1 H2]. split; [|split].
    - rewrite <- (trace_T1 N h C D H2). apply sumn_ext. intros i Hi. apply T1_restrict; assumption.
    - rewrite <- (trace_T1 N (fun a c => sumn N (fun b => u a b c b)) C D H2). apply sumn_ext. intros i Hi.
      rewrite <- contract_direct by exact H2. apply sumn_ext. intros j Hj. apply T2_restrict; assumption.
    - rewrite <- (trace_T1 N (fun a d => sumn N (fun b => u a b b d)) C D H2). apply sumn_ext. intros i Hi.
      rewrite <- contract_exchange by exact H2. apply sumn_ext. intros j Hj. apply T2_restrict; assumption.
  Qed.
  Lemma energy_general_invariant l N h u C D : (N <= l)%nat -> keeps_occupied l N C D ->
    E_general N (T1 l h C D) (T2 l u C D) = E_general N h u.
  Proof.
    intros HN Hk. destruct (occupied_invariants l N h u C D HN Hk) as (A & B & _). unfold E_general. rewrite A, B. reflexivity.
  Qed.
  Lemma energy_restricted_invariant l N h u C D : (N <= l)%nat -> keeps_occupied l N C D ->
    E_restricted N (T1 l h C D) (T2 l u C D) = E_restricted N h u.
  Proof.
    intros HN Hk. destruct (occupied_invariants l N h u C D HN Hk) as (A & B & E). unfold E_restricted.
    rewrite A. f_equal.
    assert (X : forall w : tx, sumn N (fun i => sumn N (fun j => (1 + 1) * w i j i j - w i j j i))
       = (1 + 1) * sumn N (fun i => sumn N (fun j => w i j i j)) - sumn N (fun i => sumn N (fun j => w i j j i))).
    { intros w. rewrite sumn_mul_l, <- sumn_sub. apply sumn_ext. intros i _. rewrite sumn_mul_l, <- sumn_sub. reflexivity. }
    rewrite !X, B, E. reflexivity.
  Qed.

  (** Energies depend on the occupied block only. *)
  Lemma E_general_ext N h u h' u' : (forall i, (i < N)%nat -> h i i = h' i i) ->
    (forall i j, (i < N)%nat -> (j < N)%nat -> u i j i j = u' i j i j) -> E_general N h u = E_general N h' u'.
  Proof.
    intros H1 H2. unfold E_general. f_equal; [apply sumn_ext; exact H1|]. f_equal.
    apply sumn_ext; intros i Hi. apply sumn_ext; intros j Hj. auto.
  Qed.
  Lemma E_restricted_ext N h u h' u' : (forall i, (i < N)%nat -> h i i = h' i i) ->
    (forall i j k m, (i < N)%nat -> (j < N)%nat -> (k < N)%nat -> (m < N)%nat -> u i j k m = u' i j k m) ->
    E_restricted N h u = E_restricted N h' u'.
  Proof.
    intros H1 H2. unfold E_restricted. f_equal; [f_equal; apply sumn_ext; exact H1|].
    apply sumn_ext; intros i Hi. apply sumn_ext; intros j Hj. rewrite !H2 by assumption. reflexivity.
  Qed.
End EnergyProofs.
Arguments keeps_occupied {K}.
