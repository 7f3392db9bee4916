(** Transition energies and sum rules of oscillator states in the plane. *)
From Coq Require Import List Arith ZArith Reals Bool Lra Lia.
From Coquelicot Require Import Coquelicot.
From Verif Require Import Scalar ScalarC LadderSpec GridSpec GridProofs.
Open Scope R_scope.

Section Levels.
  Variables mass omega larmor : R.
  Hypotheses (Hm : 0 < mass) (Hw : 0 < omega).
  Notation T := (turn_element mass omega).
  Notation E := (level omega larmor).
  (** Indicator of the states with given differences *)
  Definition here (s : Z * Z) (dl dr : Z) (t : Z * Z) : R :=
    if ((left_quanta t =? left_quanta s + dl) && (right_quanta t =? right_quanta s + dr))%Z then 1 else 0.
  Ltac split_all := repeat match goal with |- context [(?x =? ?y)%Z] => destruct (Z.eqb_spec x y); try lia end; cbn [andb].
  Lemma turn_energy s t : T s t <> 0 -> E s - E t = omega - larmor \/ E s - E t = - (omega + larmor).
  Proof.
    unfold turn_element, level. destruct (Z.eqb_spec (left_quanta s) (left_quanta t + 1)) as [H1|H1]; cbn [andb].
    - destruct (Z.eqb_spec (right_quanta s) (right_quanta t)) as [H2|H2].
      + intros _. left. rewrite H1, H2, !plus_IZR, !minus_IZR, !plus_IZR. lra.
      + destruct (Z.eqb_spec (left_quanta s) (left_quanta t)); [lia|]. cbn [andb]. intros X. destruct X. ring.
    - destruct (Z.eqb_spec (left_quanta s) (left_quanta t)) as [H2|H2]; cbn [andb]; [|intros X; destruct X; ring].
      destruct (Z.eqb_spec (right_quanta s + 1) (right_quanta t)) as [H3|H3]; [|intros X; destruct X; ring].
      intros _. right. rewrite H2, <- H3, !plus_IZR, !minus_IZR, !plus_IZR. lra.
  Qed.
  Lemma quanta_nonneg s : (0 <= fst s)%Z -> (0 <= left_quanta s)%Z /\ (0 <= right_quanta s)%Z.
  Proof. unfold left_quanta, right_quanta. lia. Qed.
  Lemma quanta_inj s t : left_quanta s = left_quanta t -> right_quanta s = right_quanta t -> s = t.
  Proof. destruct s, t. unfold left_quanta, right_quanta. cbn. intros. f_equal; lia. Qed.
  Lemma over x : (0 <= x)%Z -> sqrt (IZR x / (mass * omega)) ^ 2 = IZR x / (mass * omega).
  Proof. intros H. apply pow2_sqrt. apply Rmult_le_pos; [apply IZR_le, H | left; apply Rinv_0_lt_compat, Rmult_lt_0_compat; assumption]. Qed.
  Lemma sign_square (c : bool) x : ((if c then 1 else -1) * x) ^ 2 = x ^ 2.
  Proof. destruct c; ring. Qed.
  Lemma turn_square s t : (0 <= fst s)%Z -> (0 <= fst t)%Z ->
    T s t ^ 2 = (here s (-1) 0 t * IZR (left_quanta s) + here s 0 1 t * (IZR (right_quanta s) + 1)) / (mass * omega).
  Proof.
    intros Hs Ht. destruct (quanta_nonneg s Hs), (quanta_nonneg t Ht). unfold turn_element, here. rewrite sign_square.
    assert (P : 0 < mass * omega) by (apply Rmult_lt_0_compat; assumption).
    split_all; rewrite ?over by lia; try (rewrite ?plus_IZR; field; lra).
    - replace (right_quanta t) with (right_quanta s + 1)%Z by lia. rewrite plus_IZR. field. lra.
  Qed.
  Lemma turn_square' s t : (0 <= fst s)%Z -> (0 <= fst t)%Z ->
    T t s ^ 2 = (here s 1 0 t * (IZR (left_quanta s) + 1) + here s 0 (-1) t * IZR (right_quanta s)) / (mass * omega).
  Proof.
    intros Hs Ht. destruct (quanta_nonneg s Hs), (quanta_nonneg t Ht). unfold turn_element, here. rewrite sign_square.
    assert (P : 0 < mass * omega) by (apply Rmult_lt_0_compat; assumption).
    split_all; rewrite ?over by lia; try (rewrite ?plus_IZR; field; lra).
    replace (left_quanta t) with (left_quanta s + 1)%Z by lia. rewrite plus_IZR. field. lra.
  Qed.
  Lemma turn_once s t : T s t * T t s = 0.
  Proof. unfold turn_element. split_all; ring. Qed.
  Lemma square s t c : (0 <= fst s)%Z -> (0 <= fst t)%Z -> c ^ 2 = 1 ->
    ((T s t + c * T t s) / 2) ^ 2 = (here s (-1) 0 t * IZR (left_quanta s) + here s 0 1 t * (IZR (right_quanta s) + 1)
      + (here s 1 0 t * (IZR (left_quanta s) + 1) + here s 0 (-1) t * IZR (right_quanta s))) / (4 * mass * omega).
  Proof.
    intros Hs Ht Hc. transitivity ((T s t ^ 2 + c ^ 2 * T t s ^ 2 + 2 * c * (T s t * T t s)) / 4); [field|].
    rewrite turn_square, turn_square', turn_once, Hc by assumption. field. lra.
  Qed.
  Lemma here_level s dl dr t : here s dl dr t * (E t - E s) = here s dl dr t * (omega * IZR (dl + dr) - larmor * IZR (dl - dr)).
  Proof.
    unfold here. destruct (Z.eqb_spec (left_quanta t) (left_quanta s + dl)) as [A|A]; cbn [andb]; [|ring].
    destruct (Z.eqb_spec (right_quanta t) (right_quanta s + dr)) as [B|B]; [|ring]. unfold level. rewrite A, B, !plus_IZR, !minus_IZR, !plus_IZR. ring.
  Qed.
  (** A table of states *)
  Variables (l : nat) (state : nat -> Z * Z) (p : nat).
  Hypothesis Hn : forall q, (q < l)%nat -> (0 <= fst (state q))%Z.
  Hypothesis Hi : forall q q', (q < l)%nat -> (q' < l)%nat -> state q = state q' -> q = q'.
  Hypothesis Hp : (p < l)%nat.
  Hypothesis I : inner l state p.
  Notation s := (state p).
  Lemma rsum_one n f k : (k < n)%nat -> f k = 1 -> (forall j, (j < n)%nat -> j <> k -> f j = 0) -> rsum n f = 1.
  Proof.
    induction n as [|n IH]; intros Hk H1 H0; [lia|]. cbn [rsum]. destruct (Nat.eq_dec k n) as [->|D].
    - rewrite (rsum_ext n f (fun _ => 0)) by (intros; apply H0; lia). rewrite rsum_const, H1. ring.
    - rewrite (H0 n) by lia. rewrite IH; [ring | lia | exact H1 | intros; apply H0; lia].
  Qed.
  Lemma count dl dr : (Z.abs dl + Z.abs dr = 1)%Z -> (0 <= left_quanta s + dl)%Z -> (0 <= right_quanta s + dr)%Z ->
    rsum l (fun q => here s dl dr (state q)) = 1.
  Proof.
    intros H1 HL HR. set (t := (Z.min (left_quanta s + dl) (right_quanta s + dr), left_quanta s + dl - (right_quanta s + dr))%Z).
    assert (TL : left_quanta t = (left_quanta s + dl)%Z) by (unfold left_quanta at 1; unfold t; cbn [fst snd]; lia).
    assert (TR : right_quanta t = (right_quanta s + dr)%Z) by (unfold right_quanta at 1; unfold t; cbn [fst snd]; lia).
    destruct (I t) as (q & Hq & Eq). { split; [unfold t; cbn [fst]; lia|]. rewrite TL, TR. replace (left_quanta s + dl - left_quanta s)%Z with dl by lia. replace (right_quanta s + dr - right_quanta s)%Z with dr by lia. exact H1. }
    apply (rsum_one l _ q Hq).
    - unfold here. rewrite Eq, TL, TR, !Z.eqb_refl. reflexivity.
    - intros j Hj Hd. unfold here. destruct (Z.eqb_spec (left_quanta (state j)) (left_quanta s + dl)) as [A|A]; [|reflexivity]. cbn [andb].
      destruct (Z.eqb_spec (right_quanta (state j)) (right_quanta s + dr)) as [B|B]; [|reflexivity]. destruct Hd. apply Hi; [assumption..|]. rewrite Eq. apply quanta_inj; congruence.
  Qed.
  Lemma count_low (dl dr x : Z) : (Z.abs dl + Z.abs dr = 1)%Z -> (0 < x -> 0 <= left_quanta s + dl)%Z -> (0 < x -> 0 <= right_quanta s + dr)%Z -> (0 <= x)%Z ->
    rsum l (fun q => here s dl dr (state q)) * IZR x = IZR x.
  Proof. intros H1 HL HR Hx. destruct (Z.eq_dec x 0) as [->|D]; [ring|]. rewrite count by (try assumption; lia). ring. Qed.
  Section Sum.
    Variable c : R.
    Hypothesis Hc : c ^ 2 = 1.
    Lemma weighted (W : Z * Z -> R) (w1 w2 w3 w4 : R) :
      (forall t, here s (-1) 0 t * W t = here s (-1) 0 t * w1) -> (forall t, here s 0 1 t * W t = here s 0 1 t * w2) ->
      (forall t, here s 1 0 t * W t = here s 1 0 t * w3) -> (forall t, here s 0 (-1) t * W t = here s 0 (-1) t * w4) ->
      rsum l (fun q => W (state q) * ((T s (state q) + c * T (state q) s) / 2) ^ 2)
      = (w1 * IZR (left_quanta s) + w2 * (IZR (right_quanta s) + 1) + w3 * (IZR (left_quanta s) + 1) + w4 * IZR (right_quanta s)) / (4 * mass * omega).
    Proof.
      intros H1 H2 H3 H4. destruct (quanta_nonneg s (Hn p Hp)) as [QL QR]. set (x := IZR (left_quanta s)). set (y := IZR (right_quanta s)).
      rewrite (rsum_ext l _ (fun q => / (4 * mass * omega) * ((w1 * x) * here s (-1) 0 (state q) + ((w2 * (y + 1)) * here s 0 1 (state q) + ((w3 * (x + 1)) * here s 1 0 (state q) + (w4 * y) * here s 0 (-1) (state q)))))).
      - rewrite rsum_scal, !rsum_add, !rsum_scal. 
        pose proof (count 0 1 ltac:(lia) ltac:(lia) ltac:(lia)) as C2. pose proof (count 1 0 ltac:(lia) ltac:(lia) ltac:(lia)) as C3.
        pose proof (count_low (-1) 0 (left_quanta s) ltac:(lia) ltac:(lia) ltac:(lia) QL) as C1. pose proof (count_low 0 (-1) (right_quanta s) ltac:(lia) ltac:(lia) ltac:(lia) QR) as C4. fold x in C1. fold y in C4.
        rewrite C2, C3. set (k1 := rsum l (fun q => here s (-1) 0 (state q))) in *. set (k4 := rsum l (fun q => here s 0 (-1) (state q))) in *.
        replace (w1 * x * k1) with (w1 * (k1 * x)) by ring. replace (w4 * y * k4) with (w4 * (k4 * y)) by ring. rewrite C1, C4. field. lra.
      - intros q Hq. rewrite (square s (state q) c (Hn p Hp) (Hn q Hq) Hc). fold x y.
        transitivity (/ (4 * mass * omega) * (x * (here s (-1) 0 (state q) * W (state q)) + ((y + 1) * (here s 0 1 (state q) * W (state q)) + ((x + 1) * (here s 1 0 (state q) * W (state q)) + y * (here s 0 (-1) (state q) * W (state q)))))); [field; lra|].
        rewrite H1, H2, H3, H4. ring.
    Qed.
    Lemma energy_sum : rsum l (fun q => (E (state q) - E s) * ((T s (state q) + c * T (state q) s) / 2) ^ 2) = 1 / (2 * mass).
    Proof.
      rewrite (weighted (fun t => E t - E s) _ _ _ _ (here_level s (-1) 0) (here_level s 0 1) (here_level s 1 0) (here_level s 0 (-1))).
      cbn [Z.add Z.sub Z.opp Z.pos_sub Pos.add]. field. lra.
    Qed.
    Lemma square_sum : rsum l (fun q => ((T s (state q) + c * T (state q) s) / 2) ^ 2) = (IZR (left_quanta s + right_quanta s) + 1) / (2 * mass * omega).
    Proof.
      rewrite (rsum_ext l _ (fun q => 1 * ((T s (state q) + c * T (state q) s) / 2) ^ 2)) by (intros; ring).
      rewrite (weighted (fun _ => 1) 1 1 1 1) by (intros; ring). rewrite plus_IZR. field. lra.
    Qed.
  End Sum.
End Levels.
