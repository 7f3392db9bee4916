(** States of electrons in new orbitals, phi'_q = sum_b C_bq phi_b, written in the old ones. *)
From Coq Require Import List Arith Lia Bool Ring.
From Verif Require Import Scalar Spec FockSpec FockProofs InnerSpec InnerProofs.
Import ListNotations.

Section Map.
  Variable K : scalar.
  Local Open Scope K_scope.
  Add Ring KringOM : (s_ring K).
  Notation state := (state K).
  Variables (k : nat) (C : nat -> nat -> K).
  (** The amplitude for occupation [o] of the old orbitals i, ..., i + n - 1: every occupied one,
      b, is taken out of the new orbitals in turn by sum_q C_bq a_q. *)
  Fixpoint lift (n i : nat) (f : state) (o : occupation) : K :=
    match n with
    | O => f (fun _ => false)
    | S n' => if o i then sumn k (fun q => C i q * lift n' (S i) (annihilate q f) o) else lift n' (S i) f o
    end.
  Lemma lift_occ n : forall i f o o', (forall p, (i <= p)%nat -> o p = o' p) -> lift n i f o = lift n i f o'.
  Proof.
    induction n as [|n IH]; intros i f o o' H; cbn [lift]; [reflexivity|]. rewrite <- (H i) by lia. destruct (o i).
    - apply sumn_ext. intros q _. f_equal. apply IH. intros p Hp. apply H. lia.
    - apply IH. intros p Hp. apply H. lia.
  Qed.
  Lemma annihilate_among q (f g : state) : (q < k)%nat -> (forall o, among k o -> f o = g o) -> forall o, among k o -> annihilate q f o = annihilate q g o.
  Proof.
    intros Hq E o A. unfold annihilate. destruct (o q); [reflexivity|]. rewrite E; [reflexivity|]. intros p Hp. unfold put. destruct (Nat.eqb_spec p q); [lia | apply A, Hp].
  Qed.
  Lemma lift_ext n : forall i f g o, (forall o, among k o -> f o = g o) -> lift n i f o = lift n i g o.
  Proof.
    induction n as [|n IH]; intros i f g o E; cbn [lift]; [apply E; intros p _; reflexivity|]. destruct (o i); [|apply IH, E].
    apply sumn_ext. intros q Hq. f_equal. apply IH. apply annihilate_among; assumption.
  Qed.
  Lemma lift_scal n : forall i c f o, lift n i (fun o => c * f o) o = c * lift n i f o.
  Proof.
    induction n as [|n IH]; intros i c f o; cbn [lift]; [reflexivity|]. destruct (o i); [|apply IH]. rewrite sumn_mul_l. apply sumn_ext. intros q _.
    rewrite (lift_ext n (S i) (annihilate q (fun o => c * f o)) (fun o => c * annihilate q f o)) by (intros; apply annihilate_scal). rewrite IH. ring.
  Qed.
  Lemma lift_add n : forall i f g o, lift n i (fun o => f o + g o) o = lift n i f o + lift n i g o.
  Proof.
    induction n as [|n IH]; intros i f g o; cbn [lift]; [reflexivity|]. destruct (o i); [|apply IH]. rewrite <- sumn_add. apply sumn_ext. intros q _.
    rewrite (lift_ext n (S i) (annihilate q (fun o => f o + g o)) (fun o => annihilate q f o + annihilate q g o)); [rewrite IH; ring|].
    intros o' _. unfold annihilate. destruct (o' q); ring.
  Qed.
  Lemma lift_zero n i o : lift n i (fun _ => 0) o = 0.
  Proof. rewrite (lift_ext n i (fun _ => 0) (fun o => 0 * 0)) by (intros; ring). rewrite (lift_scal n i 0 (fun _ => 0)). ring. Qed.
  Lemma lift_sum m n i (F : nat -> state) o : lift n i (fun o => sumn m (fun j => F j o)) o = sumn m (fun j => lift n i (F j) o).
  Proof. induction m as [|m IH]; cbn [sumn]; [apply lift_zero|]. rewrite lift_add, IH. reflexivity. Qed.
  Lemma lift_swap n i q r f o : proper f -> lift n i (annihilate q (annihilate r f)) o = - lift n i (annihilate r (annihilate q f)) o.
  Proof.
    intros Pf. rewrite (lift_ext n i (annihilate q (annihilate r f)) (fun o => - (1) * annihilate r (annihilate q f) o)); [rewrite lift_scal; ring|].
    intros o' _. destruct (fermions K q r f Pf o') as (_ & E & _). transitivity (annihilate q (annihilate r f) o' + annihilate r (annihilate q f) o' - annihilate r (annihilate q f) o'); [ring|]. rewrite E. ring.
  Qed.
  Fixpoint sign (i d : nat) (o : occupation) : K := match d with O => 1 | S d => if o i then - sign (S i) d o else sign (S i) d o end.
  Lemma sign_parity d : forall i o, parity (i + d) o = parity i o * sign i d o.
  Proof.
    induction d as [|d IH]; intros i o; cbn [sign]; [rewrite Nat.add_0_r; ring|]. replace (i + S d)%nat with (S i + d)%nat by lia. rewrite IH. cbn [parity]. destruct (o i); ring.
  Qed.
  Lemma sum_scal_in n (x : K) f : sumn n (fun q => x * f q) = x * sumn n f.
  Proof. symmetry. apply sumn_mul_l. Qed.
  Lemma lift_lower n : forall i d f o, (d < n)%nat -> proper f -> o (i + d)%nat = false ->
    lift n i f (put (i + d) true o) = sign i d o * sumn k (fun q => C (i + d)%nat q * lift n i (annihilate q f) o).
  Proof.
    induction n as [|n IH]; intros i d f o Hd Pf E; [lia|]. destruct d as [|d].
    - rewrite Nat.add_0_r in *. cbn [lift sign]. unfold put at 1. rewrite Nat.eqb_refl, E.
      transitivity (sumn k (fun q => C i q * lift n (S i) (annihilate q f) o)); [|ring]. apply sumn_ext. intros q _. f_equal. apply lift_occ. intros p Hp. unfold put. destruct (Nat.eqb_spec p i); [lia|reflexivity].
    - replace (i + S d)%nat with (S i + d)%nat in * by lia. cbn [lift sign]. unfold put at 1. destruct (Nat.eqb_spec i (S i + d)); [lia|].
      destruct (o i) eqn:Ei.
      + transitivity (sumn k (fun q => C i q * (sign (S i) d o * sumn k (fun r => C (S i + d)%nat r * lift n (S i) (annihilate r (annihilate q f)) o)))).
        { apply sumn_ext. intros q _. f_equal. apply IH; [lia | apply annihilate_proper, Pf | exact E]. }
        rewrite <- sum_scal_in. transitivity (sumn k (fun q => sumn k (fun r => C i q * sign (S i) d o * (C (S i + d)%nat r * lift n (S i) (annihilate r (annihilate q f)) o)))).
        { apply sumn_ext. intros q _. rewrite sum_scal_in. ring. }
        rewrite sumn_swap. apply sumn_ext. intros r _. rewrite !sumn_mul_l. apply sumn_ext. intros q _. rewrite (lift_swap n (S i) r q f o Pf). ring.
      + apply IH; [lia | exact Pf | exact E].
  Qed.
  (** A state of the new orbitals as a state of the first [l] old ones *)
  Definition embed (l : nat) (f : state) : state := lift l 0 f.
  Lemma embed_proper l f : proper (embed l f).
  Proof. intros o o' E. apply lift_occ. intros p _. apply E. Qed.
  Lemma twice_zero (x : K) : x = - x -> x = 0.
  Proof. intros E. transitivity ((shalf + shalf) * x); [rewrite half_half; ring|]. transitivity (shalf * (x + x)); [ring|]. rewrite E at 1. ring. Qed.
  (** Taking an electron out of an old orbital *)
  Lemma embed_lower l b f o : (b < l)%nat -> proper f -> annihilate b (embed l f) o = sumn k (fun q => C b q * embed l (annihilate q f) o).
  Proof.
    intros Hb Pf. unfold annihilate at 1, embed. pose proof (sign_parity b 0 o) as Sp. cbn [parity Nat.add] in Sp. destruct (o b) eqn:E.
    - symmetry. set (o0 := put b false o).
      assert (E0 : o0 b = false) by (unfold o0, put; rewrite Nat.eqb_refl; reflexivity).
      assert (Eo : forall p, o p = put b true o0 p) by (intros p; unfold o0, put; destruct (Nat.eqb_spec p b) as [->|]; [exact E|reflexivity]).
      set (T := sumn k (fun q => C b q * sumn k (fun r => C b r * lift l 0 (annihilate r (annihilate q f)) o0))).
      assert (Z : T = 0).
      { apply twice_zero. unfold T at 1. transitivity (sumn k (fun q => sumn k (fun r => C b q * (C b r * lift l 0 (annihilate r (annihilate q f)) o0)))); [apply sumn_ext; intros q _; apply sumn_mul_l|].
        rewrite sumn_swap. unfold T. rewrite <- sumn_opp. apply sumn_ext. intros r _. rewrite sumn_mul_l, <- sumn_opp. apply sumn_ext. intros q _. rewrite (lift_swap l 0 r q f o0 Pf). ring. }
      transitivity (sign 0 b o0 * T); [|rewrite Z; ring]. unfold T. rewrite sumn_mul_l. apply sumn_ext. intros q _. rewrite (lift_occ l 0 _ o (put b true o0)) by (intros p _; apply Eo).
      pose proof (lift_lower l 0 b (annihilate q f) o0 Hb (annihilate_proper K q f Pf) E0) as Q. cbn [Nat.add] in Q. rewrite Q. ring.
    - pose proof (lift_lower l 0 b f o Hb Pf E) as Q. cbn [Nat.add] in Q. rewrite Q. transitivity ((parity b o * parity b o) * sumn k (fun q => C b q * lift l 0 (annihilate q f) o)); [rewrite Sp; ring|].
      rewrite parity_square. ring.
  Qed.
  Lemma embed_sum l m (F : nat -> state) o : embed l (fun o => sumn m (fun j => F j o)) o = sumn m (fun j => embed l (F j) o).
  Proof. apply lift_sum. Qed.
  Lemma embed_scal l c f o : embed l (fun o => c * f o) o = c * embed l f o.
  Proof. apply lift_scal. Qed.
  Lemma embed_lower2 l a b f o : (a < l)%nat -> (b < l)%nat -> proper f ->
    annihilate a (annihilate b (embed l f)) o = sumn k (fun r => sumn k (fun q => C b r * C a q * embed l (annihilate q (annihilate r f)) o)).
  Proof.
    intros Ha Hb Pf. rewrite (annihilate_ext K a (annihilate b (embed l f)) (fun o => sumn k (fun q => C b q * embed l (annihilate q f) o))) by (intros o'; apply embed_lower; assumption).
    rewrite annihilate_sum. apply sumn_ext. intros r _. rewrite annihilate_scal. rewrite (embed_lower l a (annihilate r f) o Ha (annihilate_proper K r f Pf)).
    rewrite sumn_mul_l. apply sumn_ext. intros q _. ring.
  Qed.

  (** ** Matrix elements of operators *)
  Variable l : nat.
  Lemma inner_sum_l n (f : nat -> state) (g : state) : inner l (fun o => sumn n (fun j => f j o)) g = sumn n (fun j => inner l (f j) g).
  Proof. rewrite <- inner_conj, inner_sum, sumn_conj. apply sumn_ext. intros j _. apply inner_conj. Qed.
  Lemma inner_scal_l (c : K) (f g : state) : inner l (fun o => c * f o) g = sconj c * inner l f g.
  Proof. rewrite <- inner_conj, inner_scal, conj_mul, inner_conj. reflexivity. Qed.
  Lemma inner_ext_l (f f' g : state) : (forall o, f o = f' o) -> inner l f g = inner l f' g.
  Proof. intros E. rewrite <- (inner_conj K l g f), <- (inner_conj K l g f'). f_equal. apply inner_ext, E. Qed.
  Lemma lower_inner a b (f g : state) : (a < l)%nat -> (b < l)%nat -> proper f -> proper g ->
    inner l (annihilate a (embed l f)) (annihilate b (embed l g)) = sumn k (fun p => sumn k (fun q => sconj (C a p) * C b q * inner l (embed l (annihilate p f)) (embed l (annihilate q g)))).
  Proof.
    intros Ha Hb Pf Pg. rewrite (inner_ext_l _ _ _ (fun o => embed_lower l a f o Ha Pf)), (inner_ext K l _ _ _ (fun o => embed_lower l b g o Hb Pg)).
    rewrite inner_sum_l. apply sumn_ext. intros p _. rewrite inner_sum. apply sumn_ext. intros q _. rewrite inner_scal, inner_scal_l. ring.
  Qed.
  Lemma lower_inner2 a b c d (f g : state) : (a < l)%nat -> (b < l)%nat -> (c < l)%nat -> (d < l)%nat -> proper f -> proper g ->
    inner l (annihilate b (annihilate a (embed l f))) (annihilate d (annihilate c (embed l g))) =
    sumn k (fun p => sumn k (fun q => sumn k (fun r => sumn k (fun s => sconj (C a p) * sconj (C b q) * (C c r * C d s) * inner l (embed l (annihilate q (annihilate p f))) (embed l (annihilate s (annihilate r g))))))).
  Proof.
    intros Ha Hb Hc Hd Pf Pg. rewrite (inner_ext_l _ _ _ (fun o => embed_lower2 l b a f o Hb Ha Pf)), (inner_ext K l _ _ _ (fun o => embed_lower2 l d c g o Hd Hc Pg)).
    rewrite inner_sum_l. apply sumn_ext. intros p _. rewrite inner_sum_l. apply sumn_ext. intros q _. rewrite inner_sum. apply sumn_ext. intros r _. rewrite inner_sum. apply sumn_ext. intros s _.
    rewrite inner_scal, inner_scal_l, conj_mul. ring.
  Qed.
End Map.
Arguments lift {K}. Arguments embed {K}.
