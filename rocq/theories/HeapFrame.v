(** A program leaves alone what it does not hold; a copy holds nothing mutable of the
    original. *)
From Coq Require Import List Arith Lia Bool String.
From Verif Require Import Py PyHeap HeapSpec HeapProofs.
Import ListNotations.

Section Frame.
  Variable data : Type.
  Notation obj := (obj data). Notation heap := (heap data).
  Implicit Types (H : heap) (A B : nat -> Prop).

  Lemma reach_trans (refs : obj -> list nat) H a b c : reach refs H a b -> reach refs H b c -> reach refs H a c.
  Proof. intros R1 R2. induction R2 as [|x o y _ IH Hx Hin]; [exact R1|]. eapply reach_step; [exact IH|exact Hx|exact Hin]. Qed.
  Lemma reach_mono (refs : obj -> list nat) H H' a x : (forall y, reach refs H a y -> nth_error H' y = nth_error H y) ->
    reach refs H a x -> reach refs H' a x.
  Proof.
    intros F R. induction R as [|x o y R IH Hx Hin]; [apply reach_refl|].
    eapply reach_step; [exact IH| |exact Hin]. rewrite F by exact R. exact Hx.
  Qed.
  Lemma reach_back (refs : obj -> list nat) H H' a x : (forall y, reach refs H a y -> nth_error H' y = nth_error H y) ->
    reach refs H' a x -> reach refs H a x.
  Proof.
    intros F R. induction R as [|x o y R IH Hx Hin]; [apply reach_refl|].
    eapply reach_step; [exact IH| |exact Hin]. rewrite <- F by exact IH. exact Hx.
  Qed.
  Lemma holds_valid H a x : closed H -> a < List.length H -> holds H a x -> x < List.length H.
  Proof. intros C Ha R. induction R as [|x o y _ IH Hx Hin]; [exact Ha|]. exact (C x o y Hx Hin). Qed.

  Lemma write_step A B H x o o' : closed H -> (forall a, A a -> a < List.length H) -> separate H A B ->
    (exists a, A a /\ holds H a x) -> nth_error H x = Some o -> immutable o = false ->
    (forall y, In y (all_refs o') -> exists a, A a /\ holds H a y) ->
    let H1 := hset x o' H in
    closed H1 /\ separate H1 A B /\ (forall b y, B b -> holds H b y -> nth_error H1 y = nth_error H y) /\
    (forall b y, B b -> holds H b y -> holds H1 b y).
  Proof.
    intros C Av S Hx Ho Hmut Hr. cbv zeta.
    assert (F : forall b y, B b -> holds H b y -> nth_error (hset x o' H) y = nth_error H y).
    { intros b y Hb Hy. apply hset_other. intros ->. destruct (S x Hx) as (o1 & Ho1 & Hi); [eauto|]. congruence. }
    assert (Bk : forall a y, A a -> holds (hset x o' H) a y -> exists a', A a' /\ holds H a' y).
    { intros a y Ha R. induction R as [|z oz y R IH Hz Hin]; [exists a; split; [exact Ha|apply reach_refl]|].
      destruct IH as (a' & Ha' & R'). destruct (Nat.eq_dec z x) as [->|Hne].
      - rewrite hset_same in Hz by exact (nth_valid _ _ _ _ Ho). injection Hz as <-. exact (Hr y Hin).
      - rewrite hset_other in Hz by exact Hne. exists a'. split; [exact Ha'|]. eapply reach_step; [exact R'|exact Hz|exact Hin]. }
    split; [|split; [|split; [exact F|]]].
    - intros z oz y Hz Hin. rewrite hset_length. destruct (Nat.eq_dec z x) as [->|Hne].
      + rewrite hset_same in Hz by exact (nth_valid _ _ _ _ Ho). injection Hz as <-. destruct (Hr y Hin) as (a & Ha & R).
        exact (holds_valid H a y C (Av a Ha) R).
      + rewrite hset_other in Hz by exact Hne. exact (C z oz y Hz Hin).
    - intros y (a & Ha & R) (b & Hb & Rb). destruct (Bk a y Ha R) as (a' & Ha' & R').
      assert (Rb' : holds H b y) by (apply (reach_back _ H (hset x o' H)); [intros; apply (F b); assumption|exact Rb]).
      rewrite (F b y Hb Rb'). apply S; eauto.
    - intros b y Hb Rb. apply (reach_mono _ H); [intros; apply (F b); assumption|exact Rb].
  Qed.
  Lemma program_frame A H H' : program A H H' -> forall B, closed H -> (forall a, A a -> a < List.length H) ->
    (forall b, B b -> b < List.length H) -> separate H A B ->
    forall b x, B b -> holds H b x -> nth_error H' x = nth_error H x.
  Proof.
    intros Pr. induction Pr as [A H|A H H' x c l l' Hx Ho Hr _ IH|A H H' x d d' Hx Ho _ IH|A H H' o Hr _ IH]; intros B C Av Bv S b y Hb R.
    - reflexivity.
    - destruct (write_step A B H x (Inst c l) (Inst c l') C Av S Hx Ho eq_refl Hr) as (C1 & S1 & F1 & R1).
      rewrite <- (F1 b y Hb R). apply (IH B C1) with (b := b); [intros; rewrite hset_length; auto|intros; rewrite hset_length; auto|exact S1|exact Hb|].
      apply R1; assumption.
    - destruct (write_step A B H x (Buffer d) (Buffer d') C Av S Hx Ho eq_refl) as (C1 & S1 & F1 & R1); [intros ? []|].
      rewrite <- (F1 b y Hb R). apply (IH B C1) with (b := b); [intros; rewrite hset_length; auto|intros; rewrite hset_length; auto|exact S1|exact Hb|].
      apply R1; assumption.
    - assert (F : forall b y, B b -> holds H b y -> nth_error (H ++ [o]) y = nth_error H y).
      { intros b1 y1 Hb1 R1. apply nth_app_l. exact (holds_valid H b1 y1 C (Bv b1 Hb1) R1). }
      assert (L : List.length (H ++ [o]) = Datatypes.S (List.length H)) by (rewrite app_length; cbn; lia).
      assert (Rv : forall y, In y (all_refs o) -> y < List.length H).
      { intros z Hz. destruct (Hr z Hz) as (a & Ha & Ra). exact (holds_valid H a z C (Av a Ha) Ra). }
      rewrite <- (F b y Hb R). apply (IH B) with (b := b); [| | | |exact Hb|].
      + intros z oz t Hz Hin. rewrite L. destruct (Nat.eq_dec z (List.length H)) as [->|Hne].
        * rewrite nth_last in Hz. injection Hz as <-. specialize (Rv t Hin). lia.
        * pose proof (nth_valid _ _ _ _ Hz) as Lz. rewrite L in Lz. rewrite nth_app_l in Hz by lia. specialize (C z oz t Hz Hin). lia.
      + intros a [Ha| ->]; rewrite L; [specialize (Av a Ha)|]; lia.
      + intros b1 Hb1. rewrite L. specialize (Bv b1 Hb1). lia.
      + intros z (a & Ha & Ra) (b1 & Hb1 & Rb).
        assert (Rb' : holds H b1 z) by (apply (reach_back _ H (H ++ [o])); [intros; apply (F b1); assumption|exact Rb]).
        rewrite (F b1 z Hb1 Rb'). assert (Hz : z < List.length H) by exact (holds_valid H b1 z C (Bv b1 Hb1) Rb').
        assert (G : (exists a', A a' /\ holds H a' z) \/ z = List.length H).
        { clear -Ha Ra C Av Hr L. revert Ha. induction Ra as [|z1 o1 y1 _ IH Hz1 Hin]; intros Ha.
          - destruct Ha as [Ha| ->]; [left; exists a; split; [exact Ha|apply reach_refl]|right; reflexivity].
          - destruct (IH Ha) as [(a' & Ha' & R')| ->].
            + left. exists a'. split; [exact Ha'|]. rewrite nth_app_l in Hz1 by exact (holds_valid H a' z1 C (Av a' Ha') R').
              eapply reach_step; [exact R'|exact Hz1|exact Hin].
            + rewrite nth_last in Hz1. injection Hz1 as <-. left. exact (Hr y1 Hin). }
        destruct G as [G| ->]; [|lia]. apply S; eauto.
      + apply (reach_mono _ H); [intros; apply (F b); assumption|exact R].
  Qed.

  (** What an object holds: reached through attributes, or held by a function so reached *)
  Lemma holds_split H a x : holds H a x -> reaches H a x \/
    exists z f cs c, reaches H a z /\ nth_error H z = Some (Func f cs) /\ In c cs /\ holds H c x.
  Proof.
    intros R. induction R as [|x o y R IH Hx Hin]; [left; apply reach_refl|].
    destruct IH as [Rx|(z & f & cs & c & Rz & Hz & Hc & Rc)].
    - destruct o as [k|f cs|d|c l].
      + destruct Hin.
      + right. exists x, f, cs, y. split; [exact Rx|]. split; [exact Hx|]. split; [exact Hin|apply reach_refl].
      + destruct Hin.
      + left. eapply reach_step; [exact Rx|exact Hx|exact Hin].
    - right. exists z, f, cs, c. split; [exact Rz|]. split; [exact Hz|]. split; [exact Hc|]. eapply reach_step; [exact Rc|exact Hx|exact Hin].
  Qed.
  Lemma match_refs R (o o' : obj) : obj_match R o o' ->
    (forall y, In y (attr_refs o') -> exists x, In x (attr_refs o) /\ R x y) /\
    (forall x, In x (attr_refs o) -> exists y, In y (attr_refs o') /\ R x y).
  Proof.
    destruct o as [k|f cs|d|c l], o' as [k'|f' cs'|d'|c' l']; cbn; intros Hm; try contradiction; try (split; intros ? []; fail).
    destruct Hm as [_ Hm]. induction Hm as [|[k v] [k' v'] l l' [_ Hv] _ [IH1 IH2]]; cbn in *; [split; intros ? []|].
    split.
    - intros y Hy. unfold refs_of_values in Hy. cbn in Hy. apply in_app_or in Hy. destruct Hy as [Hy|Hy].
      + destruct v' as [|d|z]; cbn in Hy; [destruct Hy|destruct Hy|]. destruct Hy as [->|[]]. destruct v as [|d|x]; cbn in Hv; try contradiction.
        exists x. split; [|exact Hv]. left. reflexivity.
      + destruct (IH1 y Hy) as (x & Hx & Hr). exists x. split; [|exact Hr]. apply in_or_app. right. exact Hx.
    - intros y Hy. unfold refs_of_values in Hy. cbn in Hy. apply in_app_or in Hy. destruct Hy as [Hy|Hy].
      + destruct v as [|d|z]; cbn in Hy; [destruct Hy|destruct Hy|]. destruct Hy as [->|[]]. destruct v' as [|d|x]; cbn in Hv; try contradiction.
        exists x. split; [|exact Hv]. left. reflexivity.
      + destruct (IH2 y Hy) as (x & Hx & Hr). exists x. split; [|exact Hr]. apply in_or_app. right. exact Hx.
  Qed.
  Lemma copy_reaches H R a b : same_graph H R -> R a b ->
    (forall y, reaches H b y -> exists x, reaches H a x /\ R x y) /\ (forall x, reaches H a x -> exists y, reaches H b y /\ R x y).
  Proof.
    intros G Hab. split.
    - intros y Ry. induction Ry as [|y o z _ IH Hy Hin]; [exists a; split; [apply reach_refl|exact Hab]|].
      destruct IH as (x & Rx & Hr). destruct (sg_match _ _ _ G x y Hr) as (o1 & o2 & E1 & E2 & Hm). rewrite Hy in E2. injection E2 as <-.
      destruct (proj1 (match_refs R _ _ Hm) z Hin) as (x' & Hx' & Hr'). exists x'. split; [|exact Hr']. eapply reach_step; [exact Rx|exact E1|exact Hx'].
    - intros x Rx. induction Rx as [|x o z _ IH Hx Hin]; [exists b; split; [apply reach_refl|exact Hab]|].
      destruct IH as (y & Ry & Hr). destruct (sg_match _ _ _ G x y Hr) as (o1 & o2 & E1 & E2 & Hm). rewrite Hx in E1. injection E1 as <-.
      destruct (proj2 (match_refs R _ _ Hm) z Hin) as (y' & Hy' & Hr'). exists y'. split; [|exact Hr']. eapply reach_step; [exact Ry|exact E2|exact Hy'].
  Qed.
  Lemma copy_separate H a b : copy_of H a b -> pure_functions H a -> separate H (eq a) (eq b).
  Proof.
    intros (R & Hab & G & Hi & Hd) Pf x (a' & <- & Ra) (b' & <- & Rb).
    destruct (copy_reaches H R a b G Hab) as [Cb Ca].
    destruct (holds_split H a x Ra) as [Rx|(z & f & cs & c & Rz & Hz & Hc & Rc)]; [|exact (Pf z f cs x Rz Hz (ex_intro _ c (conj Hc Rc)))].
    destruct (holds_split H b x Rb) as [Rx'|(z & f & cs & c & Rz & Hz & Hc & Rc)].
    - destruct (Ca x Rx) as (y & _ & Hxy). destruct (Cb x Rx') as (w & _ & Hwx). exact (Hd w y x Hwx Hxy).
    - destruct (Cb z Rz) as (w & Rw & Hwz). destruct (sg_match _ _ _ G w z Hwz) as (o1 & o2 & E1 & E2 & Hm). rewrite Hz in E2. injection E2 as <-.
      destruct o1; try contradiction. cbn in Hm. injection Hm as -> ->.
      exact (Pf w f cs x Rw E1 (ex_intro _ c (conj Hc Rc))).
  Qed.
  Lemma separate_sym H A B : separate H A B -> separate H B A.
  Proof. intros S x Hb Ha. exact (S x Ha Hb). Qed.
End Frame.
