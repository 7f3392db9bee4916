(** The table of states in a magnetic field: C51, C52. *)
From Coq Require Import List Arith ZArith Lia Bool Reals Lra Sorted Permutation.
From Verif Require Import Py TwoDim TwoDimProofs.
Import ListNotations.
Open Scope R_scope.

(** Order of energy, then m. *)
Definition slt (e : state -> R) (s t : state) : Prop := e s < e t \/ (e s = e t /\ (snd s < snd t)%Z).
Definition sle (e : state -> R) (s t : state) : Prop := e s < e t \/ (e s = e t /\ (snd s <= snd t)%Z).
Lemma before_spec e s t : before e s t = true <-> sle e s t.
Proof.
  unfold before, sle. destruct (Rlt_dec (e s) (e t)); [split; auto|]. destruct (Rlt_dec (e t) (e s)).
  - split; [discriminate | intros [H|[H _]]; lra].
  - rewrite Z.leb_le. split; [intros H; right; split; [lra | exact H] | intros [H|[_ H]]; [contradiction | exact H]].
Qed.
Lemma sle_total e s t : sle e s t \/ sle e t s.
Proof.
  unfold sle. destruct (Rtotal_order (e s) (e t)) as [H|[H|H]]; auto. destruct (Z.le_ge_cases (snd s) (snd t)); auto.
Qed.
Lemma sle_trans e s t u : sle e s t -> sle e t u -> sle e s u.
Proof. unfold sle. intros [H|[H H']] [G|[G G']]; [left | left | left | right; split]; try lra; lia. Qed.
Lemma slt_irrefl e s : ~ slt e s s.
Proof. intros [H|[_ H]]; [lra | lia]. Qed.
Lemma slt_trans e s t u : slt e s t -> slt e t u -> slt e s u.
Proof. unfold slt. intros [H|[H H']] [G|[G G']]; [left | left | left | right; split]; try lra; lia. Qed.

Lemma insert_perm e s l : Permutation (insert e s l) (s :: l).
Proof.
  induction l as [|t r IH]; cbn; [constructor; constructor|]. destruct (before e s t); [reflexivity|].
  rewrite IH. apply perm_swap.
Qed.
Lemma sort_perm e l : Permutation (sort_rows e l) l.
Proof. induction l as [|s r IH]; cbn; [constructor|]. rewrite insert_perm. constructor. exact IH. Qed.
Lemma insert_sorted e s l : StronglySorted (sle e) l -> StronglySorted (sle e) (insert e s l).
Proof.
  intros H. induction H as [|t r Hs IH Hf]; cbn; [repeat constructor|]. destruct (before e s t) eqn:E.
  - apply before_spec in E. constructor; [constructor; assumption|]. constructor; [exact E|].
    eapply Forall_impl; [|exact Hf]. intros u Hu. eapply sle_trans; eassumption.
  - constructor; [exact IH|]. apply (Permutation_Forall (Permutation_sym (insert_perm e s r))). constructor; [|exact Hf].
    destruct (sle_total e s t) as [G|G]; [|exact G]. apply before_spec in G. congruence.
Qed.
Lemma sort_sorted e l : StronglySorted (sle e) (sort_rows e l).
Proof. induction l; cbn; [constructor | apply insert_sorted; assumption]. Qed.

(** ** Ranks in a strictly sorted list *)
Section Rank.
  Variable e : state -> R.
  Variable L : list state.
  Hypothesis Hs : StronglySorted (slt e) L.
  Lemma sorted_nth p q s t : (p < q)%nat -> nth_error L p = Some s -> nth_error L q = Some t -> slt e s t.
  Proof.
    revert p q. induction Hs as [|u r Hr IH Hf]; intros p q Hpq Hp Hq; [destruct p; discriminate Hp|].
    destruct q as [|q]; [lia|]. cbn in Hq. destruct p as [|p].
    - cbn in Hp. injection Hp as <-. rewrite Forall_forall in Hf. apply Hf. eapply nth_error_In. exact Hq.
    - cbn in Hp. apply (IH Hr p q); [lia | exact Hp | exact Hq].
  Qed.
  Lemma below_nth p s t : nth_error L p = Some s -> In t L -> slt e t s -> In t (firstn p L) /\ exists q, (q < p)%nat /\ nth_error L q = Some t.
  Proof.
    intros Hp Ht Hlt. apply In_nth_error in Ht as (q & Hq). destruct (lt_eq_lt_dec q p) as [[H| ->]|H].
    - split; [|eauto]. rewrite <- (firstn_skipn p L) in Hq. rewrite nth_error_app1 in Hq; [eapply nth_error_In; exact Hq|].
      rewrite firstn_length. assert (p < length L)%nat by (apply nth_error_Some; congruence). lia.
    - rewrite Hp in Hq. injection Hq as ->. destruct (slt_irrefl e t Hlt).
    - destruct (slt_irrefl e s). eapply slt_trans; [|exact Hlt]. eapply sorted_nth; eassumption.
  Qed.
  (** At most p rows lie below row p. *)
  Lemma count_below p s B : nth_error L p = Some s -> NoDup B -> incl B L -> (forall t, In t B -> slt e t s) -> (length B <= p)%nat.
  Proof.
    intros Hp Nd Hi Hb. apply Nat.le_trans with (length (firstn p L)).
    - apply NoDup_incl_length; [exact Nd|]. intros t Ht. apply (below_nth p s t Hp (Hi t Ht) (Hb t Ht)).
    - rewrite firstn_length. lia.
  Qed.
End Rank.

(** ** The grid *)
Lemma arange_in a b x : In x (arange a b) <-> (a <= x < b)%Z.
Proof.
  unfold arange. rewrite in_map_iff. split.
  - intros (k & <- & Hk). apply in_seq in Hk. lia.
  - intros H. exists (Z.to_nat (x - a)). split; [lia|]. apply in_seq. lia.
Qed.
Lemma arange_nodup a b : NoDup (arange a b).
Proof. unfold arange. apply FinFun.Injective_map_NoDup; [intros x y H; lia | apply seq_NoDup]. Qed.
Lemma arange_length a b : length (arange a b) = Z.to_nat (b - a).
Proof. unfold arange. rewrite map_length, seq_length. reflexivity. Qed.
Lemma grid_in ns ms s : In s (grid ns ms) <-> In (fst s) ns /\ In (snd s) ms.
Proof.
  unfold grid. rewrite in_flat_map. destruct s as [n m]. cbn. split.
  - intros (x & Hx & H). apply in_map_iff in H as (y & [= <- <-] & Hy). auto.
  - intros [H1 H2]. exists n. split; [exact H1|]. apply in_map_iff. eauto.
Qed.
Lemma nodup_append {A} (l l' : list A) : NoDup l -> NoDup l' -> (forall x, In x l -> ~ In x l') -> NoDup (l ++ l').
Proof.
  intros H H' D. induction H as [|x l Hx H IH]; cbn; [exact H'|]. constructor.
  - rewrite in_app_iff. intros [G|G]; [contradiction | apply (D x (or_introl eq_refl) G)].
  - apply IH. intros y Hy. apply D. right. exact Hy.
Qed.
Lemma grid_nodup ns ms : NoDup ns -> NoDup ms -> NoDup (grid ns ms).
Proof.
  intros H Hm. unfold grid. induction H as [|n ns Hn H IH]; cbn; [constructor|].
  assert (Nm : NoDup (map (fun m => (n, m)) ms)).
  { apply FinFun.Injective_map_NoDup; [intros x y [= E]; exact E | exact Hm]. }
  apply nodup_append; [exact Nm | exact IH|]. intros s Hs Hs'. apply in_map_iff in Hs as (m & <- & _).
  apply in_flat_map in Hs' as (n' & Hn' & Hs'). apply in_map_iff in Hs' as (m' & [= -> _] & _). contradiction.
Qed.
Lemma grid_length ns ms : length (grid ns ms) = (length ns * length ms)%nat.
Proof.
  induction ns as [|n ns IH]; [reflexivity|]. change (grid (n :: ns) ms) with (map (fun m => (n, m)) ms ++ grid ns ms).
  rewrite app_length, map_length. exact (f_equal (Nat.add (length ms)) IH).
Qed.

Definition state_eq_dec (a b : state) : {a = b} + {a <> b}.
Proof. decide equality; apply Z.eq_dec. Defined.

Section Field.
  Variables (omega omega_c : R) (l : nat).
  Hypothesis Hw : 0 < omega.
  Hypothesis Hc : Rabs omega_c < 2 * omega.
  Hypothesis Hl : (1 <= l)%nat.
  Notation e := (shell_energy_B omega omega_c).
  Notation l' := (Z.of_nat l).
  Notation G := (grid (arange 0 l') (arange (- l' - 5) (l' + 6))).
  Notation L := (sort_rows e G).

  Lemma slopes : 0 < omega - omega_c / 2 /\ 0 < omega + omega_c / 2.
  Proof. revert Hc. unfold Rabs. destruct (Rcase_abs omega_c); lra. Qed.
  (** The energy for each sign of m. *)
  Lemma energy_pos n m : (0 <= m)%Z -> e (n, m) = omega * (2 * IZR n + 1) + (omega - omega_c / 2) * IZR m.
  Proof. intros H. unfold shell_energy_B. cbn [fst snd]. rewrite Z.abs_eq by exact H. rewrite !plus_IZR, mult_IZR. field. Qed.
  Lemma energy_neg n m : (m <= 0)%Z -> e (n, m) = omega * (2 * IZR n + 1) + (omega + omega_c / 2) * - IZR m.
  Proof. intros H. unfold shell_energy_B. cbn [fst snd]. rewrite Z.abs_neq by exact H. rewrite !plus_IZR, mult_IZR, opp_IZR. field. Qed.
  Lemma energy_inj s t : e s = e t -> snd s = snd t -> s = t.
  Proof.
    destruct s as [n m], t as [n' m']. cbn [snd]. intros E ->. unfold shell_energy_B in E. cbn [fst snd] in E. f_equal. apply eq_IZR.
    rewrite !plus_IZR, !mult_IZR in E. nra.
  Qed.
  Lemma grid_spec s : In s G <-> (0 <= fst s < l')%Z /\ (- l' - 5 <= snd s < l' + 6)%Z.
  Proof. rewrite grid_in, !arange_in. reflexivity. Qed.
  Lemma rows_in s : In s L <-> In s G.
  Proof. split; apply Permutation_in; [|symmetry]; apply sort_perm. Qed.
  Lemma rows_nodup : NoDup L.
  Proof. eapply Permutation_NoDup; [symmetry; apply sort_perm|]. apply grid_nodup; apply arange_nodup. Qed.
  Lemma rows_sorted : StronglySorted (slt e) L.
  Proof.
    pose proof (sort_sorted e G) as S. pose proof rows_nodup as N. revert S N. generalize L. intros M S.
    induction S as [|s r S IH F]; intros N; [constructor|]. inversion N as [|? ? Hn N']. subst. constructor; [apply IH; exact N'|].
    rewrite Forall_forall in F |- *. intros t Ht. specialize (F t Ht). unfold sle in F. unfold slt.
    destruct F as [F|[F1 F2]]; [auto|]. right. split; [exact F1|].
    destruct (Z.eq_dec (snd s) (snd t)) as [E|E]; [|lia]. rewrite (energy_inj s t F1 E) in Hn. contradiction.
  Qed.
  (** Below every state outside the grid lie at least l grid states. *)
  Lemma outside t : (0 <= fst t)%Z -> ~ In t G ->
    exists B, NoDup B /\ incl B L /\ length B = l /\ forall s, In s B -> slt e s t.
  Proof.
    destruct t as [n m]. cbn [fst]. intros Hn Hout. destruct slopes as [A1 A2].
    assert (Hcase : (l' + 6 <= m)%Z \/ (m < - l' - 5)%Z \/ ((l' <= n)%Z /\ (- l' - 5 <= m < l' + 6)%Z)).
    { rewrite grid_spec in Hout. cbn [fst snd] in Hout. lia. }
    destruct Hcase as [Hm|[Hm|[Hn' Hm]]].
    - exists (map (fun k => (0, k)%Z) (arange 1 (l' + 1))). split; [|split; [|split]].
      + apply FinFun.Injective_map_NoDup; [intros x y [= E]; exact E | apply arange_nodup].
      + intros s Hs. apply in_map_iff in Hs as (k & <- & Hk). apply arange_in in Hk. apply rows_in, grid_spec. cbn. lia.
      + rewrite map_length, arange_length. lia.
      + intros s Hs. apply in_map_iff in Hs as (k & <- & Hk). apply arange_in in Hk. left.
        rewrite !energy_pos by lia. pose proof (IZR_le _ _ Hn). assert (IZR k < IZR m) by (apply IZR_lt; lia). nra.
    - exists (map (fun k => (0, - k)%Z) (arange 1 (l' + 1))). split; [|split; [|split]].
      + apply FinFun.Injective_map_NoDup; [intros x y [= E]; lia | apply arange_nodup].
      + intros s Hs. apply in_map_iff in Hs as (k & <- & Hk). apply arange_in in Hk. apply rows_in, grid_spec. cbn. lia.
      + rewrite map_length, arange_length. lia.
      + intros s Hs. apply in_map_iff in Hs as (k & <- & Hk). apply arange_in in Hk. left.
        rewrite !energy_neg by lia. pose proof (IZR_le _ _ Hn). rewrite opp_IZR. assert (IZR k < - IZR m) by (rewrite <- opp_IZR; apply IZR_lt; lia). nra.
    - exists (map (fun k => (k, m)%Z) (arange 0 l')). split; [|split; [|split]].
      + apply FinFun.Injective_map_NoDup; [intros x y [= E]; exact E | apply arange_nodup].
      + intros s Hs. apply in_map_iff in Hs as (k & <- & Hk). apply arange_in in Hk. apply rows_in, grid_spec. cbn. lia.
      + rewrite map_length, arange_length. lia.
      + intros s Hs. apply in_map_iff in Hs as (k & <- & Hk). apply arange_in in Hk. left.
        unfold shell_energy_B. cbn [fst snd]. rewrite !plus_IZR, !mult_IZR. assert (IZR k < IZR n) by (apply IZR_lt; lia). nra.
  Qed.
  (** Row p < l is the p-th state of the whole spectrum. *)
  Lemma rank_row p s : (p < l)%nat -> nth_error L p = Some s ->
    forall t, (0 <= fst t)%Z -> (slt e t s <-> exists q, (q < p)%nat /\ nth_error L q = Some t).
  Proof.
    intros Hp Hs t Ht. split.
    - intros Hlt. destruct (in_dec state_eq_dec t G) as [Hi|Ho].
      + apply rows_in in Hi. apply (below_nth e L rows_sorted p s t Hs Hi Hlt).
      + destruct (outside t Ht Ho) as (B & Nd & Hi & HB & Hlow).
        assert (length B <= p)%nat; [|lia]. eapply (count_below e L rows_sorted p s B Hs Nd Hi).
        intros u Hu. eapply slt_trans; [apply Hlow; exact Hu | exact Hlt].
    - intros (q & Hq & Hqt). eapply (sorted_nth e L rows_sorted q p); eassumption.
  Qed.
  Lemma rows_length : length L = (l * (2 * l + 11))%nat.
  Proof. rewrite (Permutation_length (sort_perm e G)), grid_length, !arange_length. lia. Qed.
End Field.

(** ** Levels and the cap *)
Lemma round8_near x : Rabs (x - round8 x) < 1 / 1000000.
Proof.
  unfold round8. set (y := x * 100000000). assert (Ex : x = y / 100000000) by (unfold y; field).
  destruct (base_Int_part y) as [B1 B2].
  assert (Rabs (y - IZR (round_half_even y)) <= 1).
  { unfold round_half_even. destruct (Rlt_dec (y - IZR (Int_part y)) (1 / 2)); [|destruct (Rlt_dec (1 / 2) (y - IZR (Int_part y))); [|destruct (Z.even (Int_part y))]];
      rewrite ?plus_IZR; apply Rabs_le; lra. }
  rewrite Ex. replace (y / 100000000 - IZR (round_half_even y) / 100000000) with ((y - IZR (round_half_even y)) / 100000000) by field.
  unfold Rdiv. rewrite Rabs_mult, (Rabs_right (/ 100000000)) by lra. lra.
Qed.
Lemma unique_in l seen x : In x l -> In x seen \/ In x (unique l seen).
Proof.
  revert seen. induction l as [|y r IH]; intros seen H; [destruct H|]. cbn. destruct (in_dec Req_EM_T y seen) as [Hy|Hy].
  - destruct H as [<-|H]; [auto|]. apply IH. exact H.
  - destruct H as [<-|H]; [right; left; reflexivity|]. destruct (IH (y :: seen) H) as [[<-|G]|G]; [right; left; reflexivity | auto | right; right; exact G].
Qed.
Lemma level_near es : forall i e acc, (exists x, In x es /\ Rabs (e - x) < 1 / 1000000) ->
  exists j x, level_from es i e acc = (i + j)%nat /\ nth_error es j = Some x /\ Rabs (e - x) < 1 / 1000000.
Proof.
  assert (K : forall es i e acc, ~ (exists x, In x es /\ Rabs (e - x) < 1 / 1000000) -> level_from es i e acc = acc).
  { clear. induction es as [|x r IH]; intros i e acc H; [reflexivity|]. cbn [level_from].
    destruct (Rlt_dec (Rabs (e - x)) (1 / 1000000)) as [G|G]; [destruct H; exists x; split; [left; reflexivity | exact G]|].
    apply IH. intros (y & Hy & H'). apply H. exists y. split; [right; exact Hy | exact H']. }
  induction es as [|x r IH]; intros i e acc (y & Hy & H); [destruct Hy|]. cbn [level_from].
  assert (Dec : (exists z, In z r /\ Rabs (e - z) < 1 / 1000000) \/ ~ (exists z, In z r /\ Rabs (e - z) < 1 / 1000000)).
  { clear. induction r as [|x r [(z & Hz & G)|G]].
    - right. intros (z & [] & _).
    - left. exists z. split; [right; exact Hz | exact G].
    - destruct (Rlt_dec (Rabs (e - x)) (1 / 1000000)) as [D|D].
      + left. exists x. split; [left; reflexivity | exact D].
      + right. intros (z & [<-|Hz] & H); [contradiction|]. apply G. exists z. auto. }
  destruct Dec as [Hr|Hr].
  - destruct (IH (S i) e (if Rlt_dec (Rabs (e - x)) (1 / 1000000) then i else acc) Hr) as (j & z & E & Hj & Hz).
    exists (S j), z. split; [rewrite E; lia|]. split; [exact Hj | exact Hz].
  - rewrite K by exact Hr. destruct Hy as [<-|Hy]; [|destruct Hr; exists y; auto].
    destruct (Rlt_dec (Rabs (e - x)) (1 / 1000000)); [|contradiction]. exists 0%nat, x. split; [lia|]. split; [reflexivity | exact H].
Qed.
Lemma levels_length es : length (levels es) = length es.
Proof. apply map_length. Qed.
(** Rows of the same level differ by less than 2e-6. *)
Lemma same_level es p q x y : nth_error es p = Some x -> nth_error es q = Some y ->
  nth_error (levels es) p = nth_error (levels es) q -> Rabs (x - y) < 2 / 1000000.
Proof.
  intros Hp Hq. unfold levels. set (us := unique (map round8 es) []).
  rewrite (map_nth_error _ _ _ Hp), (map_nth_error _ _ _ Hq). intros E. injection E as E.
  assert (Hu : forall z, In z es -> exists u, In u us /\ Rabs (z - u) < 1 / 1000000).
  { intros z Hz. exists (round8 z). split; [|apply round8_near].
    destruct (unique_in (map round8 es) [] (round8 z)) as [[]|G]; [apply in_map; exact Hz | exact G]. }
  destruct (level_near us 0 x 0%nat (Hu x (nth_error_In _ _ Hp))) as (j & u & Ej & Hj & Hx).
  destruct (level_near us 0 y 0%nat (Hu y (nth_error_In _ _ Hq))) as (j' & u' & Ej' & Hj' & Hy).
  assert (j' = j) by lia. subst j'. rewrite Hj in Hj'. injection Hj' as <-.
  replace (x - y) with ((x - u) + (u - y)) by ring. eapply Rle_lt_trans; [apply Rabs_triang|].
  rewrite (Rabs_minus_sym u y). lra.
Qed.
Lemma cap_from_ok rest cap k : (exists lv, In lv rest /\ lv <> cap) ->
  exists j, cap_from rest cap k = Ok (k + j)%nat /\ (j < length rest)%nat /\ (hd cap rest = cap -> 1 <= j)%nat.
Proof.
  revert k. induction rest as [|lv r IH]; intros k (x & Hx & Hne); [destruct Hx|]. cbn. destruct (Nat.eqb_spec lv cap) as [->|H].
  - destruct Hx as [->|Hx]; [contradiction|]. destruct (IH (S k)) as (j & E & Hj & _); [eauto|]. exists (S j). rewrite E. split; [f_equal; lia|]. split; lia.
  - exists 0%nat. split; [f_equal; lia|]. split; [lia | intros; contradiction].
Qed.
Lemma cap_from_err rest cap k : (forall lv, In lv rest -> lv = cap) -> cap_from rest cap k = Err IndexError.
Proof.
  revert k. induction rest as [|lv r IH]; intros k H; [reflexivity|]. cbn. rewrite (H lv (or_introl eq_refl)), Nat.eqb_refl.
  apply IH. intros x Hx. apply H. right. exact Hx.
Qed.

(** ** The orbitals of the field-free oscillator, in order *)
Lemma shell_state_some p : get_indices_nm (Z.of_nat p) = Some (shell_state p).
Proof. unfold shell_state. destruct (get_indices_ok (Z.of_nat p)) as (k & t & n & m & E & _); [lia|]. rewrite E. reflexivity. Qed.
Lemma shell_state_inj p q : shell_state p = shell_state q -> p = q.
Proof.
  intros H. destruct (index_of_indices (Z.of_nat p)) as (n & m & E & _ & I); [lia|]. destruct (index_of_indices (Z.of_nat q)) as (n' & m' & E' & _ & I'); [lia|].
  rewrite shell_state_some in E, E'. injection E as E. injection E' as E'. rewrite H, E' in E. injection E as <- <-. lia.
Qed.
Lemma shell_state_surj n m : (0 <= n)%Z -> exists p, shell_state p = (n, m).
Proof.
  intros Hn. exists (Z.to_nat (get_index_p n m)). pose proof (shell_state_some (Z.to_nat (get_index_p n m))) as E.
  rewrite Z2Nat.id, indices_of_index in E by (try apply index_nonneg; exact Hn). injection E as E. auto.
Qed.
Lemma shell_state_bounds l p : (2 * p <= l * (l - 1))%nat -> (1 <= l)%nat ->
  (0 <= fst (shell_state p))%Z /\ (2 * fst (shell_state p) + Z.abs (snd (shell_state p)) + 1 <= Z.of_nat l)%Z.
Proof.
  intros Hp Hl. destruct (get_indices_ok (Z.of_nat p)) as (k & t & n & m & E & Hk & Ht & Hpt & Em & En & Hn); [lia|].
  rewrite shell_state_some in E. injection E as ->. cbn [fst snd]. split; [exact Hn|]. rewrite En.
  destruct (Z.le_gt_cases k (Z.of_nat l)) as [H|H]; [exact H|]. pose proof (shell_mono (Z.of_nat l) k ltac:(lia) ltac:(lia)).
  assert (2 * Z.of_nat p <= Z.of_nat l * (Z.of_nat l - 1))%Z by nia. lia.
Qed.

Section Table.
  Variables (omega omega_c : R) (l : nat).
  Hypothesis Hw : 0 < omega.
  Hypothesis Hc : Rabs omega_c < 2 * omega.
  Hypothesis Hl : (1 <= l)%nat.
  Notation e := (shell_energy_B omega omega_c).
  Notation l' := (Z.of_nat l).
  Notation G := (grid (arange 0 l') (arange (- l' - 5) (l' + 6))).
  Notation L := (sort_rows e G).
  Notation c := (l * (l - 1) / 2)%nat.

  Lemma cap_index : (c < length L)%nat /\ (l <= S c)%nat /\ (2 * c <= l * (l - 1))%nat.
  Proof.
    rewrite (rows_length omega omega_c l Hl). pose proof (Nat.div_mod (l * (l - 1)) 2 ltac:(lia)) as D. pose proof (Nat.mod_upper_bound (l * (l - 1)) 2 ltac:(lia)).
    split; [nia|]. split; [|lia]. assert (2 * (l - 1) <= l * (l - 1) + 1)%nat by nia. all: nia.
  Qed.
  Lemma energy_bound s : (0 <= fst s)%Z -> (2 * fst s + Z.abs (snd s) + 1 <= l')%Z -> e s <= 2 * INR l * omega.
  Proof.
    destruct s as [n m]. cbn [fst snd]. intros Hn Hb. apply IZR_le in Hb. rewrite <- INR_IZR_INZ, !plus_IZR, mult_IZR in Hb. apply IZR_le in Hn.
    destruct (slopes omega omega_c Hw Hc) as [A1 A2].
    destruct (Z.le_ge_cases 0 m) as [Hm|Hm].
    - rewrite energy_pos by exact Hm. rewrite Z.abs_eq in Hb by exact Hm. apply IZR_le in Hm.
      assert ((omega - omega_c / 2) * IZR m <= 2 * omega * IZR m) by (apply Rmult_le_compat_r; lra). nra.
    - rewrite energy_neg by exact Hm. rewrite Z.abs_neq, opp_IZR in Hb by exact Hm. apply IZR_le in Hm.
      assert ((omega + omega_c / 2) * - IZR m <= 2 * omega * - IZR m) by (apply Rmult_le_compat_r; lra). nra.
  Qed.
  Lemma cap_energy s : nth_error L c = Some s -> e s <= 2 * INR l * omega.
  Proof.
    intros Hs. destruct (Rle_or_lt (e s) (2 * INR l * omega)) as [H|H]; [exact H|]. exfalso.
    destruct cap_index as (C1 & C2 & C3).
    assert (length (map shell_state (seq 0 (S c))) <= c)%nat.
    { apply (count_below e L (rows_sorted omega omega_c l Hw Hl) c s _ Hs).
      - apply FinFun.Injective_map_NoDup; [intros x y; apply shell_state_inj | apply seq_NoDup].
      - intros t Ht. apply in_map_iff in Ht as (p & <- & Hp). apply in_seq in Hp.
        destruct (shell_state_bounds l p) as [B1 B2]; [lia | exact Hl|]. apply rows_in, grid_spec. lia.
      - intros t Ht. apply in_map_iff in Ht as (p & <- & Hp). apply in_seq in Hp.
        destruct (shell_state_bounds l p) as [B1 B2]; [lia | exact Hl|]. left. eapply Rle_lt_trans; [apply energy_bound; assumption | exact H]. }
    rewrite map_length, seq_length in H0. lia.
  Qed.
  (** The highest states of the grid. *)
  Lemma top_state : exists u, In u L /\ omega * (3 * INR l + 4) <= e u.
  Proof.
    assert (Hl' : INR l = IZR l') by apply INR_IZR_INZ. assert (1 <= INR l) by (apply (le_INR 1); exact Hl).
    destruct (Rle_or_lt omega_c 0) as [H'|H'].
    - exists (l' - 1, l' + 5)%Z. split; [apply rows_in, grid_spec; cbn; lia|]. rewrite energy_pos by lia. rewrite minus_IZR, plus_IZR, Hl' in *. nra.
    - exists (l' - 1, - l' - 5)%Z. split; [apply rows_in, grid_spec; cbn; lia|]. rewrite energy_neg by lia. rewrite !minus_IZR, opp_IZR, Hl' in *. nra.
  Qed.
  Lemma grid_nonempty : G <> [].
  Proof. intros E. assert (In (0, 0)%Z G) as H by (apply grid_spec; cbn; lia). rewrite E in H. exact H. Qed.
  (** The table is long enough unless the frequency is below the resolution. *)
  Lemma construct_ok : 2 / 1000000 <= omega * (INR l + 4) ->
    exists n, (l <= n)%nat /\ construct_dataframe (arange 0 l') (arange (- l' - 5) (l' + 6)) omega_c omega = Ok (firstn n L).
  Proof.
    intros Hres. unfold construct_dataframe. destruct G as [|g G'] eqn:EG; [destruct (grid_nonempty EG)|]. rewrite <- EG. clear EG g G'.
    rewrite arange_length, Z.sub_0_r, Nat2Z.id. destruct cap_index as (C1 & C2 & C3).
    destruct (nth_error L c) as [sc|] eqn:Ec; [|apply nth_error_None in Ec; lia]. pose proof (cap_energy sc Ec) as Hlow.
    destruct top_state as (u & Hu & Htop). apply In_nth_error in Hu as (j & Hj).
    assert (Hgap : 2 / 1000000 <= e u - e sc) by nra.
    assert (Hcj : (c <= j)%nat).
    { destruct (le_lt_dec c j) as [H|H]; [exact H|]. destruct (sorted_nth e L (rows_sorted omega omega_c l Hw Hl) j c u sc H Hj Ec) as [D|[D _]]; lra. }
    set (lv := levels (map e L)). assert (Hlen : length lv = length L) by (unfold lv; rewrite levels_length, map_length; reflexivity).
    destruct (nth_error lv c) as [cap|] eqn:Ecap; [|apply nth_error_None in Ecap; lia].
    assert (Hskip : skipn c lv = cap :: skipn (S c) lv).
    { clear -Ecap. revert Ecap. generalize c as k. induction lv as [|x r IH]; intros k E; [destruct k; discriminate E|].
      destruct k as [|k]; [cbn in E; injection E as ->; reflexivity|]. cbn in E. apply (IH k) in E. exact E. }
    rewrite Hskip. cbn iota. rewrite <- Hskip.
    assert (Hj' : (j < length L)%nat) by (apply nth_error_Some; congruence).
    destruct (nth_error lv j) as [lj|] eqn:Elj; [|apply nth_error_None in Elj; lia].
    destruct (cap_from_ok (skipn c lv) cap c) as (d & E & Hd & Hd1).
    { exists lj. split.
      - rewrite <- (firstn_skipn c lv) in Elj. rewrite nth_error_app2 in Elj by (rewrite firstn_length; lia). eapply nth_error_In. exact Elj.
      - intros ->. assert (D : Rabs (e sc - e u) < 2 / 1000000).
        { apply (same_level (map e L) c j); [apply map_nth_error; exact Ec | apply map_nth_error; exact Hj|]. fold lv. congruence. }
        rewrite Rabs_minus_sym in D. rewrite Rabs_right in D by lra. lra. }
    rewrite E. cbn [rbind]. exists (c + d)%nat. split; [|reflexivity]. rewrite Hskip in Hd1. specialize (Hd1 eq_refl). lia.
  Qed.
  (** Below the resolution there is a single level, and the search for its end runs
      off the table. *)
  Lemma round8_zero x : 0 < x < 5 / 1000000000 -> round8 x = 0.
  Proof.
    intros H. unfold round8. assert (E : Int_part (x * 100000000) = 0%Z).
    { destruct (base_Int_part (x * 100000000)) as [B1 B2].
      assert (IZR (Int_part (x * 100000000)) < 1) by lra. assert (-1 < IZR (Int_part (x * 100000000))) by lra.
      apply lt_IZR in H0. apply lt_IZR in H1. lia. }
    unfold round_half_even. rewrite E. destruct (Rlt_dec (x * 100000000 - 0) (1 / 2)) as [D|D]; [|lra]. field.
  Qed.
  Lemma energy_positive s : (0 <= fst s)%Z -> omega <= e s.
  Proof.
    destruct s as [n m]. cbn [fst]. intros Hn. apply IZR_le in Hn. destruct (slopes omega omega_c Hw Hc) as [A1 A2].
    destruct (Z.le_ge_cases 0 m) as [Hm|Hm].
    - rewrite energy_pos by exact Hm. apply IZR_le in Hm. nra.
    - rewrite energy_neg by exact Hm. apply IZR_le in Hm. nra.
  Qed.
  Lemma energy_top s : In s L -> e s <= omega * (4 * INR l + 9).
  Proof.
    intros Hs. apply rows_in, grid_spec in Hs. destruct s as [n m]. cbn [fst snd] in Hs. assert (Hl' : INR l = IZR l') by apply INR_IZR_INZ.
    destruct (slopes omega omega_c Hw Hc) as [A1 A2]. destruct Hs as [[N1 N2] [M1 M2]].
    assert (IZR n <= INR l - 1) by (rewrite Hl', <- minus_IZR; apply IZR_le; lia).
    destruct (Z.le_ge_cases 0 m) as [Hm|Hm].
    - rewrite energy_pos by exact Hm. assert (IZR m <= INR l + 5) by (rewrite Hl', <- plus_IZR; apply IZR_le; lia). apply IZR_le in Hm.
      assert ((omega - omega_c / 2) * IZR m <= 2 * omega * (INR l + 5)) by (apply Rmult_le_compat; lra). nra.
    - rewrite energy_neg by exact Hm. assert (- IZR m <= INR l + 5) by (rewrite Hl', <- opp_IZR, <- plus_IZR; apply IZR_le; lia). apply IZR_le in Hm.
      assert ((omega + omega_c / 2) * - IZR m <= 2 * omega * (INR l + 5)) by (apply Rmult_le_compat; lra). nra.
  Qed.
End Table.

Lemma frequency omega_0 omega_c : omega_0 <> 0 ->
  0 < sqrt (omega_0 ^ 2 + omega_c ^ 2 / 4) /\ Rabs omega_c < 2 * sqrt (omega_0 ^ 2 + omega_c ^ 2 / 4) /\ Rabs omega_0 <= sqrt (omega_0 ^ 2 + omega_c ^ 2 / 4).
Proof.
  intros H. assert (H2 : 0 < omega_0 ^ 2) by (pose proof (Rsqr_pos_lt _ H) as S; unfold Rsqr in S; lra).
  pose proof (pow2_ge_0 omega_c). assert (P : 0 < sqrt (omega_0 ^ 2 + omega_c ^ 2 / 4)) by (apply sqrt_lt_R0; lra). split; [exact P|].
  set (w := sqrt _) in *. assert (W : w * w = omega_0 ^ 2 + omega_c ^ 2 / 4) by (apply sqrt_sqrt; lra). split.
  - rewrite <- (Rabs_right (2 * w)) by lra. apply Rsqr_lt_abs_0. unfold Rsqr. nra.
  - rewrite <- (Rabs_right w) by lra. apply Rsqr_le_abs_0. unfold Rsqr. nra.
Qed.

Lemma dataframe_rows ns ms omega_c omega df : construct_dataframe ns ms omega_c omega = Ok df ->
  exists n, df = firstn n (sort_rows (shell_energy_B omega omega_c) (grid ns ms)).
Proof.
  unfold construct_dataframe. destruct (grid ns ms) as [|g G] eqn:E; [discriminate|]. rewrite <- E. clear E g G.
  destruct (skipn _ (levels _)) as [|cap r]; [discriminate|]. destruct (cap_from _ _ _) as [n|]; cbn [rbind]; [|discriminate].
  intros [= <-]. eexists. reflexivity.
Qed.
Lemma field_rows l omega_0 omega_c rows : field_states l omega_0 omega_c = Ok rows ->
  (1 <= l)%nat /\ length rows = l /\
  rows = firstn l (sort_rows (shell_energy_B (sqrt (omega_0 ^ 2 + omega_c ^ 2 / 4)) omega_c)
    (grid (arange 0 (Z.of_nat l)) (arange (- Z.of_nat l - 5) (Z.of_nat l + 6)))).
Proof.
  unfold field_states. destruct (construct_dataframe _ _ _ _) as [df|] eqn:E; cbn [rbind]; [|discriminate].
  destruct (Nat.leb_spec l (length df)) as [H|H]; [|discriminate]. intros [= <-].
  assert (Hl : (1 <= l)%nat). { destruct l; [|lia]. discriminate E. }
  apply dataframe_rows in E as (n & ->). split; [exact Hl|]. rewrite firstn_length in H. split; [rewrite !firstn_length; lia|].
  rewrite firstn_firstn. f_equal. lia.
Qed.
Lemma nth_firstn {A} (L : list A) p l x : nth_error (firstn l L) p = Some x <-> (p < l)%nat /\ nth_error L p = Some x.
Proof.
  revert p l. induction L as [|y r IH]; intros p l.
  - rewrite firstn_nil. split; [destruct p; discriminate | intros [_ H]; exact H].
  - destruct l as [|l]; [cbn; destruct p; split; (discriminate || lia)|]. destruct p as [|p]; cbn; [split; [intros H; split; [lia | exact H] | tauto]|].
    rewrite IH. split; intros [H1 H2]; (split; [lia | exact H2]).
Qed.
(** C51 *)
Lemma field_lowest l omega_0 omega_c rows : omega_0 <> 0 -> field_states l omega_0 omega_c = Ok rows ->
  length rows = l /\
  forall p s, nth_error rows p = Some s -> (0 <= fst s)%Z /\
    forall t, (0 <= fst t)%Z -> (slt (shell_energy_B (sqrt (omega_0 ^ 2 + omega_c ^ 2 / 4)) omega_c) t s <-> exists q, (q < p)%nat /\ nth_error rows q = Some t).
Proof.
  intros H0 E. destruct (frequency omega_0 omega_c H0) as (W1 & W2 & _). apply field_rows in E as (Hl & Hlen & ->). split; [exact Hlen|]. clear Hlen.
  set (w := sqrt _) in *. intros p s Hs. apply nth_firstn in Hs as [Hp Hs]. split.
  - apply nth_error_In, rows_in, grid_spec in Hs. lia.
  - intros t Ht. rewrite (rank_row w omega_c l W1 W2 Hl p s Hp Hs t Ht).
    split; intros (q & Hq & G); exists q; (split; [exact Hq|]); [apply nth_firstn; split; [lia | exact G] | apply nth_firstn in G; apply G].
Qed.
Lemma field_succeeds l omega_0 omega_c : (1 <= l)%nat -> omega_0 <> 0 ->
  2 / 1000000 <= sqrt (omega_0 ^ 2 + omega_c ^ 2 / 4) * (INR l + 4) -> exists rows, field_states l omega_0 omega_c = Ok rows.
Proof.
  intros Hl H0 Hr. destruct (frequency omega_0 omega_c H0) as (W1 & W2 & _). unfold field_states.
  destruct (construct_ok (sqrt (omega_0 ^ 2 + omega_c ^ 2 / 4)) omega_c l W1 W2 Hl Hr) as (n & Hn & E). cbv zeta. rewrite E. cbn [rbind].
  rewrite firstn_length, (rows_length _ _ l Hl). replace (l <=? Nat.min n (l * (2 * l + 11)))%nat with true; [eexists; reflexivity|].
  symmetry. apply Nat.leb_le. nia.
Qed.
Lemma unique_const ls seen x : (forall y, In y ls -> y = x) -> unique ls seen = [] \/ unique ls seen = [x].
Proof.
  revert seen. induction ls as [|y r IH]; intros seen H; [auto|]. cbn. rewrite (H y (or_introl eq_refl)).
  destruct (in_dec Req_EM_T x seen); [apply IH; intros; apply H; right; assumption|].
  right. f_equal. assert (K : forall r seen, (forall y, In y r -> y = x) -> In x seen -> unique r seen = []).
  { clear. induction r as [|z r IH]; intros seen H Hx; [reflexivity|]. cbn. rewrite (H z (or_introl eq_refl)).
    destruct (in_dec Req_EM_T x seen); [|contradiction]. apply IH; [intros; apply H; right; assumption | exact Hx]. }
  apply K; [intros; apply H; right; assumption | left; reflexivity].
Qed.
Lemma field_fails l omega_0 omega_c : (1 <= l)%nat -> omega_0 <> 0 ->
  sqrt (omega_0 ^ 2 + omega_c ^ 2 / 4) * (4 * INR l + 9) < 5 / 1000000000 -> field_states l omega_0 omega_c = Err IndexError.
Proof.
  intros Hl H0 Hr. destruct (frequency omega_0 omega_c H0) as (W1 & W2 & _). unfold field_states, construct_dataframe. cbv zeta.
  set (w := sqrt _) in *. set (G := grid _ _). destruct G as [|g G'] eqn:EG; [destruct (grid_nonempty l Hl EG)|]. rewrite <- EG. unfold G. clear EG g G' G.
  set (L := sort_rows _ _). rewrite arange_length, Z.sub_0_r, Nat2Z.id. set (k := (l * (l - 1) / 2)%nat).
  assert (Hz : forall x, In x (map round8 (map (shell_energy_B w omega_c) L)) -> x = 0).
  { intros x Hx. rewrite map_map in Hx. apply in_map_iff in Hx as (s & <- & Hs). apply (round8_zero l Hl).
    pose proof (energy_top w omega_c l W1 W2 Hl s Hs). apply (rows_in w omega_c l), (grid_spec l) in Hs. pose proof (energy_positive w omega_c W1 W2 s ltac:(lia)). lra. }
  assert (Hlv : forall lv, In lv (levels (map (shell_energy_B w omega_c) L)) -> lv = 0%nat).
  { intros lv Hlv. unfold levels in Hlv. apply in_map_iff in Hlv as (x & <- & _).
    destruct (unique_const _ [] 0 Hz) as [E|E]; rewrite E; cbn; [reflexivity|]. destruct (Rlt_dec _ _); reflexivity. }
  assert (Hsk : forall lv, In lv (skipn k (levels (map (shell_energy_B w omega_c) L))) -> lv = 0%nat).
  { intros lv H. apply Hlv. rewrite <- (firstn_skipn k). apply in_or_app. right. exact H. }
  destruct (skipn k (levels (map (shell_energy_B w omega_c) L))) as [|cap r] eqn:E; [reflexivity|].
  rewrite cap_from_err; [reflexivity|]. intros lv H. rewrite (Hsk lv H), (Hsk cap (or_introl eq_refl)). reflexivity.
Qed.
(** C52 *)
Lemma shell_state_order w p q : 0 < w -> (p < q)%nat -> slt (shell_energy_B w 0) (shell_state p) (shell_state q).
Proof.
  intros Hw Hpq. destruct (get_indices_ok (Z.of_nat p)) as (k & t & n & m & E & Hk & Ht & Hpt & Em & En & Hn); [lia|].
  destruct (get_indices_ok (Z.of_nat q)) as (k' & t' & n' & m' & E' & Hk' & Ht' & Hpt' & Em' & En' & Hn'); [lia|].
  rewrite shell_state_some in E, E'. injection E as ->. injection E' as ->. unfold slt, shell_energy_B. cbn [fst snd]. rewrite En, En'.
  destruct (Z.lt_trichotomy k k') as [H|[H|H]].
  - left. apply IZR_lt in H. nra.
  - right. split; [rewrite H; field|]. subst k'. assert (t = t') by lia. lia.
  - exfalso. pose proof (shell_mono k' k Hk' ltac:(lia)). lia.
Qed.
Lemma field_free l omega_0 rows p : omega_0 <> 0 -> field_states l omega_0 0 = Ok rows -> (p < l)%nat ->
  nth_error rows p = get_indices_nm (Z.of_nat p).
Proof.
  intros H0 E Hp. destruct (field_lowest l omega_0 0 rows H0 E) as [Hlen Hrank]. destruct (frequency omega_0 0 H0) as (W & _).
  set (w := sqrt _) in *. rewrite shell_state_some. revert Hp. induction p as [p IH] using (well_founded_induction lt_wf). intros Hp.
  destruct (nth_error rows p) as [s|] eqn:Es; [|apply nth_error_None in Es; lia]. f_equal. destruct (Hrank p s Es) as [Hn Hr].
  destruct s as [n m]. destruct (shell_state_surj n m Hn) as (r & Er). rewrite <- Er in *. destruct (lt_eq_lt_dec r p) as [[H| ->]|H]; [|reflexivity|].
  - exfalso. apply (slt_irrefl (shell_energy_B w 0) (shell_state r)). apply Hr; [exact Hn|]. exists r. split; [exact H | apply IH; lia].
  - exfalso. destruct (get_indices_ok (Z.of_nat p)) as (k & t & n' & m' & E' & _ & _ & _ & _ & _ & Hn'); [lia|]. rewrite shell_state_some in E'. injection E' as E'.
    destruct (proj1 (Hr (shell_state p) ltac:(rewrite E'; exact Hn')) (shell_state_order w p r W H)) as (q & Hq & G).
    rewrite (IH q Hq ltac:(lia)) in G. injection G as G. apply shell_state_inj in G. lia.
Qed.
