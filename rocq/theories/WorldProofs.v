(** Invariants of worlds over histories (C26-C28). *)
From Coq Require Import List Arith ZArith Lia Bool.
From Verif Require Import Scalar Py Numpy Spec NumpyFacts BasisSet BasisSpec BasisFacts ChangeProofs ConvProofs SpinFacts
  DoubleFacts Histories Frame SizeProofs Systems SystemFacts SystemProofs Worlds.
Import ListNotations.

Section Effects.
  Variable K : scalar.
  Notation arr := (arr K).
  Notation basis := (basis K).
  Notation world := (world K).
  Notation WM := (WM K).
  Implicit Types (w : world) (b : basis).

  (** A relation between the states before and after, whatever the outcome. *)
  Section Eff.
    Variable R : world -> world -> Prop.
    Hypothesis Rrefl : forall w, R w w.
    Hypothesis Rtrans : forall w1 w2 w3, R w1 w2 -> R w2 w3 -> R w1 w3.
    Definition eff {A} (m : WM A) : Prop := forall w, R w (snd (m w)).
    Lemma eff_same {A} (m : WM A) : (forall w, snd (m w) = w) -> eff m.
    Proof. intros H w. rewrite H. apply Rrefl. Qed.
    Lemma eff_bind {A B} (m : WM A) (f : A -> WM B) : eff m -> (forall x, eff (f x)) -> eff (bind m f).
    Proof.
      intros Hm Hf w. unfold bind. pose proof (Hm w) as H1. destruct (m w) as [[x|e] w1]; [|exact H1].
      eapply Rtrans; [exact H1 | apply Hf].
    Qed.
    Lemma eff_ret {A} (x : A) : eff (ret x).
    Proof. apply eff_same. reflexivity. Qed.
    Lemma eff_raise {A} e : eff (@raise _ A e).
    Proof. apply eff_same. reflexivity. Qed.
    Lemma eff_lift {A} (x : res A) : eff (lift x).
    Proof. apply eff_same. reflexivity. Qed.
    Lemma eff_assert c : eff (py_assert c).
    Proof. apply eff_same. intros w. destruct c; reflexivity. Qed.
    Lemma eff_get_sys s : eff (get_sys s).
    Proof. apply eff_same. intros w. unfold get_sys. destruct (nth_error _ _); reflexivity. Qed.
    Lemma eff_get_op o : eff (get_op o).
    Proof. apply eff_same. intros w. unfold get_op. destruct (nth_error _ _); reflexivity. Qed.
    Lemma eff_need e (x : option arr) : eff (need_arr e x).
    Proof. apply eff_same. destruct x; reflexivity. Qed.
    Lemma eff_np x : eff (need_np_w x).
    Proof. apply eff_same. destruct x; reflexivity. Qed.
    Lemma eff_when c m : eff m -> eff (when c m).
    Proof. intros H. destruct c; [exact H | apply eff_ret]. Qed.
    Lemma eff_if {A} (c : bool) (f g : WM A) : eff f -> eff g -> eff (if c then f else g).
    Proof. destruct c; auto. Qed.
    Lemma eff_drop {A} (m : WM A) : eff m -> eff (wdrop m).
    Proof. intros H. apply eff_bind; [exact H|]. intros. apply eff_ret. Qed.
    Lemma on_basis_rd i f : eff (on_basis i (rd f)).
    Proof.
      apply eff_same. intros w. unfold on_basis. destruct (nth_error (w_bs w) i) as [b|] eqn:E; [|reflexivity].
      cbn. rewrite (lset_self _ _ _ E). apply set_bs_self.
    Qed.
    Lemma on_basis_get i : eff (on_basis i get_st).
    Proof.
      apply eff_same. intros w. unfold on_basis. destruct (nth_error (w_bs w) i) as [b|] eqn:E; [|reflexivity].
      cbn. rewrite (lset_self _ _ _ E). apply set_bs_self.
    Qed.
    Lemma eff_sys_get s f : eff (sys_get s f).
    Proof. unfold sys_get. apply eff_bind; [apply eff_get_sys|]. intros. apply on_basis_rd. Qed.

    (** Reading operations and evaluation of operators write operators only. *)
    Hypothesis Rop : forall o x w, R w (set_op (lset o x (w_op w)) w).
    Lemma eff_put_op o x : eff (put_op o x).
    Proof. intros w. apply Rop. Qed.
    Ltac step := first
      [ apply eff_ret | apply eff_raise | apply eff_lift | apply eff_assert | apply eff_get_sys | apply eff_get_op
      | apply eff_need | apply eff_np | apply eff_sys_get | apply eff_put_op | apply on_basis_rd | apply on_basis_get
      | apply eff_bind; [|intros ?] | apply eff_when ].
    Lemma eff_laser_set o p q c : eff (laser_set o p q c).
    Proof. unfold laser_set. repeat step. Qed.
    Lemma eff_laser o s p q c t : eff (laser_h_t o s p q c t).
    Proof.
      unfold laser_h_t. step; [step|]. destruct p as [a|f|k];
        (step; [apply eff_laser_set|]; step; [destruct q as [q|]; repeat first [apply eff_laser_set | step]|];
         destruct x1 as [a1|f1|k1]; (step; [apply eff_laser_set|]; repeat step)).
    Qed.
    Lemma eff_custom o s v A c t : eff (custom_h_t o s v A c t).
    Proof. unfold custom_h_t. destruct v; repeat step. Qed.
    Lemma eff_h_t s t : eff (sys_h_t s t).
    Proof.
      unfold sys_h_t. step; [step|]. destruct (sy_op x) as [o|]; [|step]. step; [step|].
      destruct (te_sys x0); [|step]. destruct (te_op x0); repeat first [apply eff_laser | apply eff_custom | step].
    Qed.
    Lemma eff_u_t s t : eff (sys_u_t s t).
    Proof.
      unfold sys_u_t. step; [step|]. destruct (sy_op x) as [o|]; [|step]. step; [step|].
      destruct (te_sys x0); [|step]. destruct (te_op x0); repeat step.
    Qed.
    Lemma eff_energy s : eff (reference_energy s).
    Proof. unfold reference_energy. repeat step. Qed.
    Lemma eff_fock s h u f : eff (fock_matrix s h u f).
    Proof. unfold fock_matrix. repeat step. Qed.
    Lemma eff_has p s : eff (has_op p s).
    Proof. unfold has_op. step; [step|]. destruct (sy_op x); repeat step. Qed.
  End Eff.

  (** *** C26 *)
  Definition booked (x : system) : Prop :=
    sy_m x = (sy_l x - sy_n x)%Z /\ sy_o x = PySlice 0 (sy_n x) /\ sy_v x = PySlice (sy_n x) (sy_l x) /\ (sy_n x <= sy_l x)%Z.
  Definition all_booked w : Prop := Forall booked (w_sy w).
  Definition books w w' : Prop := all_booked w -> all_booked w'.
  Lemma books_refl w : books w w.
  Proof. intros H. exact H. Qed.
  Lemma books_trans w1 w2 w3 : books w1 w2 -> books w2 w3 -> books w1 w3.
  Proof. unfold books. auto. Qed.
  Lemma books_op o x w : books w (set_op (lset o x (w_op w)) w).
  Proof. intros H. exact H. Qed.
  Lemma Forall_lset {A} (P : A -> Prop) i x l : P x -> Forall P l -> Forall P (lset i x l).
  Proof. intros Hx H. revert i. induction H; intros [|i]; cbn; constructor; auto. Qed.
  Notation beff := (eff books).
  Lemma beff_on_basis {A} i (m : BM K A) : beff (on_basis i m).
  Proof.
    intros w H. unfold on_basis. destruct (nth_error (w_bs w) i); [|exact H]. destruct (m b). exact H.
  Qed.
  Ltac bstep := first
    [ apply (eff_ret books books_refl) | apply (eff_raise books books_refl) | apply (eff_lift books books_refl)
    | apply (eff_assert books books_refl) | apply (eff_get_sys books books_refl) | apply (eff_get_op books books_refl)
    | apply beff_on_basis | apply (eff_bind books books_trans); [|intros ?] | apply (eff_when books books_refl) | apply (eff_if books) ].
  Lemma booked_sized x n l : (n <= l)%Z -> booked (sized x n l).
  Proof. intros H. repeat split. exact H. Qed.
  Lemma beff_init k n i : beff (system_init k n i).
  Proof.
    intros w H. unfold system_init. unfold bind at 1. unfold on_basis.
    destruct (nth_error (w_bs w) i) as [b|] eqn:E; [|exact H]. cbn [get_st].
    destruct (n <=? Z.of_nat (b_l b))%Z eqn:En; [|exact H]. apply Z.leb_le in En.
    cbn. apply Forall_app. split; [exact H|]. constructor; [|constructor]. apply booked_sized. exact En.
  Qed.
  Lemma beff_size s n l : beff (set_system_size s n l).
  Proof.
    intros w H. unfold set_system_size. destruct (n <=? l)%Z eqn:En; [|exact H]. apply Z.leb_le in En.
    cbn. unfold bind, get_sys. destruct (nth_error (w_sy w) s) as [x|]; [|exact H]. cbn.
    apply Forall_lset; [apply booked_sized; exact En | exact H].
  Qed.
  Lemma beff_put_same s (x x' : system) w : nth_error (w_sy w) s = Some x -> (booked x -> booked x') ->
    books w (set_sy (lset s x' (w_sy w)) w).
  Proof.
    intros E Hx H. cbn. unfold all_booked. cbn. apply Forall_lset; [|exact H]. apply Hx.
    exact (proj1 (Forall_forall _ _) H x (nth_error_In _ _ E)).
  Qed.
  Lemma beff_general n i va vb anti : beff (general_init n i va vb anti).
  Proof.
    unfold general_init. bstep; [bstep|]. bstep; [bstep; [bstep|]; bstep; [bstep|]; destruct x0; bstep|].
    bstep; [bstep; bstep|]. apply beff_init.
  Qed.
  Lemma beff_run o : beff (wrun o).
  Proof.
    destruct o; cbn [wrun]; try apply (eff_drop books books_refl books_trans); try apply beff_on_basis;
      try apply (eff_raise books books_refl).
    - intros w H. exact H.
    - intros w H. exact H.
    - apply beff_general.
    - unfold spatial_init. do 3 (bstep; [bstep|]). apply beff_init.
    - unfold construct_general. bstep; [bstep|]. bstep.
      { unfold copy_basis. bstep; [bstep|]. destruct (b_np x0); [|bstep].
        do 2 (bstep; [bstep|]). bstep; [intros w H; exact H|]. repeat bstep. }
      bstep; [apply beff_general|]. destruct (sy_op x); bstep.
    - apply beff_size.
    - intros w. unfold sys_change_module, bind, get_sys. destruct (nth_error (w_sy w) s) as [x|] eqn:E; [|apply books_refl].
      cbn. eapply books_trans; [|apply beff_on_basis]. refine (beff_put_same s x _ w E _). intros (A1&A2&A3&A4). repeat split; assumption.
    - unfold sys_change_basis. do 3 (bstep; [bstep|]). apply beff_size.
    - unfold sys_density. bstep; bstep.
    - unfold sys_get. bstep; bstep.
    - unfold sys_bra. bstep; bstep.
    - intros w. unfold set_time_evolution_operator, bind, get_sys. destruct (nth_error (w_sy w) s) as [x|] eqn:E; [|apply books_refl].
      cbn. eapply books_trans.
      { apply (beff_put_same s x (System (sy_kind x) (sy_bs x) (sy_np x) (sy_n x) (sy_l x) (sy_m x) (sy_o x) (sy_v x) o) w E).
        intros (A1&A2&A3&A4). repeat split; assumption. }
      destruct o as [o|]; [|apply books_refl]. unfold get_op. cbn.
      destruct (nth_error (w_op w) o); [|apply books_refl]. apply books_op.
    - apply (eff_h_t books books_refl books_trans books_op).
    - apply (eff_u_t books books_refl books_trans).
    - apply (eff_has books books_refl books_trans).
    - apply (eff_has books books_refl books_trans).
    - apply (eff_energy books books_refl books_trans).
    - apply (eff_fock books books_refl books_trans).
  Qed.
  Lemma hist_booked ops w : all_booked w -> all_booked (wrun_any ops w).
  Proof. revert w. induction ops as [|o ops IH]; intros w H; cbn; [exact H|]. apply IH. apply beff_run. exact H. Qed.

  (** The slices partition 0..l-1 for every integer n <= l; the occupied one
      has n elements when n >= 0, and l+n (at least 0) otherwise. *)
  Lemma slices_partition (n : Z) (l : nat) : (n <= Z.of_nat l)%Z ->
    sl_indices l (PySlice 0 n) ++ sl_indices l (PySlice n (Z.of_nat l)) = seq 0 l /\
    Z.of_nat (length (sl_indices l (PySlice 0 n))) = (if (0 <=? n)%Z then n else Z.max 0 (Z.of_nat l + n))%Z.
  Proof.
    intros H. unfold sl_indices, sl_count, sl_first, sl_clip. cbn [sl_start sl_stop].
    rewrite seq_length.
    destruct (Z.ltb_spec n 0), (Z.ltb_spec (Z.of_nat l) 0), (Z.leb_spec 0 n); try lia; cbn [Z.ltb Z.compare];
      rewrite Z.min_l by lia.
    - split; [|lia].
      replace (Z.to_nat (Z.max 0 (n + Z.of_nat l)) - Z.to_nat 0) with (Z.to_nat (Z.max 0 (n + Z.of_nat l))) by lia.
      rewrite Z.min_id, Nat2Z.id. rewrite <- (Nat.add_0_l (Z.to_nat (Z.max 0 _))) at 2.
      rewrite <- seq_app. f_equal. lia.
    - split; [|lia].
      replace (Z.to_nat (Z.min n (Z.of_nat l)) - Z.to_nat 0) with (Z.to_nat n) by lia.
      rewrite Z.min_id, Nat2Z.id. rewrite (Z.min_l n) by lia. rewrite <- (Nat.add_0_l (Z.to_nat n)) at 2.
      rewrite <- seq_app. f_equal. lia.
  Qed.

  (** *** C28 *)
  Lemma same_view_refl b : same_view b b.
  Proof. repeat split. Qed.
  Lemma same_view_trans b1 b2 b3 : same_view b1 b2 -> same_view b2 b3 -> same_view b1 b3.
  Proof.
    intros (A1&A2&A3&A4&A5&A6&A7&A8) (B1&B2&B3&B4&B5&B6&B7&B8).
    repeat split; try congruence. intros f Hf. rewrite B7, A7 by exact Hf. reflexivity.
  Qed.
  Definition keeps_view {A} (m : BM K A) : Prop := forall b, same_view b (snd (m b)).
  Lemma kv_get_bra : keeps_view get_bra.
  Proof.
    intros b. destruct (get_bra_spec K b) as (b' & E & (M1&M2&M3&M4&M5&M6&M7) & B & A). rewrite E. cbn.
    repeat split; try assumption. unfold bra_view at 1. rewrite B, (A F_spf) by discriminate.
    unfold bra_view. destruct (b_arr b F_bra), (b_arr b F_spf); reflexivity.
  Qed.
  Lemma kv_module m : keeps_view (change_module m).
  Proof.
    intros b. destruct (change_module_spec K m b) as (b' & E & (M1&M2&M3&M4&M5&M6&M7) & A & V). rewrite E. cbn in *.
    repeat split; assumption.
  Qed.
  Lemma kv_same {A} (m : BM K A) : (forall b, snd (m b) = b) -> keeps_view m.
  Proof. intros H b. rewrite H. apply same_view_refl. Qed.
  Lemma kv_bind {A B} (m : BM K A) (f : A -> BM K B) : keeps_view m -> (forall x, keeps_view (f x)) -> keeps_view (bind m f).
  Proof.
    intros Hm Hf b. unfold bind. pose proof (Hm b) as H1. destruct (m b) as [[x|e] b1]; [|exact H1].
    eapply same_view_trans; [exact H1 | apply Hf].
  Qed.
  Lemma kv_density rho C Ct : keeps_view (compute_particle_density rho C Ct).
  Proof.
    unfold compute_particle_density.
    assert (L : forall {A} (x : res A), keeps_view (lift x)) by (intros; apply kv_same; reflexivity).
    assert (N : keeps_view need_np) by (apply kv_same; intros b; unfold need_np; destruct (b_np b); reflexivity).
    assert (E : forall e (x : option arr), keeps_view (need e x)) by (intros e [x|]; apply kv_same; reflexivity).
    apply kv_bind; [apply kv_same; reflexivity|]. intros x. apply kv_bind; [apply E|]. intros ket.
    apply kv_bind; [apply kv_get_bra|]. intros y. apply kv_bind; [apply E|]. intros bra.
    destruct C; repeat (apply kv_bind; [auto|intros ?]); apply L.
  Qed.
  Section View.
    Variable i : nat.
    Definition views w w' : Prop := forall b, nth_error (w_bs w) i = Some b ->
      exists b', nth_error (w_bs w') i = Some b' /\ same_view b b'.
    Lemma views_refl w : views w w.
    Proof. intros b H. exists b. split; [exact H | apply same_view_refl]. Qed.
    Lemma views_trans w1 w2 w3 : views w1 w2 -> views w2 w3 -> views w1 w3.
    Proof.
      intros H1 H2 b Hb. destruct (H1 b Hb) as (b1 & E1 & S1). destruct (H2 b1 E1) as (b2 & E2 & S2).
      exists b2. split; [exact E2|]. eapply same_view_trans; eassumption.
    Qed.
    Lemma views_sy x w : views w (set_sy x w).
    Proof. exact (views_refl w). Qed.
    Lemma views_op o x w : views w (set_op (lset o x (w_op w)) w).
    Proof. exact (views_refl w). Qed.
    Lemma veff_other {A} j (m : BM K A) : j <> i -> eff views (on_basis j m).
    Proof.
      intros Hj w b Hb. unfold on_basis. destruct (nth_error (w_bs w) j); [|apply views_refl; exact Hb].
      destruct (m b0). cbn. rewrite nth_lset_other by exact Hj. exists b. split; [exact Hb | apply same_view_refl].
    Qed.
    Lemma veff_on {A} j (m : BM K A) : keeps_view m -> eff views (on_basis j m).
    Proof.
      intros Hm w b Hb. destruct (Nat.eq_dec j i) as [->|Hj]; [|apply (veff_other j m Hj w b Hb)].
      unfold on_basis. rewrite Hb. specialize (Hm b). destruct (m b) as [r b1]. cbn in *.
      rewrite nth_lset_same by (eapply nth_some_lt; eassumption). eauto.
    Qed.
    Lemma veff_put_sys s x : eff views (put_sys s x).
    Proof. intros w. apply views_sy. Qed.
    Lemma veff_alloc_basis b : eff views (alloc_basis b).
    Proof.
      intros w b0 Hb. cbn. rewrite nth_error_app1 by (eapply nth_some_lt; eassumption). exists b0.
      split; [exact Hb | apply same_view_refl].
    Qed.
    Ltac vstep := first
      [ apply (eff_ret views views_refl) | apply (eff_raise views views_refl) | apply (eff_lift views views_refl)
      | apply (eff_assert views views_refl) | apply (eff_get_sys views views_refl) | apply (eff_get_op views views_refl)
      | apply (on_basis_get views views_refl) | apply (on_basis_rd views views_refl) | apply veff_put_sys
      | apply (eff_put_op views views_op) | apply veff_alloc_basis
      | apply (eff_bind views views_trans); [|intros ?] | apply (eff_when views views_refl) | apply (eff_if views) ].
    Lemma veff_init k n j : eff views (system_init k n j).
    Proof. unfold system_init. do 3 (vstep; [vstep|]). intros w. apply views_sy. Qed.
    Lemma veff_general n j va vb anti : j <> i -> eff views (general_init n j va vb anti).
    Proof.
      intros Hj. unfold general_init. vstep; [vstep|].
      vstep; [vstep; [vstep|]; vstep; [apply veff_other; exact Hj|]; destruct x0; vstep|].
      vstep; [vstep; apply veff_other; exact Hj|]. apply veff_init.
    Qed.
    Lemma kv_np m : keeps_view (modify (set_np m)).
    Proof. intros b. repeat split. Qed.
    Lemma veff_copy j : eff views (copy_basis j).
    Proof.
      unfold copy_basis. vstep; [vstep|]. destruct (b_np x); [|vstep].
      vstep; [apply veff_on, kv_np|]. vstep; [vstep|]. vstep; [vstep|].
      vstep; [apply veff_on, kv_module|]. vstep; [apply veff_on, kv_module|]. vstep.
    Qed.
    Lemma on_basis_length {A} j (m : BM K A) w : length (w_bs (snd (on_basis j m w))) = length (w_bs w).
    Proof.
      unfold on_basis. destruct (nth_error (w_bs w) j); [|reflexivity]. destruct (m b). cbn. apply lset_length.
    Qed.
    Lemma copy_fresh k w j w' : copy_basis k w = (Ok j, w') -> j = length (w_bs w) /\ length (w_bs w') = S (length (w_bs w)).
    Proof.
      unfold copy_basis. unfold bind at 1. pose proof (on_basis_length k get_st w) as L0.
      destruct (on_basis k get_st w) as [[b|e] w0]; [|discriminate]. cbn in L0.
      destruct (b_np b); [|discriminate]. unfold bind at 1.
      pose proof (on_basis_length k (modify (set_np None)) w0) as L1.
      destruct (on_basis k (modify (set_np None)) w0) as [[[]|e] w1]; [|discriminate]. cbn in L1. unfold bind at 1.
      pose proof (on_basis_length k get_st w1) as L2.
      destruct (on_basis k get_st w1) as [[b2|e] w2]; [|discriminate]. cbn in L2. unfold bind at 1, alloc_basis at 1.
      set (w3 := set_bs (w_bs w2 ++ [b2]) w2). unfold bind at 1.
      pose proof (on_basis_length (length (w_bs w2)) (change_module n) w3) as L3.
      destruct (on_basis (length (w_bs w2)) (change_module n) w3) as [[[]|e] w4]; [|discriminate]. cbn in L3. unfold bind at 1.
      pose proof (on_basis_length k (change_module n) w4) as L4.
      destruct (on_basis k (change_module n) w4) as [[[]|e] w5]; [|discriminate]. cbn in L4.
      rewrite app_length in L3. cbn in L3.
      intros H. injection H as <- <-. lia.
    Qed.
    Lemma veff_construct s va vb anti : eff views (construct_general s va vb anti).
    Proof.
      unfold construct_general. vstep; [vstep|]. intros w b Hb. unfold bind at 1.
      pose proof (veff_copy (sy_bs x) w) as V. destruct (copy_basis (sy_bs x) w) as [[j|e] w1] eqn:E; [|exact (V b Hb)].
      cbn [snd] in V. apply copy_fresh in E as [-> _].
      assert (Hne : length (w_bs w) <> i) by (pose proof (nth_some_lt _ _ _ Hb); lia).
      apply (views_trans w w1 _ V); [|exact Hb].
      apply (eff_bind views views_trans); [apply veff_general; exact Hne|]. intros g. destruct (sy_op x); vstep.
    Qed.
    Lemma veff_run o w : ~ modifies w o i -> views w (snd (wrun o w)).
    Proof.
      pose proof (fun A m => eff_drop views views_refl views_trans (A:=A) m) as D.
      destruct o; cbn [wrun modifies]; intros Hm.
      - apply D, veff_alloc_basis.
      - apply D. intros w1. exact (views_refl w1).
      - apply veff_other. exact Hm.
      - apply D, veff_general. exact Hm.
      - apply D. unfold spatial_init. do 3 (vstep; [vstep|]). apply veff_init.
      - apply D, veff_construct.
      - unfold set_system_size. apply (eff_bind views views_trans); [vstep|intros _]. vstep; vstep.
      - unfold sys_change_module. apply (eff_bind views views_trans); [vstep|intros x].
        vstep; [vstep|]. apply veff_on, kv_module.
      - unfold sys_change_basis. unfold bind at 1. unfold get_sys. destruct (nth_error (w_sy w) s) as [x|] eqn:E; [|apply views_refl].
        apply (eff_bind views views_trans); [apply veff_other; intros H; apply Hm; exists x; split; assumption|intros _].
        vstep; [vstep|]. unfold set_system_size. vstep; [vstep|]. vstep; vstep.
      - apply D. unfold sys_density. vstep; [vstep|]. apply veff_on, kv_density.
      - apply D. unfold sys_get. vstep; vstep.
      - apply D. unfold sys_bra. vstep; [vstep|]. apply veff_on, kv_get_bra.
      - unfold set_time_evolution_operator. apply (eff_bind views views_trans); [vstep|intros x].
        vstep; [vstep|]. destruct o; [|vstep]. vstep; vstep.
      - apply D, (eff_h_t views views_refl views_trans views_op).
      - apply D, (eff_u_t views views_refl views_trans).
      - apply D, (eff_has views views_refl views_trans).
      - apply D, (eff_has views views_refl views_trans).
      - apply D, (eff_energy views views_refl views_trans).
      - apply D, (eff_fock views views_refl views_trans).
      - apply views_refl.
    Qed.
    Lemma hist_views ops w : walong (fun w o => ~ modifies w o i) ops w -> views w (wrun_any ops w).
    Proof.
      revert w. induction ops as [|o ops IH]; intros w H; cbn; [apply views_refl|]. destruct H as [H1 H2].
      eapply views_trans; [apply veff_run; exact H1 | apply IH; exact H2].
    Qed.
  End View.

  (** A system stays on its basis set. *)
  Definition stays w w' : Prop := forall s x, nth_error (w_sy w) s = Some x ->
    exists x', nth_error (w_sy w') s = Some x' /\ sy_bs x' = sy_bs x /\ sy_kind x' = sy_kind x.
  Lemma stays_refl w : stays w w.
  Proof. intros s x H. eauto. Qed.
  Lemma stays_trans w1 w2 w3 : stays w1 w2 -> stays w2 w3 -> stays w1 w3.
  Proof.
    intros H1 H2 s x H. destruct (H1 s x H) as (x1 & E1 & B1 & K1). destruct (H2 s x1 E1) as (x2 & E2 & B2 & K2).
    exists x2. split; [exact E2|]. split; congruence.
  Qed.
  Lemma stays_op o x w : stays w (set_op (lset o x (w_op w)) w).
  Proof. exact (stays_refl w). Qed.
  Lemma seff_on_basis {A} i (m : BM K A) : eff stays (on_basis i m).
  Proof. intros w. unfold on_basis. destruct (nth_error (w_bs w) i); [|apply stays_refl]. destruct (m b). exact (stays_refl w). Qed.
  Lemma stays_put s x x' w : nth_error (w_sy w) s = Some x -> sy_bs x' = sy_bs x -> sy_kind x' = sy_kind x ->
    stays w (set_sy (lset s x' (w_sy w)) w).
  Proof.
    intros E Hb Hk s0 x0 H. cbn. destruct (Nat.eq_dec s s0) as [<-|Hs].
    - rewrite nth_lset_same by (eapply nth_some_lt; eassumption). exists x'. split; [reflexivity|]. split; congruence.
    - rewrite nth_lset_other by exact Hs. eauto.
  Qed.
  Lemma stays_app l w : stays w (set_sy (w_sy w ++ l) w).
  Proof. intros s x H. cbn. rewrite nth_error_app1 by (eapply nth_some_lt; eassumption). eauto. Qed.
  Ltac sstep := first
    [ apply (eff_ret stays stays_refl) | apply (eff_raise stays stays_refl) | apply (eff_lift stays stays_refl)
    | apply (eff_assert stays stays_refl) | apply (eff_get_sys stays stays_refl) | apply (eff_get_op stays stays_refl)
    | apply seff_on_basis | apply (eff_put_op stays stays_op)
    | apply (eff_bind stays stays_trans); [|intros ?] | apply (eff_when stays stays_refl) | apply (eff_if stays) ].
  Lemma seff_size s n l : eff stays (set_system_size s n l).
  Proof.
    unfold set_system_size. sstep; [sstep|]. intros w. unfold bind, get_sys.
    destruct (nth_error (w_sy w) s) as [x0|] eqn:E; [|apply stays_refl]. cbn. apply (stays_put s x0 _ w E); reflexivity.
  Qed.
  Lemma seff_init k n i : eff stays (system_init k n i).
  Proof. unfold system_init. do 3 (sstep; [sstep|]). intros w. apply stays_app. Qed.
  Lemma seff_general n i va vb anti : eff stays (general_init n i va vb anti).
  Proof.
    unfold general_init. sstep; [sstep|]. sstep; [sstep; [sstep|]; sstep; [sstep|]; destruct x0; sstep|].
    sstep; [sstep; sstep|]. apply seff_init.
  Qed.
  Lemma seff_copy i : eff stays (copy_basis i).
  Proof.
    unfold copy_basis. sstep; [sstep|]. destruct (b_np x); [|sstep].
    do 2 (sstep; [sstep|]). sstep; [intros w; exact (stays_refl w)|]. repeat sstep.
  Qed.
  Lemma seff_run o : eff stays (wrun o).
  Proof.
    destruct o; cbn [wrun]; try apply (eff_drop stays stays_refl stays_trans); try apply seff_on_basis;
      try apply (eff_raise stays stays_refl).
    - intros w. exact (stays_refl w).
    - intros w. exact (stays_refl w).
    - apply seff_general.
    - unfold spatial_init. do 3 (sstep; [sstep|]). apply seff_init.
    - unfold construct_general. sstep; [sstep|]. sstep; [apply seff_copy|]. sstep; [apply seff_general|].
      destruct (sy_op x); sstep.
    - apply seff_size.
    - intros w. unfold sys_change_module, bind, get_sys. destruct (nth_error (w_sy w) s) as [x|] eqn:E; [|apply stays_refl].
      cbn. eapply stays_trans; [|apply seff_on_basis]. refine (stays_put s x _ w E _ _); reflexivity.
    - unfold sys_change_basis. do 3 (sstep; [sstep|]). apply seff_size.
    - unfold sys_density. sstep; sstep.
    - unfold sys_get. sstep; sstep.
    - unfold sys_bra. sstep; sstep.
    - intros w. unfold set_time_evolution_operator, bind, get_sys. destruct (nth_error (w_sy w) s) as [x|] eqn:E; [|apply stays_refl].
      cbn. eapply stays_trans.
      { apply (stays_put s x (System (sy_kind x) (sy_bs x) (sy_np x) (sy_n x) (sy_l x) (sy_m x) (sy_o x) (sy_v x) o) w E); reflexivity. }
      destruct o as [o|]; [|apply stays_refl]. unfold get_op. cbn.
      destruct (nth_error (w_op w) o); [|apply stays_refl]. apply stays_op.
    - apply (eff_h_t stays stays_refl stays_trans stays_op).
    - apply (eff_u_t stays stays_refl stays_trans).
    - apply (eff_has stays stays_refl stays_trans).
    - apply (eff_has stays stays_refl stays_trans).
    - apply (eff_energy stays stays_refl stays_trans).
    - apply (eff_fock stays stays_refl stays_trans).
  Qed.
  Lemma hist_stays ops w : stays w (wrun_any ops w).
  Proof. revert w. induction ops as [|o ops IH]; intros w; cbn; [apply stays_refl|]. eapply stays_trans; [apply seff_run | apply IH]. Qed.

  (** What a system sees after operations none of which modifies its basis. *)
  Lemma undisturbed ops w s b : basis_of w s b ->
    (forall x, system_at w s x -> walong (fun w o => ~ modifies w o (sy_bs x)) ops w) ->
    exists b', basis_of (wrun_any ops w) s b' /\ same_view b b'.
  Proof.
    intros (x & Hx & Hb) H. destruct (hist_stays ops w s x Hx) as (x' & Hx' & Eb & _).
    destruct (hist_views (sy_bs x) ops w (H x Hx) b Hb) as (b' & Hb' & V).
    exists b'. split; [|exact V]. exists x'. split; [exact Hx'|]. rewrite Eb. exact Hb'.
  Qed.

  (** *** C27 *)
  Definition inv27 w : Prop :=
    (forall s x, nth_error (w_sy w) s = Some x -> exists b, nth_error (w_bs w) (sy_bs x) = Some b /\ sy_l x = Z.of_nat (b_l b)) /\
    (forall s s' x x', nth_error (w_sy w) s = Some x -> nth_error (w_sy w) s' = Some x' -> sy_bs x = sy_bs x' -> s = s').
  Definition quiet (P : nat -> Prop) w w' : Prop :=
    (forall j b, nth_error (w_bs w) j = Some b -> exists b', nth_error (w_bs w') j = Some b' /\ (P j \/ b_l b' = b_l b)) /\
    (forall s x', nth_error (w_sy w') s = Some x' -> exists x, nth_error (w_sy w) s = Some x /\ sy_bs x' = sy_bs x /\ sy_l x' = sy_l x).
  Section Quiet.
    Variable P : nat -> Prop.
    Lemma quiet_refl w : quiet P w w.
    Proof. split; intros; eauto. Qed.
    Lemma quiet_trans w1 w2 w3 : quiet P w1 w2 -> quiet P w2 w3 -> quiet P w1 w3.
    Proof.
      intros [A1 B1] [A2 B2]. split.
      - intros j b H. destruct (A1 j b H) as (b1 & E1 & L1). destruct (A2 j b1 E1) as (b2 & E2 & L2).
        exists b2. split; [exact E2|]. destruct L1 as [L1|L1]; [auto|]. destruct L2 as [L2|L2]; [auto|]. right. congruence.
      - intros s x H. destruct (B2 s x H) as (x1 & E1 & L1 & M1). destruct (B1 s x1 E1) as (x2 & E2 & L2 & M2).
        exists x2. split; [exact E2|]. split; congruence.
    Qed.
    Lemma quiet_op o x w : quiet P w (set_op (lset o x (w_op w)) w).
    Proof. exact (quiet_refl w). Qed.
    Definition keeps_l {A} (m : BM K A) : Prop := forall b, b_l (snd (m b)) = b_l b.
    Lemma qeff_on {A} i (m : BM K A) : P i \/ keeps_l m -> eff (quiet P) (on_basis i m).
    Proof.
      intros H w. unfold on_basis. destruct (nth_error (w_bs w) i) as [b|] eqn:E; [|apply quiet_refl].
      destruct (m b) as [r b1] eqn:Em. cbn. split; [|intros s x' Hx; exists x'; auto].
      intros j b0 H0. cbn. destruct (Nat.eq_dec i j) as [<-|Hj].
      - rewrite nth_lset_same by (eapply nth_some_lt; eassumption). exists b1. split; [reflexivity|].
        destruct H as [H|H]; [auto|]. right. specialize (H b). rewrite Em in H. cbn in H. congruence.
      - rewrite nth_lset_other by exact Hj. eauto.
    Qed.
    Lemma qeff_put s x x' w : nth_error (w_sy w) s = Some x -> sy_bs x' = sy_bs x -> sy_l x' = sy_l x ->
      quiet P w (set_sy (lset s x' (w_sy w)) w).
    Proof.
      intros E Hb Hl. split; [intros j b H; exists b; auto|]. cbn. intros s0 x0 H.
      destruct (Nat.eq_dec s s0) as [<-|Hs].
      - rewrite nth_lset_same in H by (eapply nth_some_lt; eassumption). injection H as <-. eauto.
      - rewrite nth_lset_other in H by exact Hs. eauto.
    Qed.
    Lemma qeff_alloc b : eff (quiet P) (alloc_basis b).
    Proof.
      intros w. split; cbn; [|intros s x' Hx; exists x'; auto]. intros j b0 H.
      rewrite nth_error_app1 by (eapply nth_some_lt; eassumption). eauto.
    Qed.
    Lemma kl_view {A} (m : BM K A) : keeps_view m -> keeps_l m.
    Proof. intros H b. destruct (H b) as (_&L&_). exact L. Qed.
    Lemma qeff_copy i : eff (quiet P) (copy_basis i).
    Proof.
      unfold copy_basis. apply (eff_bind _ quiet_trans); [apply on_basis_get, quiet_refl|intros x].
      destruct (b_np x); [|apply eff_raise, quiet_refl].
      apply (eff_bind _ quiet_trans); [apply qeff_on; right; intros b; reflexivity|intros _].
      apply (eff_bind _ quiet_trans); [apply on_basis_get, quiet_refl|intros y].
      apply (eff_bind _ quiet_trans); [apply qeff_alloc|intros j].
      apply (eff_bind _ quiet_trans); [apply qeff_on; right; apply kl_view, kv_module|intros _].
      apply (eff_bind _ quiet_trans); [apply qeff_on; right; apply kl_view, kv_module|intros _].
      apply eff_ret, quiet_refl.
    Qed.
  End Quiet.
  Lemma inv27_quiet P w w' : quiet P w w' -> (forall i, P i -> ~ used w i) -> inv27 w -> inv27 w'.
  Proof.
    intros [A B] HP [I1 I2]. split.
    - intros s x' H. destruct (B s x' H) as (x & E & Eb & El). destruct (I1 s x E) as (b & Hb & Hl).
      destruct (A _ b Hb) as (b' & Hb' & Q). exists b'. rewrite Eb, El. split; [exact Hb'|].
      destruct Q as [Q|Q]; [exfalso; apply (HP _ Q); exists s, x; split; [exact E|reflexivity]|]. congruence.
    - intros s s' x x' H H' E. destruct (B s x H) as (y & Ey & Eb & _). destruct (B s' x' H') as (y' & Ey' & Eb' & _).
      apply (I2 s s' y y' Ey Ey'). congruence.
  Qed.
  Lemma unused_quiet P w w' i : quiet P w w' -> ~ used w i -> ~ used w' i.
  Proof. intros [A B] H (s & x' & Hx & Hi). destruct (B s x' Hx) as (x & E & Eb & _). apply H. exists s, x. split; [exact E | congruence]. Qed.
  Lemma nth_snoc {A} (l : list A) y s x : nth_error (l ++ [y]) s = Some x -> nth_error l s = Some x \/ (s = length l /\ x = y).
  Proof.
    intros H. destruct (lt_dec s (length l)) as [L|L]; [rewrite nth_error_app1 in H by exact L; auto|].
    rewrite nth_error_app2 in H by lia. destruct (s - length l) as [|k] eqn:E; cbn in H; [|destruct k; discriminate].
    injection H as <-. right. split; [lia | reflexivity].
  Qed.
  Lemma inv27_init k n i w : inv27 w -> ~ used w i -> inv27 (snd (system_init k n i w)).
  Proof.
    intros [I1 I2] Hu. unfold system_init. unfold bind at 1. unfold on_basis.
    destruct (nth_error (w_bs w) i) as [b|] eqn:E; [|split; assumption]. cbn [get_st].
    rewrite (lset_self _ _ _ E), set_bs_self.
    destruct (n <=? Z.of_nat (b_l b))%Z; [|split; assumption]. cbn. split; cbn.
    - intros s x H. apply nth_snoc in H as [H|[-> ->]]; [apply (I1 s x H)|]. cbn. exists b. auto.
    - intros s s' x x' H H' Eb. apply nth_snoc in H as [H|[-> ->]]; apply nth_snoc in H' as [H'|[-> ->]]; cbn in Eb.
      + exact (I2 s s' x x' H H' Eb).
      + exfalso. apply Hu. exists s, x. auto.
      + exfalso. apply Hu. exists s', x'. auto.
      + reflexivity.
  Qed.
  Lemma inv27_general n i va vb anti w : inv27 w -> ~ used w i -> inv27 (snd (general_init n i va vb anti w)).
  Proof.
    intros I Hu. unfold general_init.
    assert (Q1 : eff (quiet (eq i)) (let* bs := on_basis (K:=K) i get_st in
      (if b_spin bs then ret tt else let* r := on_basis i (change_to_general (Some (va, vb)) anti) in
          if r then ret tt else raise AttributeError) ;; when anti (on_basis i anti_symmetrize_two_body))).
    { apply (eff_bind _ (quiet_trans _)); [apply on_basis_get, quiet_refl|intros x].
      apply (eff_bind _ (quiet_trans _)).
      - apply eff_if; [apply eff_ret, quiet_refl|]. apply (eff_bind _ (quiet_trans _)); [apply qeff_on; auto|].
        intros r. apply eff_if; [apply eff_ret | apply eff_raise]; apply quiet_refl.
      - intros _. apply eff_when; [apply quiet_refl|]. apply qeff_on. auto. }
    specialize (Q1 w). revert Q1. unfold bind at 1. unfold bind at 3.
    destruct (on_basis i get_st w) as [[bs|e] w1]; cbn [snd]; [|intros Q; eapply inv27_quiet; [exact Q | intros ? <-; exact Hu | exact I]].
    unfold bind at 1. unfold bind at 2.
    match goal with |- context [(if b_spin bs then ?f else ?g) w1] => set (mm := if b_spin bs then f else g) end.
    change (quiet (eq i) w (snd (match mm w1 with (Ok _, s') => when anti (on_basis i anti_symmetrize_two_body) s' | (Err e, s') => (Err e, s') end)) ->
      inv27 (snd (match mm w1 with (Ok _, s') => bind (when anti (on_basis i anti_symmetrize_two_body)) (fun _ => system_init General n i) s' | (Err e, s') => (Err e, s') end))).
    destruct (mm w1) as [[[]|e] w2]; cbn [snd]; [|intros Q; eapply inv27_quiet; [exact Q | intros ? <-; exact Hu | exact I]].
    unfold bind at 1. destruct (when anti (on_basis i anti_symmetrize_two_body) w2) as [[[]|e] w3]; cbn [snd]; intros Q.
    - apply inv27_init; [eapply inv27_quiet; [exact Q | intros ? <-; exact Hu | exact I]|]. eapply unused_quiet; eassumption.
    - eapply inv27_quiet; [exact Q | intros ? <-; exact Hu | exact I].
  Qed.

  Lemma kl_frame {A} fs (m : BM K A) : frame K fs m -> keeps_l m.
  Proof. intros H b. destruct (H b) as (_&_&L&_). exact L. Qed.
  Lemma kl_bind {A B} (m : BM K A) (f : A -> BM K B) : keeps_l m -> (forall x, keeps_l (f x)) -> keeps_l (bind m f).
  Proof.
    intros Hm Hf b. unfold bind. pose proof (Hm b) as H1. destruct (m b) as [[x|e] b1]; [|exact H1].
    cbn in H1. rewrite Hf. exact H1.
  Qed.
  Lemma kl_same {A} (m : BM K A) : (forall b, snd (m b) = b) -> keeps_l m.
  Proof. intros H b. rewrite H. reflexivity. Qed.
  Lemma kl_for {A} (xs : list A) body : (forall x, keeps_l (body x)) -> keeps_l (for_each xs body).
  Proof. intros H. induction xs; cbn; [apply kl_same; reflexivity | apply kl_bind; auto]. Qed.
  Lemma kl_drop {A} (m : BM K A) : keeps_l m -> keeps_l (drop m).
  Proof. intros H. apply kl_bind; [exact H|]. intros. apply kl_same. reflexivity. Qed.
  Lemma kl_get_bra : keeps_l get_bra.
  Proof. apply (kl_frame [F_bra]), frame_get_bra. cbn. auto. Qed.
  Lemma kl_cast : keeps_l cast_to_complex.
  Proof.
    unfold cast_to_complex, conv_list. apply kl_bind.
    - apply kl_bind; [apply kl_get_bra|]. intros _. apply kl_bind; intros; apply kl_same; reflexivity.
    - intros xs. apply kl_for. intros [f [a|]]; cbn; [|apply kl_same; reflexivity].
      apply kl_bind; [apply kl_same; intros b; unfold need_np; destruct (b_np b); reflexivity|].
      intros _. intros b. reflexivity.
  Qed.
  Lemma kl_antisym : keeps_l anti_symmetrize_two_body.
  Proof.
    intros b. unfold anti_symmetrize_two_body, bind at 1, get_st. cbv beta iota. destruct (b_asym b); [reflexivity|].
    destruct (b_arr b F_u) as [u|]; [|reflexivity]. unfold need, bind at 1, ret at 1, lift at 1. cbv beta iota.
    assert (H : keeps_l (let* u' := lift (anti_symmetrize_u (K:=K) (b_cls b) u) in
        set_sq F_u u' ;;
        let* t := rd F_sp2tb in
        (match t with
         | None => ret tt
         | Some t => let* t' := lift (anti_symmetrize_u (b_cls b) t) in set_spin_op F_sp2tb t'
         end) ;;
        modify (set_asym true))).
    { apply kl_bind; [apply kl_same; reflexivity|]. intros u'.
      apply kl_bind; [apply (kl_frame [F_u]), frame_set_sq; cbn; auto|]. intros _.
      apply kl_bind; [apply kl_same; reflexivity|]. intros t. apply kl_bind; [|intros _ b0; reflexivity].
      destruct t; [|apply kl_same; reflexivity]. apply kl_bind; [apply kl_same; reflexivity|]. intros t'.
      apply (kl_frame [F_sp2tb]), frame_set_spin_op. cbn. auto. }
    apply (H b).
  Qed.
  Lemma kl_run o : (match o with OChange _ _ | ODouble _ _ => False | _ => True end) -> keeps_l (run o).
  Proof.
    destruct o; cbn [run]; intros H; try destruct H.
    - match goal with |- keeps_l (set_sq ?f _) => apply (kl_frame [f]), frame_set_sq; cbn; auto end.
    - match goal with |- keeps_l (set_sq ?f _) => apply (kl_frame [f]), frame_set_sq; cbn; auto end.
    - match goal with |- keeps_l (set_sq ?f _) => apply (kl_frame [f]), frame_set_sq; cbn; auto end.
    - apply (kl_frame [F_dip]), frame_set_dipole; cbn; auto.
    - match goal with |- keeps_l (set_spin_op ?f _) => apply (kl_frame [f]), frame_set_spin_op; cbn; auto end.
    - match goal with |- keeps_l (set_sigma ?f _) => apply (kl_frame [f]), frame_set_sigma; cbn; auto end.
    - match goal with |- keeps_l (set_orbitals ?f _) => apply (kl_frame [f]), frame_set_orbitals; cbn; auto end.
    - match goal with |- keeps_l (set_orbitals ?f _) => apply (kl_frame [f]), frame_set_orbitals; cbn; auto end.
    - intros b. reflexivity.
    - intros b. reflexivity.
    - apply kl_antisym.
    - apply kl_view, kv_module.
    - apply kl_cast.
    - apply kl_drop, kl_get_bra.
    - apply kl_drop, kl_view, kv_density.
    - apply kl_drop. apply (kl_frame []), frame_get_h.
    - apply kl_drop. apply (kl_frame []), frame_get_u.
    - apply kl_same. apply set_u_repr_same.
  Qed.

  Lemma inv27_run o w : size_disciplined w o -> inv27 w -> inv27 (snd (wrun o w)).
  Proof.
    set (Z0 := fun _ : nat => False).
    assert (QI0 : forall w', quiet Z0 w w' -> inv27 w -> inv27 w').
    { intros w' Q. apply (inv27_quiet Z0 w w' Q). intros i []. }
    assert (QE : forall (A : Type) (m : WM A), eff (quiet Z0) m -> inv27 w -> inv27 (snd (m w))).
    { intros A m E. apply QI0. apply E. }
    pose proof (fun A m => eff_drop (quiet Z0) (quiet_refl Z0) (quiet_trans Z0) (A:=A) m) as D.
    assert (DW : forall (A : Type) (m : WM A), snd (wdrop m w) = snd (m w)).
    { intros A m. unfold wdrop, bind. destruct (m w) as [[]?]; reflexivity. }
    intros Hd I. destruct o; cbn [wrun size_disciplined] in *; rewrite ?DW.
    - apply QE; [apply qeff_alloc | exact I].
    - exact I.
    - assert (Hq : ~ used w i \/ keeps_l (run o)).
      { destruct o; auto; right; apply kl_run; exact Logic.I. }
      destruct Hq as [Hq|Hq].
      + eapply (inv27_quiet (eq i)); [apply qeff_on; left; reflexivity | intros ? <-; exact Hq | exact I].
      + apply QE; [apply qeff_on; auto | exact I].
    - apply inv27_general; assumption.
    - unfold spatial_init, bind at 1, py_assert at 1. destruct (n mod 2 =? 0)%Z; [|exact I]. cbn [ret].
      unfold bind at 1. pose proof (on_basis_get (quiet Z0) (quiet_refl Z0) i w) as Q.
      destruct (on_basis i get_st w) as [[b|e] w1] eqn:E; cbn [snd] in Q; [|apply QI0; assumption].
      unfold bind at 1, py_assert at 1. destruct (negb (b_spin b)); [|cbn; apply QI0; assumption]. cbn [ret].
      apply inv27_init; [apply QI0; assumption | eapply unused_quiet; eassumption].
    - unfold construct_general, bind at 1, get_sys. destruct (nth_error (w_sy w) s) as [x|] eqn:Ex; [|exact I].
      unfold bind at 1. pose proof (qeff_copy Z0 (sy_bs x) w) as Q.
      destruct (copy_basis (sy_bs x) w) as [[j|e] w1] eqn:E; cbn [snd] in Q; [|apply QI0; assumption].
      apply copy_fresh in E as [-> _]. unfold bind at 1.
      assert (G : inv27 (snd (general_init (sy_n x * 2) (length (w_bs w)) va vb anti w1))).
      { apply inv27_general; [apply QI0; assumption|]. eapply unused_quiet; [exact Q|]. intros (s' & x' & Hx & Hi).
        destruct (proj1 I s' x' Hx) as (b & Hb & _). pose proof (nth_some_lt _ _ _ Hb). lia. }
      destruct (general_init (sy_n x * 2) (length (w_bs w)) va vb anti w1) as [[g|e] w2]; [|exact G].
      destruct (sy_op x); exact G.
    - unfold set_system_size, bind at 1, py_assert at 1. destruct (n <=? l)%Z; [|exact I]. cbn [ret].
      unfold bind, get_sys. destruct (nth_error (w_sy w) s) as [x|] eqn:Ex; [|exact I]. cbn.
      destruct I as [I1 I2]. destruct (I1 s x Ex) as (b & Hb & _).
      assert (El : l = Z.of_nat (b_l b)) by (apply Hd; exists x; split; assumption).
      pose proof (nth_some_lt _ _ _ Ex) as Hs. split; cbn.
      + intros s0 x0 H. destruct (Nat.eq_dec s s0) as [<-|Hne].
        * rewrite nth_lset_same in H by exact Hs. injection H as <-. cbn. eauto.
        * rewrite nth_lset_other in H by exact Hne. exact (I1 s0 x0 H).
      + assert (T : forall s0 x0, nth_error (lset s (sized x n l) (w_sy w)) s0 = Some x0 ->
           exists y, nth_error (w_sy w) s0 = Some y /\ sy_bs x0 = sy_bs y).
        { intros s0 x0 H. destruct (Nat.eq_dec s s0) as [<-|Hne].
          * rewrite nth_lset_same in H by exact Hs. injection H as <-. exists x. auto.
          * rewrite nth_lset_other in H by exact Hne. eauto. }
        intros s1 s2 x1 x2 H1 H2 E12. destruct (T s1 x1 H1) as (y1 & Y1 & B1). destruct (T s2 x2 H2) as (y2 & Y2 & B2).
        apply (I2 s1 s2 y1 y2 Y1 Y2). congruence.
    - apply QE; [|exact I]. unfold sys_change_module. intros w0. unfold bind, get_sys.
      destruct (nth_error (w_sy w0) s) as [x|] eqn:E; [|apply quiet_refl]. cbn.
      eapply quiet_trans; [|apply qeff_on; right; apply kl_view, kv_module].
      refine (qeff_put Z0 s x _ w0 E _ _); reflexivity.
    - destruct Hd as (w' & E). rewrite E. cbn [snd]. revert E.
      unfold sys_change_basis, bind at 1, get_sys. destruct (nth_error (w_sy w) s) as [x|] eqn:Ex; [|discriminate].
      unfold bind at 1. unfold on_basis at 1. destruct (proj1 I s x Ex) as (b & Hb & Hl). rewrite Hb.
      destruct (change_basis C Ct b) as [[[]|e] b1]; [|discriminate].
      pose proof (nth_some_lt _ _ _ Hb) as Hi. pose proof (nth_some_lt _ _ _ Ex) as Hs.
      set (w1 := set_bs (lset (sy_bs x) b1 (w_bs w)) w).
      assert (Hb1 : nth_error (w_bs w1) (sy_bs x) = Some b1) by (apply nth_lset_same; exact Hi).
      rewrite (wbind_ok K _ _ _ _ _ (on_basis_pure K _ get_st w1 b1 _ Hb1 eq_refl)).
      unfold set_system_size, bind at 1, py_assert at 1. destruct (sy_n x <=? Z.of_nat (b_l b1))%Z; [|discriminate]. cbn [ret].
      rewrite (wbind_ok K _ _ _ _ _ (get_sys_ok K s w1 x Ex)). intros E. injection E as <-.
      destruct I as [I1 I2]. split; cbn.
      + intros s0 x0 H. destruct (Nat.eq_dec s s0) as [<-|Hne].
        * rewrite nth_lset_same in H by exact Hs. injection H as <-. cbn. exists b1. auto.
        * rewrite nth_lset_other in H by exact Hne. destruct (I1 s0 x0 H) as (b0 & Hb0 & Hl0). exists b0.
          rewrite nth_lset_other; [auto|]. intros Eq. apply Hne. apply (I2 s s0 x x0 Ex H Eq).
      + assert (T : forall s0 x0, nth_error (lset s (sized x (sy_n x) (Z.of_nat (b_l b1))) (w_sy w)) s0 = Some x0 ->
           exists y, nth_error (w_sy w) s0 = Some y /\ sy_bs x0 = sy_bs y).
        { intros s0 x0 H. destruct (Nat.eq_dec s s0) as [<-|Hne].
          * rewrite nth_lset_same in H by exact Hs. injection H as <-. exists x. auto.
          * rewrite nth_lset_other in H by exact Hne. eauto. }
        intros s1 s2 x1 x2 H1 H2 E12. destruct (T s1 x1 H1) as (y1 & Y1 & B1). destruct (T s2 x2 H2) as (y2 & Y2 & B2).
        apply (I2 s1 s2 y1 y2 Y1 Y2). congruence.
    - apply QE; [|exact I]. unfold sys_density. apply (eff_bind _ (quiet_trans _)); [apply eff_get_sys, quiet_refl|].
      intros x. apply qeff_on. right. apply kl_view, kv_density.
    - apply QE; [|exact I]. apply eff_sys_get; [apply quiet_refl | apply quiet_trans].
    - apply QE; [|exact I]. unfold sys_bra. apply (eff_bind _ (quiet_trans _)); [apply eff_get_sys, quiet_refl|].
      intros x. apply qeff_on. right. apply kl_get_bra.
    - apply QE; [|exact I]. intros w0. unfold set_time_evolution_operator, bind, get_sys.
      destruct (nth_error (w_sy w0) s) as [x|] eqn:E; [|apply quiet_refl]. cbn.
      eapply quiet_trans.
      { apply (qeff_put Z0 s x (System (sy_kind x) (sy_bs x) (sy_np x) (sy_n x) (sy_l x) (sy_m x) (sy_o x) (sy_v x) o) w0 E); reflexivity. }
      destruct o as [o|]; [|apply quiet_refl]. unfold get_op. cbn.
      destruct (nth_error (w_op w0) o); [|apply quiet_refl]. apply quiet_op.
    - apply QE; [apply (eff_h_t _ (quiet_refl _) (quiet_trans _) (quiet_op _)) | exact I].
    - apply QE; [apply (eff_u_t _ (quiet_refl _) (quiet_trans _)) | exact I].
    - apply QE; [apply (eff_has _ (quiet_refl _) (quiet_trans _)) | exact I].
    - apply QE; [apply (eff_has _ (quiet_refl _) (quiet_trans _)) | exact I].
    - apply QE; [apply (eff_energy _ (quiet_refl _) (quiet_trans _)) | exact I].
    - apply QE; [apply (eff_fock _ (quiet_refl _) (quiet_trans _)) | exact I].
    - exact I.
  Qed.
  Lemma hist_agree (ops : list (wop K)) : walong size_disciplined ops (World [] [] []) -> agree (K:=K) (wrun_any ops (World [] [] [])).
  Proof.
    assert (G : forall w, inv27 w -> walong size_disciplined ops w -> inv27 (wrun_any ops w)).
    { induction ops as [|o ops IH]; intros w I H; [exact I|]. destruct H as [H1 H2]. cbn.
      apply IH; [apply inv27_run; assumption | exact H2]. }
    intros H s x b Hx Hb. assert (I0 : inv27 (World [] [] [])).
    { split; [intros s0 x0 H0|intros s0 s1 x0 x1 H0]; destruct s0; discriminate H0. }
    destruct (G _ I0 H) as [I1 _].
    destruct (I1 s x Hx) as (b' & Hb' & L). rewrite Hb in Hb'. injection Hb' as <-. exact L.
  Qed.
End Effects.
