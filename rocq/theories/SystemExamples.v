(** Concrete systems: witnesses for the refutations of C24, C26-C28 and
    instances of the hypotheses of the theorems that hold. *)
From Coq Require Import List Arith ZArith Lia Bool.
From Verif Require Import Scalar Py Numpy Spec BasisSet BasisSpec Examples Histories HistExamples SpinFacts EnergySpec EnergyFacts EnergyProofs
  Systems SystemFacts SystemProofs Worlds WorldProofs.
Import ListNotations.

(** A closed-shell system of two electrons on the example basis, and a general
    one of one electron on its own copy. *)
Definition ex_sys : system := System Spatial 0 (Some 0) 1 2 1 (PySlice 0 1) (PySlice 1 2) None.
Definition ex_gsys : system := System General 1 (Some 0) 1 2 1 (PySlice 0 1) (PySlice 1 2) None.
Definition ex_w : world QI := World [ex_basis; ex_basis] [ex_sys; ex_gsys] [].
Lemma ex_sys_at : sys_at ex_w 0 Spatial 1 2 ex_sys ex_basis.
Proof. constructor; try reflexivity; [exists 0; reflexivity | lia | exact ex_ready]. Qed.
Lemma ex_gsys_at : sys_at ex_w 1 General 1 2 ex_gsys ex_basis.
Proof. constructor; try reflexivity; [exists 0; reflexivity | lia | exact ex_ready]. Qed.

(** A block-diagonal rotation for one occupied orbital out of two. *)
Definition ex_D : arr QI := lit2 Complex128 [[qz 2 0; qz 0 0]; [qz 0 0; qz 0 1]].
Definition ex_Dinv : arr QI := lit2 Complex128 [[qr 1 2; qz 0 0]; [qz 0 0; qz 0 (-1)]].
Lemma ex_D_block : forall i a, i < 1 -> 1 <= a < 2 -> mat ex_D i a = s0 /\ mat ex_D a i = s0.
Proof. intros i a Hi Ha. assert (i = 0) by lia. assert (a = 1) by lia. subst. split; qi. Qed.
Lemma ex_D_inv : forall p q, p < 2 -> q < 2 -> mmul 2 (mat ex_D) (tilde ex_D (Some ex_Dinv)) p q = delta p q.
Proof. intros [|[|p]] [|[|q]] Hp Hq; try lia; qi. Qed.
Lemma ex_Dinv_D : forall p q, p < 2 -> q < 2 -> mmul 2 (tilde ex_D (Some ex_Dinv)) (mat ex_D) p q = delta p q.
Proof. intros [|[|p]] [|[|q]] Hp Hq; try lia; qi. Qed.

Lemma ex_h_hermitian : hermitian 2 (mat ex_h).
Proof. intros [|[|p]] [|[|q]] Hp Hq; try lia; qi. Qed.
Lemma ex_u_hermitian : hermitian2 2 (ten ex_u).
Proof. intros [|[|p]] [|[|q]] [|[|r]] [|[|s]] Hp Hq Hr Hs; try lia; qi. Qed.
Lemma ex_u_particle : particle_sym 2 (ten ex_u).
Proof. intros [|[|p]] [|[|q]] [|[|r]] [|[|s]] Hp Hq Hr Hs; try lia; qi. Qed.

(** C24 *)
Definition ex_hr : arr QI := eye 2.
Definition ex_buf : arr QI := zeros [2; 2] Complex128.
Lemma fock_buffer_refuted : ~ (forall (K : scalar) (w : world K) s k N l x b (h u f : arr K),
  sys_at w s k N l x b -> shape h = [l; l] -> shape u = [l; l; l; l] -> shape f = [l; l] ->
  forall F, fock_matrix s h u (Buffer f) w = (Ok F, w) ->
  exists F', fock_matrix s h u NoBuffer w = (Ok F', w) /\ aeq F F').
Proof.
  intros H.
  destruct (fock_matrix_ok QI ex_w 0 Spatial 1 2 ex_sys ex_basis ex_hr ex_u (Buffer ex_buf) ex_sys_at eq_refl eq_refl)
    as (F & EF & _); [repeat split|].
  destruct (H QI ex_w 0 Spatial 1 2 ex_sys ex_basis ex_hr ex_u ex_buf ex_sys_at eq_refl eq_refl eq_refl F EF) as (F' & E & _).
  rewrite (fock_none_rejected QI 0 ex_w Spatial 1 2 ex_sys ex_basis ex_hr ex_u ex_sys_at eq_refl eq_refl eq_refl) in E.
  discriminate E.
Qed.
Lemma fock_aliased (K : scalar) (w : world K) s k N l x b (h u : arr K) :
  sys_at w s k N l x b -> shape h = [l; l] -> shape u = [l; l; l; l] -> castable (dt u) (dt h) = true ->
  exists F, fock_matrix s h u SameAsH w = (Ok F, w) /\ shape F = [l; l] /\
    forall p q, p < l -> q < l ->
      mat F p q = match k with General => F_general N (fun _ _ => s0) (ten u) p q
                             | Spatial => F_restricted N (fun _ _ => s0) (ten u) p q end.
Proof.
  intros A Sh Su Hc.
  destruct (fock_matrix_ok K w s k N l x b (zeros_like h) u NoBuffer A Sh Su Hc) as (F & E & S & G).
  exists F. split; [|split; [exact S|]].
  - revert E. unfold fock_matrix, bind, get_sys. destruct (nth_error (w_sy w) s) as [y|]; [|discriminate].
    unfold need_np_w. destruct (sy_np y); [|discriminate]. unfold lift. destruct (sy_kind y); exact (fun E => E).
  - intros p q Hp Hq. rewrite (G p q Hp Hq). destruct k; reflexivity.
Qed.
Lemma fock_aliased_differs : exists F F' : arr QI,
  fock_matrix 0 ex_h ex_u SameAsH ex_w = (Ok F, ex_w) /\ fock_matrix 0 ex_h ex_u NoBuffer ex_w = (Ok F', ex_w) /\
  mat F 0 0 <> mat F' 0 0.
Proof.
  destruct (fock_aliased QI ex_w 0 Spatial 1 2 ex_sys ex_basis ex_h ex_u ex_sys_at eq_refl eq_refl eq_refl) as (F & E & _ & G).
  destruct (fock_matrix_ok QI ex_w 0 Spatial 1 2 ex_sys ex_basis ex_h ex_u NoBuffer ex_sys_at eq_refl eq_refl eq_refl) as (F' & E' & _ & G').
  exists F, F'. split; [exact E|]. split; [exact E'|]. rewrite G, G' by lia. apply qi_eqb_neq. vm_compute. reflexivity.
Qed.

(** C26 *)
Lemma bookkeeping (K : scalar) (ops : list (wop K)) (w : world K) : no_systems w ->
  forall s x, system_at (wrun_any ops w) s x ->
  (sy_n x + sy_m x = sy_l x)%Z /\ (sy_n x <= sy_l x)%Z /\
  forall l, sy_l x = Z.of_nat l ->
    sl_indices l (sy_o x) ++ sl_indices l (sy_v x) = seq 0 l /\
    Z.of_nat (length (sl_indices l (sy_o x))) = (if (0 <=? sy_n x)%Z then sy_n x else Z.max 0 (sy_l x + sy_n x))%Z.
Proof.
  intros H s x Hx.
  assert (B : all_booked K (wrun_any ops w)).
  { apply hist_booked. unfold all_booked. rewrite H. constructor. }
  unfold all_booked in B. rewrite Forall_forall in B.
  destruct (B x (nth_error_In _ _ Hx)) as (Bm & Bo & Bv & Bn).
  split; [lia|]. split; [exact Bn|]. intros l El. rewrite Bo, Bv, El. apply slices_partition. lia.
Qed.
Lemma general_accepts (K : scalar) n i va vb anti (w w' : world K) g : general_init n i va vb anti w = (Ok g, w') ->
  exists x b, system_at w' g x /\ nth_error (w_bs w') i = Some b /\ sy_bs x = i /\ sy_n x = n /\ sy_l x = Z.of_nat (b_l b) /\
    (n <= Z.of_nat (b_l b))%Z.
Proof.
  intros E.
  assert (S : exists w1, system_init General n i w1 = (Ok g, w')).
  { revert E. unfold general_init. unfold bind at 1. destruct (on_basis i get_st w) as [[bs|e] w1]; [|discriminate].
    unfold bind at 1. match goal with |- match ?m with _ => _ end = _ -> _ => destruct m as [[[]|e] w2]; [|discriminate] end.
    unfold bind at 1. match goal with |- match ?m with _ => _ end = _ -> _ => destruct m as [[[]|e] w3]; [|discriminate] end.
    eauto. }
  destruct S as (w1 & S). revert S. unfold system_init, bind at 1. unfold on_basis.
  destruct (nth_error (w_bs w1) i) as [b|] eqn:Eb; [|discriminate]. cbn [get_st].
  rewrite (lset_self _ _ _ Eb), set_bs_self.
  destruct (Z.leb_spec n (Z.of_nat (b_l b))); [|discriminate]. unfold bind, py_assert, ret, alloc_sys.
  intros E1. injection E1 as <- <-. eexists. exists b. unfold system_at. cbn. rewrite nth_app_last. repeat split; assumption.
Qed.
Lemma spatial_accepts (K : scalar) n i (w w' : world K) g : spatial_init n i w = (Ok g, w') ->
  exists x b, system_at w' g x /\ nth_error (w_bs w) i = Some b /\ b_spin b = false /\ sy_bs x = i /\
    n = (2 * sy_n x)%Z /\ sy_l x = Z.of_nat (b_l b) /\ (sy_n x <= Z.of_nat (b_l b))%Z.
Proof.
  unfold spatial_init. unfold bind at 1, py_assert at 1. destruct (Z.eqb_spec (n mod 2) 0) as [Hn|]; [|discriminate]. cbn [ret].
  unfold bind at 1. unfold on_basis. destruct (nth_error (w_bs w) i) as [b|] eqn:Eb; [|discriminate]. cbn [get_st].
  rewrite (lset_self _ _ _ Eb), set_bs_self. unfold bind at 1, py_assert at 1. destruct (b_spin b) eqn:Es; [discriminate|]. cbn [negb ret].
  unfold system_init, bind at 1. unfold on_basis. rewrite Eb. cbn [get_st]. rewrite (lset_self _ _ _ Eb), set_bs_self.
  destruct (Z.leb_spec (n / 2) (Z.of_nat (b_l b))); [|discriminate]. unfold bind, py_assert, ret, alloc_sys.
  intros E1. injection E1 as <- <-. eexists. exists b. unfold system_at. cbn [w_sy set_sy]. rewrite nth_app_last. repeat split; try assumption.
  pose proof (Z_div_mod_eq_full n 2). change (n = 2 * (n / 2))%Z. lia.
Qed.
Lemma spatial_rejects (K : scalar) n i (w : world K) b : nth_error (w_bs w) i = Some b ->
  (n mod 2 <> 0 \/ 2 * Z.of_nat (b_l b) < n)%Z -> spatial_init n i w = (Err AssertionError, w).
Proof.
  intros Eb H. unfold spatial_init. unfold bind at 1, py_assert at 1. destruct (Z.eqb_spec (n mod 2) 0) as [Hn|]; [|reflexivity]. cbn [ret].
  rewrite (wbind_ok K _ _ _ _ _ (on_basis_pure K i get_st w b _ Eb eq_refl)).
  unfold bind at 1, py_assert at 1. destruct (b_spin b); [reflexivity|]. cbn [negb ret].
  apply system_init_rejects with b; [exact Eb|]. pose proof (Z_div_mod_eq_full n 2). lia.
Qed.
Lemma general_rejects (K : scalar) n i va vb (w : world K) b : nth_error (w_bs w) i = Some b -> b_spin b = true ->
  (Z.of_nat (b_l b) < n)%Z -> general_init n i va vb false w = (Err AssertionError, w).
Proof.
  intros Eb Es H. unfold general_init. rewrite (wbind_ok K _ _ _ _ _ (on_basis_pure K i get_st w b _ Eb eq_refl)). rewrite Es.
  unfold bind at 1, ret at 1. unfold bind at 1, when at 1. cbn [ret]. apply system_init_rejects with b; assumption.
Qed.
(** GeneralOrbitalSystem(-1, basis): accepted, with 3 orbitals called occupied. *)
Lemma negative_number_accepted : exists x : system,
  system_at (wrun_any [WNewBasis ex_basis; WGeneral (-1) 0 (default_a QI) (default_b QI) true] (World [] [] [])) 0 x /\
  sy_n x = (-1)%Z /\ sy_l x = 4%Z /\ length (sl_indices 4 (sy_o x)) = 3.
Proof.
  destruct (general_init_ok QI (-1) 0 (default_a QI) (default_b QI) true (World [ex_basis] [] []) ex_basis 2 ex_s)
    as (bg & _ & E & _); try reflexivity; [apply orthonormal_accepted; exact default_pair | exact ex_ready |].
  cbn [wrun_any]. change (snd (wrun (WNewBasis ex_basis) (World [] [] []))) with (World [ex_basis] [] [] : world QI). cbn [wrun].
  unfold wdrop, bind, ret. rewrite E by (cbn; lia). cbn [snd]. eexists. unfold system_at. cbn.
  split; [reflexivity|]. repeat split; vm_compute; reflexivity.
Qed.

(** C27 *)
Definition shrink_ops : list (wop QI) :=
  [WNewBasis ex_basis; WSpatial 4 0; WChange 0 ex_col None].
Lemma size_refuted : ~ (forall (K : scalar) (ops : list (wop K)), agree (wrun_any ops (World [] [] []))).
Proof.
  intros H. specialize (H QI shrink_ops).
  assert (E : nth_error (w_sy (wrun_any shrink_ops (World [] [] []))) 0
              = Some (System Spatial 0 (Some 0) 2 2 0 (PySlice 0 2) (PySlice 2 2) None)) by (vm_compute; reflexivity).
  assert (L : option_map b_l (nth_error (w_bs (wrun_any shrink_ops (World [] [] []))) 0) = Some 1) by (vm_compute; reflexivity).
  destruct (nth_error (w_bs (wrun_any shrink_ops (World [] [] []))) 0) as [b|] eqn:Eb; [|discriminate L]. injection L as L.
  specialize (H 0 _ b E Eb). rewrite L in H. cbn in H. discriminate H.
Qed.
Lemma failed_change_basis (K : scalar) (w : world K) s k N l x b C Ct n : sys_at w s k N l x b ->
  shape C = [l; n] -> tilde_shape C Ct n l -> n < N ->
  exists w' b', sys_change_basis s C Ct w = (Err AssertionError, w') /\ system_at w' s x /\
    nth_error (w_bs w') (sy_bs x) = Some b' /\ b_l b' = n /\ (Z.of_nat (b_l b') < sy_n x)%Z.
Proof.
  intros A HC HD Hn. destruct (sys_change_basis_ok K s w k N l x b C Ct n A HC HD) as (b' & B & _ & E).
  exists (set_bs (lset (sy_bs x) b' (w_bs w)) w), b'. split; [apply E, Hn|]. split; [exact (at_sys K _ _ _ _ _ _ _ A)|].
  split; [apply nth_lset_same; eapply nth_some_lt; exact (at_bs K _ _ _ _ _ _ _ A)|].
  rewrite (bc_l B), (at_n K _ _ _ _ _ _ _ A). split; [reflexivity | lia].
Qed.
(** Sharing: the second system keeps the size it had when it was created. *)
Lemma size_refuted_shared : exists (ops : list (wop QI)) (x : system) b,
  ops = [WNewBasis ex_basis; WSpatial 2 0; WSpatial 2 0; WChange 0 ex_R None] /\
  system_at (wrun_any ops (World [] [] [])) 1 x /\
  nth_error (w_bs (wrun_any ops (World [] [] []))) (sy_bs x) = Some b /\ sy_l x = 2%Z /\ b_l b = 3.
Proof.
  set (ops := [WNewBasis ex_basis; WSpatial 2 0; WSpatial 2 0; WChange 0 ex_R None]).
  exists ops, ex_sys.
  assert (L : option_map b_l (nth_error (w_bs (wrun_any ops (World [] [] []))) 0) = Some 3) by (vm_compute; reflexivity).
  destruct (nth_error (w_bs (wrun_any ops (World [] [] []))) 0) as [b|] eqn:Eb; [|discriminate L]. injection L as L.
  exists b. split; [reflexivity|]. split; [vm_compute; reflexivity|]. split; [exact Eb|]. split; [reflexivity | exact L].
Qed.
Lemma disciplined_instance :
  walong size_disciplined [WNewBasis ex_basis; WSpatial 2 0; WChange 0 ex_R None; WSetSize 0 2 3; WEnergy 0] (World [] [] []).
Proof.
  cbn [walong size_disciplined]. split; [exact I|]. split.
  { intros (s & x & H & _). destruct s; discriminate H. }
  split.
  { match goal with |- exists w', wrun ?o ?w = _ => set (w0 := w) end.
    exists (snd (wrun (WChange 0 ex_R None) w0)).
    assert (E : is_ok (fst (wrun (WChange 0 ex_R None) w0)) = true) by (vm_compute; reflexivity).
    destruct (wrun (WChange 0 ex_R None) w0) as [[[]|e] w']; [reflexivity | discriminate E]. }
  split; [|split; exact I].
  match goal with |- forall b, basis_of ?w _ b -> _ => set (w1 := w) end.
  intros b (x & Hx & Hb).
  assert (Ex : nth_error (w_sy w1) 0 = Some (sized ex_sys 1 3)) by (vm_compute; reflexivity).
  unfold system_at in Hx. rewrite Ex in Hx. injection Hx as <-. cbn [sy_bs sized ex_sys] in Hb.
  assert (L : option_map b_l (nth_error (w_bs w1) 0) = Some 3) by (vm_compute; reflexivity).
  rewrite Hb in L. injection L as L. rewrite L. reflexivity.
Qed.

(** C28 *)
Lemma snd_wrun_general (K : scalar) n i va vb anti (w : world K) :
  snd (wrun (WGeneral n i va vb anti) w) = snd (general_init n i va vb anti w).
Proof. cbn [wrun]. unfold wdrop, bind. destruct (general_init n i va vb anti w) as [[]?]; reflexivity. Qed.
Lemma undisturbed_refuted : ~ (forall (K : scalar) (w : world K) s b n i va vb anti, basis_of w s b ->
  exists b', basis_of (snd (wrun (WGeneral n i va vb anti) w)) s b' /\ same_view b b').
Proof.
  intros H. specialize (H QI ex_w 0 ex_basis 2%Z 0 (default_a QI) (default_b QI) true).
  destruct H as (b' & (x & Hx & Hb) & (_ & L & _)).
  - exists ex_sys. split; reflexivity.
  - destruct (general_init_ok QI 2 0 (default_a QI) (default_b QI) true ex_w ex_basis 2 ex_s)
      as (bg & D & E & _); try reflexivity; [apply orthonormal_accepted; exact default_pair | exact ex_ready |].
    specialize (E ltac:(cbn; lia)). rewrite snd_wrun_general, E in Hx, Hb. cbn [snd] in Hx, Hb.
    injection Hx as <-. cbn in Hb. injection Hb as <-. pose proof (sd_l D) as DL. rewrite L in DL. discriminate DL.
Qed.
Lemma undisturbed_instance : basis_of ex_w 0 ex_basis /\
  (forall x, system_at ex_w 0 x -> walong (fun w o => ~ modifies w o (sy_bs x))
     [WGeneral 2 1 (default_a QI) (default_b QI) true; WConstruct 0 (default_a QI) (default_b QI) true;
      WChange 1 ex_flip None; WEnergy 0; WModule 0 3] ex_w).
Proof.
  split; [exists ex_sys; split; reflexivity|]. intros x Hx. injection Hx as <-. cbn [sy_bs ex_sys walong modifies].
  split; [discriminate|]. split; [intros []|]. split; [|repeat split; intros []].
  intros (x & Hx & Hb).
  match type of Hx with system_at ?w _ _ => set (w1 := w) in Hx end.
  assert (E : option_map sy_bs (nth_error (w_sy w1) 1) = Some 1) by (vm_compute; reflexivity).
  unfold system_at in Hx. rewrite Hx in E. injection E as E. rewrite E in Hb. discriminate Hb.
Qed.
