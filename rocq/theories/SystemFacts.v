(** Executing operations on systems: which objects of the world they touch. *)
From Coq Require Import List Arith ZArith Lia Bool.
From Verif Require Import Scalar Py Numpy Spec NumpyFacts BasisSet BasisSpec BasisFacts ChangeProofs ConvProofs SpinFacts
  DoubleFacts Systems EnergySpec EnergyFacts.
Import ListNotations.

Section Lists.
  Context {A : Type}.
  Implicit Types (l : list A).
  Lemma lset_length i x l : length (lset i x l) = length l.
  Proof. revert i. induction l as [|y l IH]; intros [|i]; cbn; congruence. Qed.
  Lemma nth_lset_same i x l : i < length l -> nth_error (lset i x l) i = Some x.
  Proof. revert i. induction l as [|y l IH]; intros [|i] H; cbn in *; try lia; [reflexivity|]. apply IH. lia. Qed.
  Lemma nth_lset_other i j x l : i <> j -> nth_error (lset i x l) j = nth_error l j.
  Proof. revert i j. induction l as [|y l IH]; intros [|i] [|j] H; cbn; try reflexivity; try congruence. apply IH. congruence. Qed.
  Lemma lset_self i x l : nth_error l i = Some x -> lset i x l = l.
  Proof. revert i. induction l as [|y l IH]; intros [|i] H; cbn in *; try congruence. f_equal. auto. Qed.
  Lemma nth_some_lt i x l : nth_error l i = Some x -> i < length l.
  Proof. intros H. apply nth_error_Some. congruence. Qed.
  Lemma lset_lset i x y l : lset i x (lset i y l) = lset i x l.
  Proof. revert i. induction l as [|z l IH]; intros [|i]; cbn; try reflexivity. f_equal. auto. Qed.
  Lemma nth_app_last x l : nth_error (l ++ [x]) (length l) = Some x.
  Proof. rewrite nth_error_app2, Nat.sub_diag by lia. reflexivity. Qed.
  Lemma lset_app_l i x y l : i < length l -> lset i x (l ++ [y]) = lset i x l ++ [y].
  Proof. revert i. induction l as [|z l IH]; intros [|i] H; cbn in *; try lia; [reflexivity|]. f_equal. apply IH. lia. Qed.
  Lemma lset_app_last x y l : lset (length l) x (l ++ [y]) = l ++ [x].
  Proof. induction l as [|z l IH]; cbn; congruence. Qed.
End Lists.

Section SystemFacts.
  Variable K : scalar.
  Local Open Scope nat_scope.
  Notation arr := (arr K).
  Notation basis := (basis K).
  Notation world := (world K).
  Implicit Types (w : world) (b : basis) (x : system) (h u : arr).

  Lemma wbind_ok {A B} (m : WM K A) (f : A -> WM K B) w a w' : m w = (Ok a, w') -> bind m f w = f a w'.
  Proof. intros H. unfold bind. rewrite H. reflexivity. Qed.
  Lemma wbind_err {A B} (m : WM K A) (f : A -> WM K B) w e w' : m w = (Err e, w') -> bind m f w = (Err e, w').
  Proof. intros H. unfold bind. rewrite H. reflexivity. Qed.
  Lemma set_bs_self w : set_bs (w_bs w) w = w.
  Proof. destruct w. reflexivity. Qed.
  Lemma set_sy_self w : set_sy (w_sy w) w = w.
  Proof. destruct w. reflexivity. Qed.
  Lemma on_basis_run {A} i (m : BM K A) w b r b' : nth_error (w_bs w) i = Some b -> m b = (r, b') ->
    on_basis i m w = (r, set_bs (lset i b' (w_bs w)) w).
  Proof. intros H E. unfold on_basis. rewrite H, E. reflexivity. Qed.
  Lemma on_basis_pure {A} i (m : BM K A) w b r : nth_error (w_bs w) i = Some b -> m b = (r, b) ->
    on_basis i m w = (r, w).
  Proof. intros H E. rewrite (on_basis_run i m w b r b H E), (lset_self i b _ H), set_bs_self. reflexivity. Qed.
  Lemma get_sys_ok s w x : nth_error (w_sy w) s = Some x -> get_sys s w = (Ok x, w).
  Proof. intros H. unfold get_sys. rewrite H. reflexivity. Qed.
  Lemma sys_get_ok s f w x b : nth_error (w_sy w) s = Some x -> nth_error (w_bs w) (sy_bs x) = Some b ->
    sys_get s f w = (Ok (b_arr b f), w).
  Proof.
    intros H1 H2. unfold sys_get. rewrite (wbind_ok _ _ _ _ _ (get_sys_ok s w x H1)).
    exact (on_basis_pure _ _ _ _ _ H2 eq_refl).
  Qed.

  (** A system with [N] occupied orbitals on a ready basis of [l] functions. *)
  Record sys_at (w : world) (s : nat) (k : kind) (N l : nat) (x : system) (b : basis) : Prop := SysAt {
    at_sys : nth_error (w_sy w) s = Some x;
    at_bs : nth_error (w_bs w) (sy_bs x) = Some b;
    at_kind : sy_kind x = k;
    at_np : exists m, sy_np x = Some m;
    at_n : sy_n x = Z.of_nat N;
    at_o : sy_o x = PySlice 0 (Z.of_nat N);
    at_le : N <= l;
    at_ready : ready b l
  }.

  Lemma reference_energy_ok w s k N l x b h u : sys_at w s k N l x b ->
    b_arr b F_h = Some h -> b_arr b F_u = Some u -> shape h = [l; l] -> shape u = [l; l; l; l] ->
    reference_energy s w
      = (Ok (match k with General => E_general N (mat h) (ten u) | Spatial => E_restricted N (mat h) (ten u) end), w).
  Proof.
    intros [H1 H2 Hk (m & Hnp) Hn Ho Hle R] Hh Hu Sh Su. unfold reference_energy.
    rewrite (wbind_ok _ _ _ _ _ (get_sys_ok s w x H1)).
    rewrite (wbind_ok _ _ _ _ _ (sys_get_ok s F_h w x b H1 H2)).
    rewrite (wbind_ok _ _ _ _ _ (sys_get_ok s F_u w x b H1 H2)).
    rewrite Hnp, Hh, Hu, Hk, Ho. cbn [need_np_w need_arr]. unfold bind, ret, lift.
    change (PySlice 0 (Z.of_nat N)) with (occ N). destruct k.
    - rewrite (energy_general_ok K N h u l Sh Su Hle). reflexivity.
    - rewrite (energy_spatial_ok K N h u l Sh Su Hle). reflexivity.
  Qed.
  Lemma fock_matrix_ok w s k N l x b h u f : sys_at w s k N l x b ->
    shape h = [l; l] -> shape u = [l; l; l; l] -> buffer_ok f h u ->
    exists r, fock_matrix s h u f w = (Ok r, w) /\ shape r = [l; l] /\
      forall p q, p < l -> q < l -> mat r p q
        = match k with General => F_general N (mat h) (ten u) p q | Spatial => F_restricted N (mat h) (ten u) p q end.
  Proof.
    intros [H1 H2 Hk (m & Hnp) Hn Ho Hle R] Sh Su Hb. unfold fock_matrix.
    rewrite (wbind_ok _ _ _ _ _ (get_sys_ok s w x H1)), Hnp, Hk, Ho. cbn [need_np_w]. unfold bind, ret, lift.
    destruct k.
    - destruct (fock_general_ok K N h u f l Sh Su Hle Hb) as (r & E & Sr & G). exists r.
      change (PySlice 0 (Z.of_nat N)) with (occ N). rewrite E. auto.
    - destruct (fock_spatial_ok K N h u f l Sh Su Hle Hb) as (r & E & Sr & G). exists r.
      change (PySlice 0 (Z.of_nat N)) with (occ N). rewrite E. auto.
  Qed.

  (** QuantumSystem.__init__ *)
  Lemma system_init_ok k (n : Z) i w b : nth_error (w_bs w) i = Some b -> (n <= Z.of_nat (b_l b))%Z ->
    system_init k n i w
      = (Ok (length (w_sy w)),
         set_sy (w_sy w ++ [System k i (b_np b) n (Z.of_nat (b_l b)) (Z.of_nat (b_l b) - n)
                              (PySlice 0 n) (PySlice n (Z.of_nat (b_l b))) None]) w).
  Proof.
    intros Hb Hn. unfold system_init. rewrite (wbind_ok _ _ _ _ _ (on_basis_pure i get_st w b _ Hb eq_refl)).
    rewrite (proj2 (Z.leb_le n _) Hn). reflexivity.
  Qed.
  Lemma system_init_rejects k (n : Z) i w b : nth_error (w_bs w) i = Some b -> (Z.of_nat (b_l b) < n)%Z ->
    system_init k n i w = (Err AssertionError, w).
  Proof.
    intros Hb Hn. unfold system_init. rewrite (wbind_ok _ _ _ _ _ (on_basis_pure i get_st w b _ Hb eq_refl)).
    rewrite (proj2 (Z.leb_gt n _) Hn). reflexivity.
  Qed.

  (** Reading the same apart from a cached default of bra_spf. *)
  Definition same_reading b b' : Prop :=
    b_cls b' = b_cls b /\ b_np b' = b_np b /\ b_l b' = b_l b /\ b_dim b' = b_dim b /\ b_nuc b' = b_nuc b /\
    b_spin b' = b_spin b /\ b_asym b' = b_asym b /\
    (forall f, f <> F_bra -> b_arr b' f = b_arr b f) /\ bra_view b' = bra_view b.
  Lemma change_module_same m b b0 : b_np b = Some m ->
    b0 = b \/ b0 = set_np None b ->
    exists b', change_module m b0 = (Ok tt, b') /\ same_reading b b'.
  Proof.
    intros Hnp H0. destruct (change_module_spec K m b0) as (b' & E & (M1&M2&M3&M4&M5&M6&M7) & A & V).
    exists b'. split; [exact E|]. unfold same_reading. cbn in *.
    destruct H0 as [-> | ->]; cbn in *; (repeat split; try congruence);
      first [intros f Hf; rewrite A by exact Hf; reflexivity | exact V].
  Qed.
  Lemma same_reading_ready b b' l : same_reading b b' -> ready b l -> ready b' l.
  Proof.
    intros (E1&E2&E3&E4&E5&E6&E7&A&V) [(m & Em) Hl (h & Hh & Sh) (u & Hu & Su) Rs Rd Rspf Rbra Rsp Rtb].
    assert (D : forall f, In f [F_spx; F_spy; F_spz; F_sp2] -> f <> F_bra).
    { intros f Hf. cbn in Hf. intros ->. destruct_or Hf; discriminate. }
    constructor.
    - exists m. congruence.
    - congruence.
    - exists h. rewrite A by discriminate. auto.
    - exists u. rewrite A by discriminate. auto.
    - intros a. rewrite A by discriminate. apply Rs.
    - intros a. rewrite A, E4 by discriminate. apply Rd.
    - intros a. rewrite A, E4 by discriminate. apply Rspf.
    - intros a Ha. rewrite E4. unfold bra_view in V. rewrite Ha in V.
      destruct (b_arr b F_bra) as [y|] eqn:Ey; [injection V as ->; apply Rbra; reflexivity|].
      destruct (b_arr b F_spf) as [y|] eqn:Ef; [|discriminate]. injection V as ->. cbn. apply Rspf. reflexivity.
    - intros f a Hf. rewrite A by auto. apply Rsp. exact Hf.
    - intros a. rewrite A, E6 by discriminate. apply Rtb.
  Qed.
  Lemma spin_doubled_reading l va vb anti s b b0 b' : same_reading b b0 ->
    (b_arr b F_spf = None -> b_arr b F_bra = None) ->
    spin_doubled l va vb anti s b0 b' -> spin_doubled l va vb anti s b b'.
  Proof.
    intros (E1&E2&E3&E4&E5&E6&E7&A&V) Hbra D.
    assert (B0 : b_arr b F_spf = None -> b_arr b0 F_bra = None).
    { intros H. unfold bra_view in V. rewrite (A F_spf), (Hbra H), H in V by discriminate.
      destruct (b_arr b0 F_bra); [discriminate | reflexivity]. }
    pose proof (sd_h D) as Dh. pose proof (sd_s D) as Ds. pose proof (sd_u D) as Du. pose proof (sd_dip D) as Dd.
    pose proof (sd_spf D) as Df. pose proof (sd_bra D) as Db. pose proof (sd_bra0 D) as Db0. pose proof (sd_grid D) as Dg.
    rewrite (A F_h) in Dh by discriminate. rewrite (A F_s) in Ds by discriminate.
    rewrite (A F_u) in Du by discriminate. rewrite (A F_dip), E4 in Dd by discriminate.
    rewrite (A F_spf) in Df by discriminate. rewrite (A F_spf), V in Db by discriminate.
    rewrite (A F_spf) in Db0 by discriminate. rewrite (A F_grid) in Dg by discriminate.
    destruct D; constructor; try assumption; try congruence.
    intros H. rewrite (Db0 H), (B0 H), (Hbra H). reflexivity.
  Qed.
End SystemFacts.
Arguments sys_at {K}. Arguments same_reading {K}.
