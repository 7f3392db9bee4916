(** The PySCF constructors. *)
From Coq Require Import List Arith ZArith Lia Bool.
From Verif Require Import Scalar Py Numpy Spec NumpyFacts TransformFacts BasisSet BasisSpec BasisFacts ChangeProofs ConvProofs SpinFacts
  DoubleFacts Systems SystemFacts SystemProofs Molecule MoleculeSpec.
Import ListNotations.

Section MoleculeProofs.
  Variable K : scalar.
  Add Ring Kring : (s_ring K).
  Variables (npm : nat) (mol : molecule K) (k : nat).
  Hypothesis Hin : integrals mol k.
  Notation l := (m_l mol).

  Lemma transpose_middle (a : arr K) n m o t : shape a = [n; m; o; t] ->
    exists c, transpose [0; 2; 1; 3]%nat a = Ok c /\ shape c = [n; o; m; t] /\ forall p q r s, ten c p q r s = ten a p r q s.
  Proof.
    destruct a as [sa da ga]; cbn [shape]; intros ->. eexists. unfold transpose, ndim; cbn.
    split; [reflexivity|]. cbn. split; reflexivity.
  Qed.
  Lemma fill_ok : exists u b, transpose [0; 2; 1; 3]%nat (m_eri mol) = Ok u /\
    pyscf_fill npm mol u (new_basis K Base npm l 3 false false) = (Ok tt, b) /\ atomic mol b /\ b_np b = Some npm.
  Proof.
    destruct Hin as [I1 I2 I3 I4 _]. destruct (transpose_middle _ _ _ _ _ I3) as (u & Eu & Su & Gu).
    exists u. unfold pyscf_fill.
    erewrite bind_ok; [|apply set_sq_ok; apply check_axes2; exact I1].
    erewrite bind_ok; [|apply set_sq_ok; apply check_axes2; exact I2].
    erewrite bind_ok; [|apply set_sq_ok; apply check_axes4; exact Su].
    erewrite bind_ok; [|reflexivity].
    erewrite bind_ok; [|apply set_dipole_ok; exact I4].
    match goal with |- context [change_module npm ?b0] => destruct (change_module_spec K npm b0) as (b & E & (M1&M2&M3&M4&M5&M6&M7) & A & V) end.
    exists b. split; [exact Eu|]. split; [exact E|]. split; [|exact M2].
    assert (Vb : b_arr b F_bra = None).
    { unfold bra_view in V. rewrite (A F_spf) in V by discriminate. cbn in V. destruct (b_arr b F_bra); [discriminate V | reflexivity]. }
    constructor; try assumption.
    - rewrite A by discriminate. reflexivity.
    - rewrite A by discriminate. reflexivity.
    - rewrite A by discriminate. reflexivity.
    - exists u. rewrite A by discriminate. split; [reflexivity|]. split; [exact Su|exact Gu].
    - intros f Hf. destruct f; try exact Vb; try (rewrite A by discriminate; reflexivity); exfalso; apply Hf; cbn; tauto.
  Qed.
  Lemma atomic_ready b : atomic mol b -> b_np b = Some npm -> ready b l.
  Proof.
    intros [A1 A2 A3 A4 A5 A6 A7 A8 A9 (u & Eu & Su & _) A11] Hn. destruct Hin as [I1 I2 I3 I4 _].
    constructor; eauto.
    - intros a. rewrite A8. intros E. injection E as <-. exact I2.
    - intros a. rewrite A9, A3. intros E. injection E as <-. split; [exact I4|lia].
    - intros a. rewrite A11; [discriminate | notin].
    - intros a. rewrite A11; [discriminate | notin].
    - intros f a Hf. rewrite A11; [discriminate | cbn in Hf; destruct_or Hf; subst f; notin].
    - intros a. rewrite A11; [discriminate | notin].
  Qed.
  (** Allocating and filling *)
  Lemma pyscf_basis_ok w : exists b, pyscf_basis npm mol w = (Ok (length (w_bs w)), set_bs (w_bs w ++ [b]) w) /\
    atomic mol b /\ b_np b = Some npm.
  Proof.
    destruct fill_ok as (u & b & Eu & Ef & Ha & Hn). exists b. split; [|split; assumption].
    unfold pyscf_basis. rewrite Eu. rewrite (wbind_ok K (lift (Ok u)) _ w u w eq_refl).
    rewrite (wbind_ok K (alloc_basis _) _ w _ _ eq_refl).
    set (w1 := set_bs (w_bs w ++ [new_basis K Base npm l 3 false false]) w).
    rewrite (wbind_ok K _ _ w1 _ _ (on_basis_run K (length (w_bs w)) _ w1 (new_basis K Base npm l 3 false false) _ _ ltac:(apply nth_app_last) Ef)).
    unfold ret. f_equal. unfold w1. cbn. rewrite lset_app_last. reflexivity.
  Qed.
  Variable N : nat.
  Lemma spatial_init_ok (w : world K) i b : nth_error (w_bs w) i = Some b -> b_spin b = false -> (N <= b_l b)%nat ->
    spatial_init (Z.of_nat (2 * N)) i w = (Ok (length (w_sy w)), set_sy (w_sy w ++ [new_system Spatial i (b_np b) (Z.of_nat N) (b_l b)]) w).
  Proof.
    intros Hi Hs Hl. unfold spatial_init.
    replace (Z.of_nat (2 * N) mod 2 =? 0)%Z with true by (symmetry; apply Z.eqb_eq; rewrite Nat2Z.inj_mul, Z.mul_comm; apply Z.mod_mul; discriminate).
    unfold bind at 1. cbn [py_assert ret].
    rewrite (wbind_ok K _ _ _ _ _ (on_basis_pure K i get_st w b _ Hi eq_refl)), Hs.
    unfold bind at 1. cbn [py_assert negb ret].
    replace (Z.of_nat (2 * N) / 2)%Z with (Z.of_nat N) by (rewrite Nat2Z.inj_mul, Z.mul_comm; symmetry; apply Z.div_mul; discriminate).
    rewrite (system_init_ok K Spatial (Z.of_nat N) i w b Hi) by lia. reflexivity.
  Qed.
  Lemma spatial_init_odd (n : nat) (w : world K) i : (n mod 2 <> 0)%nat -> spatial_init (Z.of_nat n) i w = (Err AssertionError, w).
  Proof.
    intros Hn. unfold spatial_init.
    replace (Z.of_nat n mod 2 =? 0)%Z with false; [reflexivity|]. symmetry. apply Z.eqb_neq.
    change 2%Z with (Z.of_nat 2). rewrite <- Nat2Z.inj_mod. lia.
  Qed.
  Lemma spatial_init_many (w : world K) i b : nth_error (w_bs w) i = Some b -> b_spin b = false -> (b_l b < N)%nat ->
    spatial_init (Z.of_nat (2 * N)) i w = (Err AssertionError, w).
  Proof.
    intros Hi Hs Hl. unfold spatial_init.
    replace (Z.of_nat (2 * N) mod 2 =? 0)%Z with true by (symmetry; apply Z.eqb_eq; rewrite Nat2Z.inj_mul, Z.mul_comm; apply Z.mod_mul; discriminate).
    unfold bind at 1. cbn [py_assert ret].
    rewrite (wbind_ok K _ _ _ _ _ (on_basis_pure K i get_st w b _ Hi eq_refl)), Hs.
    unfold bind at 1. cbn [py_assert negb ret].
    replace (Z.of_nat (2 * N) / 2)%Z with (Z.of_nat N) by (rewrite Nat2Z.inj_mul, Z.mul_comm; symmetry; apply Z.div_mul; discriminate).
    apply (system_init_rejects K Spatial (Z.of_nat N) i w b Hi). lia.
  Qed.

  Section Even.
    Hypothesis Hn : m_n mol = (2 * N)%nat.
    Lemma ao_spatial w : (N <= l)%nat -> exists b x w',
      bind (pyscf_basis npm mol) (fun i => spatial_init (Z.of_nat (m_n mol)) i) w = (Ok (length (w_sy w)), w') /\
      w' = World (w_bs w ++ [b]) (w_sy w ++ [x]) (w_op w) /\ x = new_system Spatial (length (w_bs w)) (Some npm) (Z.of_nat N) l /\
      sys_at w' (length (w_sy w)) Spatial N l x b /\ atomic mol b.
    Proof.
      intros HN. destruct (pyscf_basis_ok w) as (b & E & Ha & Hnp).
      exists b, (new_system Spatial (length (w_bs w)) (Some npm) (Z.of_nat N) l). eexists. split; [|split; [reflexivity|split; [reflexivity|split; [|exact Ha]]]].
      - rewrite (wbind_ok K _ _ _ _ _ E), Hn. rewrite (spatial_init_ok _ _ b).
        + rewrite Hnp, (at_l K mol b Ha). reflexivity.
        + apply nth_app_last.
        + apply Ha.
        + rewrite (at_l K mol b Ha). exact HN.
      - constructor; cbn; try reflexivity; try exact HN; eauto.
        + apply nth_app_last.
        + apply nth_app_last.
        + apply atomic_ready; assumption.
    Qed.
    Lemma no_orbitals b : atomic mol b -> b_arr b F_spf = None -> b_arr b F_bra = None.
    Proof. intros Ha _. apply (at_rest K mol b Ha). notin. Qed.
    Lemma default_pair : accepted K (default_a K) (default_b K).
    Proof. apply default_accepted. Qed.

    Lemma bind_assoc {A B D} (m : WM K A) (f : A -> WM K B) (g : B -> WM K D) w : bind m (fun x => bind (f x) g) w = bind (bind m f) g w.
    Proof. unfold bind. destruct (m w) as [[a|e] w1]; reflexivity. Qed.

    Lemma ao_ok (anti : bool) w : (N <= l)%nat -> exists b,
      atomic mol b /\
      (exists s w' x, pyscf_ao npm mol false anti w = (Ok s, w') /\ sys_at w' s Spatial N l x b /\ sy_l x = Z.of_nat l) /\
      (exists g w' x bg, pyscf_ao npm mol true anti w = (Ok g, w') /\ sys_at w' g General (2 * N) (2 * l) x bg /\ sy_l x = Z.of_nat (2 * l) /\
        spin_doubled l (default_a K) (default_b K) anti (m_s mol) b bg).
    Proof.
      intros HN. destruct (ao_spatial w HN) as (b & x & w1 & E & Ew & Ex & A & Ha). exists b. split; [exact Ha|]. split.
      - exists (length (w_sy w)), w1, x. split; [|split; [exact A|rewrite Ex; reflexivity]]. unfold pyscf_ao. rewrite (bind_assoc (pyscf_basis npm mol)).
        rewrite (wbind_ok K _ _ _ _ _ E). reflexivity.
      - destruct (construct_general_ok K (length (w_sy w)) (default_a K) (default_b K) anti w1 N l x b (m_s mol) A) as (w' & g & x' & b1 & bg & E' & Ag & _ & D & _ & _ & _ & Ex').
        + apply Ha.
        + apply default_pair.
        + apply Ha.
        + apply Ha.
        + apply no_orbitals. exact Ha.
        + rewrite Ex. reflexivity.
        + exists g, w', x', bg. split; [|split; [exact Ag|split; [rewrite Ex'; reflexivity|]]].
          * unfold pyscf_ao. rewrite (bind_assoc (pyscf_basis npm mol)). rewrite (wbind_ok K _ _ _ _ _ E). exact E'.
          * rewrite (at_asym K mol b Ha), andb_true_r in D. exact D.
    Qed.
    Lemma changed_overlap b b' : atomic mol b -> orthonormal_orbitals mol k ->
      basis_changed l k (m_mo mol) (default_tilde (m_mo mol) None) b b' ->
      exists s', b_arr b' F_s = Some s' /\ shape s' = [k; k] /\ forall p q, (p < k)%nat -> (q < k)%nat -> mat s' p q = delta p q.
    Proof.
      intros Ha Ho B. pose proof (bc_s B) as Bs. rewrite (at_s K mol b Ha) in Bs.
      destruct (b_arr b' F_s) as [s'|]; [|destruct Bs]. destruct Bs as [S1 G1]. exists s'. split; [reflexivity|]. split; [exact S1|].
      intros p q Hp Hq. rewrite G1 by assumption. rewrite <- (Ho p q Hp Hq).
      destruct (default_tilde_spec K (m_mo mol) None l k k (in_mo K mol k Hin) (in_mo K mol k Hin)) as [_ GD].
      apply T1_ext; auto.
    Qed.
    Lemma rhf_ok (anti : bool) w : (N <= l)%nat -> (N <= k)%nat -> exists b b',
      atomic mol b /\ basis_changed l k (m_mo mol) (default_tilde (m_mo mol) None) b b' /\ b_arr b' F_bra = None /\
      (exists s w' x, pyscf_rhf npm mol false anti w = (Ok s, w') /\ sys_at w' s Spatial N k x b' /\ sy_l x = Z.of_nat k) /\
      (exists g w' x bg s', b_arr b' F_s = Some s' /\ pyscf_rhf npm mol true anti w = (Ok g, w') /\ sys_at w' g General (2 * N) (2 * k) x bg /\
        sy_l x = Z.of_nat (2 * k) /\ spin_doubled k (default_a K) (default_b K) anti s' b' bg).
    Proof.
      intros HN HK. destruct (ao_spatial w HN) as (b & x & w1 & E & Ew & Ex & A & Ha).
      set (s := length (w_sy w)) in *. pose proof (in_mo K mol k Hin) as Smo.
      destruct (sys_change_basis_ok K s w1 Spatial N l x b (m_mo mol) None k A Smo Smo) as (b' & B & Ec & _). specialize (Ec HK).
      set (w2 := World _ _ _) in Ec. set (x2 := sized x (Z.of_nat N) (Z.of_nat k)) in *.
      assert (Hsp : spin_mats_ok b l k).
      { right. intros f Hf. apply (at_rest K mol b Ha). cbn in Hf. destruct_or Hf; subst f; notin. }
      pose proof (change_basis_sys_at K s w1 Spatial N l x b b' (m_mo mol) None k A B Hsp (no_orbitals b Ha) HK) as A2.
      fold x2 in A2. fold w2 in A2.
      exists b, b'. split; [exact Ha|]. split; [exact B|].
      assert (Bb : b_arr b' F_bra = None).
      { rewrite (bc_bra0 B) by (apply (at_rest K mol b Ha); notin). apply (at_rest K mol b Ha). notin. }
      split; [exact Bb|].
      assert (Hev : (m_n mol mod 2 =? 0)%nat = true) by (rewrite Hn, Nat.mul_comm, Nat.mod_mul by discriminate; reflexivity).
      assert (Hrun : forall sp, pyscf_rhf npm mol sp anti w = pyscf_return s sp anti w2).
      { intros sp. unfold pyscf_rhf. rewrite Hev. unfold bind at 1. cbn [py_assert ret]. rewrite (bind_assoc (pyscf_basis npm mol)).
        rewrite (wbind_ok K _ _ _ _ _ E). rewrite (wbind_ok K _ _ _ _ _ Ec). reflexivity. }
      split.
      - exists s, w2, x2. split; [rewrite Hrun; reflexivity|]. split; [exact A2|reflexivity].
      - pose proof (bc_s B) as Bs. rewrite (at_s K mol b Ha) in Bs. destruct (b_arr b' F_s) as [s'|] eqn:Es'; [|destruct Bs].
        destruct (construct_general_ok K s (default_a K) (default_b K) anti w2 N k x2 b' s' A2) as (w' & g & x' & b1 & bg & E' & Ag & _ & D & _ & _ & _ & Ex').
        + rewrite (bc_cls B). apply Ha.
        + apply default_pair.
        + rewrite (bc_spin B). apply Ha.
        + exact Es'.
        + intros _. exact Bb.
        + unfold x2, sized. rewrite Ex. reflexivity.
        + exists g, w', x', bg, s'. split; [reflexivity|]. split; [rewrite Hrun; exact E'|]. split; [exact Ag|]. split; [rewrite Ex'; reflexivity|].
          rewrite (bc_asym B), (at_asym K mol b Ha), andb_true_r in D. exact D.
    Qed.
  End Even.
  Lemma odd_rejected (anti add_spin : bool) w : (m_n mol mod 2 <> 0)%nat ->
    (exists w', pyscf_ao npm mol add_spin anti w = (Err AssertionError, w') /\ w_sy w' = w_sy w) /\
    pyscf_rhf npm mol add_spin anti w = (Err AssertionError, w).
  Proof.
    intros Ho. split.
    - destruct (pyscf_basis_ok w) as (b & E & _). eexists. split.
      + unfold pyscf_ao. rewrite (wbind_ok K _ _ _ _ _ E). rewrite (wbind_err K _ _ _ _ _ (spatial_init_odd _ _ _ Ho)). reflexivity.
      + reflexivity.
    - unfold pyscf_rhf. destruct (Nat.eqb_spec (m_n mol mod 2) 0) as [H|H]; [contradiction|]. reflexivity.
  Qed.
  (** Symmetries of the stored two-body elements *)
  Lemma atomic_symmetries b u : atomic mol b -> repulsion l (ten (m_eri mol)) -> b_arr b F_u = Some u ->
    particle_sym l (ten u) /\ hermitian2 l (ten u).
  Proof.
    intros Ha Hr Eu. destruct (at_u K mol b Ha) as (u0 & Eu0 & _ & G). rewrite Eu in Eu0. injection Eu0 as <-.
    split; intros p q r s Hp Hq Hr' Hs; rewrite !G.
    - apply Hr; assumption.
    - destruct (Hr r p s q) as (H1 & H2 & H3); try assumption. rewrite H3.
      destruct (Hr p r q s) as (K1 & K2 & _); try assumption. destruct (Hr q s r p) as (L1 & L2 & _); try assumption.
      rewrite K2, (proj1 (Hr r p q s Hr' Hp Hq Hs)), L2, <- H1. reflexivity.
  Qed.
End MoleculeProofs.
