(** The library's energies, Fock matrices, spin operators and basis changes in
    second quantization (C88-C93). *)
From Coq Require Import List Arith ZArith Lia Bool Ring.
From Verif Require Import Scalar Py Numpy NumpyFacts Spec EnergySpec EnergyProofs TransformFacts BasisSet BasisSpec BasisFacts
  ChangeProofs ConvProofs SpinFacts DoubleFacts SpinProofs Systems EnergyFacts SystemFacts SystemProofs FockSpec FockProofs.
Import ListNotations.

Section FockSystem.
  Variable K : scalar.
  Local Open Scope K_scope.
  Add Ring Kring : (s_ring K).
  Notation arr := (arr K).
  Notation basis := (basis K).
  Notation state := (state K).
  Notation occ := (FockProofs.occ K).
  Implicit Types (h : nat -> nat -> K) (u : nat -> nat -> nat -> nat -> K).
  Local Infix "==" := (same K) (at level 70).

  (** * Energies *)
  Lemma quarter_two (x : K) : quarter * (x + x) = shalf * x.
  Proof. unfold quarter. transitivity (shalf * (shalf * (x + x))); [ring|]. rewrite half_double. reflexivity. Qed.
  Lemma energy_expectation l N h u : (N <= l)%nat -> antisym_ket l u ->
    E_general N h u = expect l (hamiltonian l quarter h u) (lowest N).
  Proof.
    intros H A. rewrite expect_lowest by exact H. unfold E_general. f_equal.
    rewrite <- quarter_two. f_equal. rewrite <- sumn_add. apply sumn_ext. intros i Hi.
    rewrite <- sumn_add. apply sumn_ext. intros j Hj. rewrite (A i j j i) by lia. ring.
  Qed.
  Lemma restricted_expectation l N h u : (N <= l)%nat ->
    E_restricted N h u = expect (2 * l) (hamiltonian (2 * l) shalf (dbl1 h) (dbl2 u)) (lowest (2 * N)).
  Proof.
    intros H. rewrite <- energy_doubled.
    rewrite (energy_expectation (2 * l)) by (first [lia | apply antisym_ket_exch]).
    unfold expect. apply ham_exch, det_proper.
  Qed.
  Lemma reference_is_expectation s (w : world K) k N l x (b : basis) (h u : arr) : sys_at w s k N l x b ->
    b_arr b F_h = Some h -> b_arr b F_u = Some u -> (k = General -> antisym_ket l (ten u)) ->
    reference_energy s w = (Ok (match k with
      | General => expect l (hamiltonian l quarter (mat h) (ten u)) (lowest N)
      | Spatial => expect (2 * l) (hamiltonian (2 * l) shalf (dbl1 (mat h)) (dbl2 (ten u))) (lowest (2 * N))
      end), w).
  Proof.
    intros A Hh Hu Ha. pose proof (at_le K _ _ _ _ _ _ _ A) as HN.
    destruct (r_h K b l (at_ready K _ _ _ _ _ _ _ A)) as (h0 & Hh0 & Sh).
    destruct (r_u K b l (at_ready K _ _ _ _ _ _ _ A)) as (u0 & Hu0 & Su).
    assert (h0 = h) by congruence. assert (u0 = u) by congruence. subst h0 u0.
    rewrite (reference_energy_ok K w s k N l x b h u A Hh Hu Sh Su). f_equal. f_equal. destruct k.
    - apply energy_expectation; [exact HN | apply Ha; reflexivity].
    - apply restricted_expectation. exact HN.
  Qed.
  Lemma energy_constructed s va vb (w : world K) N l x (b : basis) ov (h u : arr) : sys_at w s Spatial N l x b ->
    b_cls b = Base -> orthonormal_pair va vb -> b_spin b = false -> b_asym b = false -> b_arr b F_s = Some ov ->
    (b_arr b F_spf = None -> b_arr b F_bra = None) -> sy_op x = None ->
    b_arr b F_h = Some h -> b_arr b F_u = Some u ->
    exists w' g (h' u' : arr), construct_general s va vb true w = (Ok g, w') /\
      sys_get g F_h w' = (Ok (Some h'), w') /\ sys_get g F_u w' = (Ok (Some u'), w') /\
      (forall f : state, proper f -> forall o,
         hamiltonian (2 * l) quarter (mat h') (ten u') f o = hamiltonian (2 * l) shalf (dbl1 (mat h)) (dbl2 (ten u)) f o) /\
      reference_energy g w' = (Ok (expect (2 * l) (hamiltonian (2 * l) quarter (mat h') (ten u')) (lowest (2 * N))), w').
  Proof.
    intros A Hcls Hpair Hspin Has Hs Hbra0 Hop Hh Hu.
    destruct (construct_general_ok K s va vb true w N l x b ov A Hcls (orthonormal_accepted K _ _ Hpair) Hspin Hs Hbra0 Hop)
      as (w' & g & x' & b1 & bg & E & Ag & As & D & S1 & _).
    pose proof (sd_h D) as Dh. rewrite Hh in Dh. destruct (b_arr bg F_h) as [h'|] eqn:Eh'; [|destruct Dh].
    pose proof (sd_u D) as Du. rewrite Hu, Has in Du. destruct (b_arr bg F_u) as [u'|] eqn:Eu'; [|destruct Du].
    exists w', g, h', u'. split; [exact E|].
    split. { rewrite (sys_get_ok K g F_h w' x' bg (at_sys K _ _ _ _ _ _ _ Ag) (at_bs K _ _ _ _ _ _ _ Ag)), Eh'. reflexivity. }
    split. { rewrite (sys_get_ok K g F_u w' x' bg (at_sys K _ _ _ _ _ _ _ Ag) (at_bs K _ _ _ _ _ _ _ Ag)), Eu'. reflexivity. }
    split.
    - intros f Ef o. rewrite <- (ham_exch K (2 * l) (dbl1 (mat h)) (dbl2 (ten u)) f Ef o). unfold hamiltonian.
      rewrite (one_ext K (2 * l) (mat h') (dbl1 (mat h)) f ltac:(intros; apply (proj2 Dh)) o).
      rewrite (two_ext K (2 * l) (ten u') (exch (dbl2 (ten u))) f ltac:(intros; apply (proj2 Du); assumption) o). reflexivity.
    - apply (reference_is_expectation g w' General (2 * N) (2 * l) x' bg h' u' Ag Eh' Eu').
      intros _. apply (antisym_ket_ext K (2 * l) _ (exch (dbl2 (ten u)))); [|apply antisym_ket_exch].
      intros; apply (proj2 Du); assumption.
  Qed.

  (** * Fock matrices: ionization, attachment, single excitations *)
  Lemma fock_general_occ l N h u p q : (N <= l)%nat -> (p < l)%nat -> (q < l)%nat -> antisym_ket l u -> particle_sym l u ->
    h p q + quarter * sumn l (fun j => occ (lowest N) j * ((u p j q j - u p j j q) + (u j p j q - u j p q j)))
    = F_general N h u p q.
  Proof.
    intros H Hp Hq A P. unfold F_general. f_equal. rewrite sum_lowest by exact H.
    rewrite (sumn_ext K N _ (fun j => (u p j q j + u p j q j) + (u p j q j + u p j q j))).
    - rewrite !sumn_add. set (x := sumn N _). unfold quarter.
      transitivity (shalf * (shalf * (x + x) + shalf * (x + x))); [ring|]. rewrite !half_double. reflexivity.
    - intros j Hj. rewrite (P j p j q), (P j p q j) by lia. rewrite (A p j j q) by lia. ring.
  Qed.
  Lemma koopmans l N h u i y : (N <= l)%nat -> (i < l)%nat -> lowest N i = negb y -> antisym_ket l u -> particle_sym l u ->
    expect l (hamiltonian l quarter h u) (put i y (lowest N))
    = expect l (hamiltonian l quarter h u) (lowest N) + (if y then 1 else - (1)) * F_general N h u i i.
  Proof.
    intros H Hi Hc A P. rewrite expect_put by assumption. f_equal. f_equal.
    rewrite <- (fock_general_occ l) by assumption. reflexivity.
  Qed.
  Lemma brillouin l N h u i a : (N <= l)%nat -> (i < N)%nat -> (N <= a < l)%nat -> antisym_ket l u -> particle_sym l u ->
    create i (annihilate a (hamiltonian l quarter h u (determinant l (lowest N)))) (lowest N) = F_general N h u a i.
  Proof.
    intros H Hi Ha A P.
    assert (Ea : lowest N a = false) by (unfold lowest; apply Nat.ltb_ge; lia).
    assert (Ei : occ (lowest N) i = 1) by (unfold FockProofs.occ, lowest; destruct (Nat.ltb_spec i N); [reflexivity | lia]).
    pose proof (comp_linear K _ _ (create_linear K i) (annihilate_linear K a)) as L.
    assert (T : create i (annihilate a (hamiltonian l quarter h u (determinant l (lowest N)))) (lowest N)
      = create i (annihilate a (one_body l h (determinant l (lowest N)))) (lowest N)
        + quarter * create i (annihilate a (two_body l u (determinant l (lowest N)))) (lowest N)).
    { rewrite (lin_ext K _ L _ (fun o => sumn 2 (fun k => match k with O => one_body l h (determinant l (lowest N)) o
          | _ => quarter * two_body l u (determinant l (lowest N)) o end))) by (intros o; cbn; unfold hamiltonian; ring).
      rewrite (lin_sum K _ L 2 (fun k o => match k with O => one_body l h (determinant l (lowest N)) o
          | _ => quarter * two_body l u (determinant l (lowest N)) o end)). cbn [sumn].
      rewrite (lin_scal K _ L quarter (two_body l u (determinant l (lowest N)))).
      change (fun o => one_body l h (determinant l (lowest N)) o) with (one_body l h (determinant l (lowest N))). ring. }
    rewrite T, excite_one, excite_two by (first [lia | exact Ea]). rewrite Ei.
    rewrite <- (fock_general_occ l) by (first [lia | assumption]). ring.
  Qed.
  Lemma particle_sym_dbl2 l u : particle_sym l u -> particle_sym (2 * l) (dbl2 u).
  Proof.
    intros H p q r s Hp Hq Hr Hs. unfold dbl2. rewrite (andb_comm (same_parity q s)).
    destruct (_ && _); [|reflexivity]. apply H; apply div2_lt; assumption.
  Qed.
  Lemma fock_excitations s (w : world K) k N l x (b : basis) (h u : arr) f : sys_at w s k N l x b ->
    b_arr b F_h = Some h -> b_arr b F_u = Some u -> buffer_ok f h u -> particle_sym l (ten u) ->
    (k = General -> antisym_ket l (ten u)) ->
    exists e F, reference_energy s w = (Ok e, w) /\ fock_matrix s h u f w = (Ok F, w) /\
      match k with
      | General =>
          let H := hamiltonian l quarter (mat h) (ten u) in
          (forall i, (i < N)%nat -> expect l H (put i false (lowest N)) = e - mat F i i) /\
          (forall a, (N <= a < l)%nat -> expect l H (put a true (lowest N)) = e + mat F a a) /\
          (forall i a, (i < N)%nat -> (N <= a < l)%nat ->
             create i (annihilate a (H (determinant l (lowest N)))) (lowest N) = mat F a i)
      | Spatial =>
          let H := hamiltonian (2 * l) shalf (dbl1 (mat h)) (dbl2 (ten u)) in
          (forall I, (I < 2 * N)%nat -> expect (2 * l) H (put I false (lowest (2 * N))) = e - mat F (I / 2)%nat (I / 2)%nat) /\
          (forall A, (2 * N <= A < 2 * l)%nat -> expect (2 * l) H (put A true (lowest (2 * N))) = e + mat F (A / 2)%nat (A / 2)%nat) /\
          (forall I A, (I < 2 * N)%nat -> (2 * N <= A < 2 * l)%nat ->
             create I (annihilate A (H (determinant (2 * l) (lowest (2 * N))))) (lowest (2 * N)) = dbl1 (mat F) A I)
      end.
  Proof.
    intros A Hh Hu Hf HP HA. pose proof (at_le K _ _ _ _ _ _ _ A) as HN.
    destruct (r_h K b l (at_ready K _ _ _ _ _ _ _ A)) as (h0 & Hh0 & Sh).
    destruct (r_u K b l (at_ready K _ _ _ _ _ _ _ A)) as (u0 & Hu0 & Su).
    assert (h0 = h) by congruence. assert (u0 = u) by congruence. subst h0 u0.
    destruct (fock_matrix_ok K w s k N l x b h u f A Sh Su Hf) as (F & EF & SF & GF).
    rewrite (reference_is_expectation s w k N l x b h u A Hh Hu HA).
    eexists; exists F. split; [reflexivity|]. split; [exact EF|]. destruct k; cbv zeta.
    - specialize (HA eq_refl). split; [|split].
      + intros i Hi. rewrite koopmans by (first [lia | assumption | unfold lowest; apply Nat.ltb_lt; lia]).
        rewrite GF by lia. ring.
      + intros a Ha. rewrite koopmans by (first [lia | assumption | unfold lowest; apply Nat.ltb_ge; lia]).
        rewrite GF by lia. ring.
      + intros i a Hi Ha. rewrite brillouin by (first [lia | assumption]). rewrite GF by lia. reflexivity.
    - assert (X : forall c, expect (2 * l) (hamiltonian (2 * l) shalf (dbl1 (mat h)) (dbl2 (ten u))) c
        = expect (2 * l) (hamiltonian (2 * l) quarter (dbl1 (mat h)) (exch (dbl2 (ten u)))) c).
      { intros c. unfold expect. symmetry. apply ham_exch, det_proper. }
      pose proof (particle_sym_exch K (2 * l) _ (particle_sym_dbl2 l (ten u) HP)) as HP'.
      pose proof (antisym_ket_exch K (2 * l) (dbl2 (ten u))) as HA'.
      assert (Diag : forall P, (P < 2 * l)%nat -> F_general (2 * N) (dbl1 (mat h)) (exch (dbl2 (ten u))) P P = mat F (P / 2)%nat (P / 2)%nat).
      { intros P HPl. rewrite fock_doubled. unfold dbl1, same_parity. rewrite Bool.eqb_reflx.
        rewrite GF by (apply div2_lt; exact HPl). reflexivity. }
      split; [|split].
      + intros i Hi. rewrite !X. rewrite koopmans by (first [lia | assumption | unfold lowest; apply Nat.ltb_lt; lia]).
        rewrite Diag by lia. ring.
      + intros a Ha. rewrite !X. rewrite koopmans by (first [lia | assumption | unfold lowest; apply Nat.ltb_ge; lia]).
        rewrite Diag by lia. ring.
      + intros i a Hi Ha.
        assert (Y : create i (annihilate a (hamiltonian (2 * l) shalf (dbl1 (mat h)) (dbl2 (ten u)) (determinant (2 * l) (lowest (2 * N))))) (lowest (2 * N))
          = create i (annihilate a (hamiltonian (2 * l) quarter (dbl1 (mat h)) (exch (dbl2 (ten u))) (determinant (2 * l) (lowest (2 * N))))) (lowest (2 * N))).
        { apply create_ext, annihilate_ext. intros o. symmetry. apply ham_exch, det_proper. }
        rewrite Y. rewrite brillouin by (first [lia | assumption]).
        rewrite fock_doubled. unfold dbl1. destruct (same_parity a i); [|reflexivity].
        rewrite GF by (apply div2_lt; lia). reflexivity.
  Qed.

  (** * Spin *)
  Lemma div_mod_eq P Q : (P / 2 = Q / 2)%nat -> (P mod 2 = Q mod 2)%nat -> P = Q.
  Proof. intros H1 H2. rewrite (Nat.div_mod P 2), (Nat.div_mod Q 2) by lia. congruence. Qed.
  Lemma sum_kron_l l x m P (g : nat -> K) : (P < 2 * l)%nat ->
    sumn (2 * l) (fun T => x * kron2 K delta m P T * g T)
    = x * sumn 2 (fun t => m (P mod 2) t * g (2 * (P / 2) + t)%nat).
  Proof.
    intros HP. rewrite sumn_double. pose proof (div2_lt P l HP) as Hd.
    rewrite (sumn_pick K l (P / 2)).
    - unfold kron2, delta. rewrite div2_even, div2_odd, mod2_even, mod2_odd, Nat.eqb_refl.
      cbn [sumn]. rewrite !Nat.add_0_r. ring.
    - exact Hd.
    - intros k Hk Hne. unfold kron2, delta. rewrite div2_even, div2_odd.
      destruct (Nat.eqb_spec (P / 2) k); [congruence|]. ring.
  Qed.
  Lemma sum_kron_r l x m Q (g : nat -> K) : (Q < 2 * l)%nat ->
    sumn (2 * l) (fun T => g T * (x * kron2 K delta m T Q))
    = x * sumn 2 (fun t => g (2 * (Q / 2) + t)%nat * m t (Q mod 2)).
  Proof.
    intros HQ. rewrite sumn_double. pose proof (div2_lt Q l HQ) as Hd.
    rewrite (sumn_pick K l (Q / 2)).
    - unfold kron2, delta. rewrite div2_even, div2_odd, mod2_even, mod2_odd, Nat.eqb_refl.
      cbn [sumn]. rewrite !Nat.add_0_r. ring.
    - exact Hd.
    - intros k Hk Hne. unfold kron2, delta. rewrite div2_even, div2_odd.
      destruct (Nat.eqb_spec k (Q / 2)); [congruence|]. ring.
  Qed.
  Lemma split_index P t : (t < 2)%nat -> ((2 * (P / 2) + t) / 2 = P / 2)%nat /\ ((2 * (P / 2) + t) mod 2 = t)%nat.
  Proof.
    intros Ht. destruct t as [|[|t]]; [|  |lia].
    - rewrite Nat.add_0_r, div2_even, mod2_even. auto.
    - rewrite div2_odd, mod2_odd. auto.
  Qed.
  (** delta (x) m commutes with dbl1 h and acts trivially on dbl2 u. *)
  Lemma kron_dbl1 l x m h P Q : (P < 2 * l)%nat -> (Q < 2 * l)%nat ->
    mmul (2 * l) (fun P Q => x * kron2 K delta m P Q) (dbl1 h) P Q = mmul (2 * l) (dbl1 h) (fun P Q => x * kron2 K delta m P Q) P Q.
  Proof.
    intros HP HQ. unfold mmul. rewrite sum_kron_l, sum_kron_r by assumption. f_equal. cbn [sumn].
    unfold dbl1. rewrite !same_parity_mod2.
    rewrite !(proj1 (split_index _ _ (Nat.lt_succ_diag_r 1))), !(proj2 (split_index _ _ (Nat.lt_succ_diag_r 1))).
    rewrite !(proj1 (split_index _ _ Nat.lt_0_2)), !(proj2 (split_index _ _ Nat.lt_0_2)).
    destruct (mod2_cases P) as [E|E], (mod2_cases Q) as [F|F]; rewrite E, F; cbn [Nat.eqb]; ring.
  Qed.
  Lemma kron_dbl2 l x m u P Q R T : (P < 2 * l)%nat -> (Q < 2 * l)%nat -> (R < 2 * l)%nat -> (T < 2 * l)%nat ->
    act K (fun P Q => x * kron2 K delta m P Q) (dbl2 u) P Q R T (2 * l)
    = coact K (fun P Q => x * kron2 K delta m P Q) (dbl2 u) P Q R T (2 * l).
  Proof.
    intros HP HQ HR HT. unfold act, coact. rewrite !sum_kron_l, !sum_kron_r by assumption. cbn [sumn].
    unfold dbl2. rewrite !same_parity_mod2.
    rewrite !(proj1 (split_index _ _ (Nat.lt_succ_diag_r 1))), !(proj2 (split_index _ _ (Nat.lt_succ_diag_r 1))).
    rewrite !(proj1 (split_index _ _ Nat.lt_0_2)), !(proj2 (split_index _ _ Nat.lt_0_2)).
    destruct (mod2_cases P) as [E|E], (mod2_cases Q) as [F|F], (mod2_cases R) as [G|G], (mod2_cases T) as [J|J];
      rewrite E, F, G, J; cbn [Nat.eqb andb]; ring.
  Qed.
  Lemma act_ext l (A A' : nat -> nat -> K) u u' p q r s :
    (p < l)%nat -> (q < l)%nat -> (r < l)%nat -> (s < l)%nat ->
    (forall p q, (p < l)%nat -> (q < l)%nat -> A p q = A' p q) ->
    (forall p q r s, (p < l)%nat -> (q < l)%nat -> (r < l)%nat -> (s < l)%nat -> u p q r s = u' p q r s) ->
    act K A u p q r s l = act K A' u' p q r s l /\ coact K A u p q r s l = coact K A' u' p q r s l.
  Proof.
    intros Hp Hq Hr Hs HA Hu. unfold act, coact.
    split; f_equal; apply sumn_ext; intros t Ht; rewrite HA, Hu by assumption; reflexivity.
  Qed.
  Lemma act_exch l (A : nat -> nat -> K) u p q r s :
    act K A (exch u) p q r s l = act K A u p q r s l - act K A u p q s r l.
  Proof.
    unfold act, exch.
    rewrite (sumn_ext K l (fun t => A p t * (u t q r s - u t q s r)) (fun t => A p t * u t q r s - A p t * u t q s r)) by (intros; ring).
    rewrite (sumn_ext K l (fun t => A q t * (u p t r s - u p t s r)) (fun t => A q t * u p t r s - A q t * u p t s r)) by (intros; ring).
    rewrite !sumn_sub. ring.
  Qed.
  Lemma coact_exch l (A : nat -> nat -> K) u p q r s :
    coact K A (exch u) p q r s l = coact K A u p q r s l - coact K A u p q s r l.
  Proof.
    unfold coact, exch.
    rewrite (sumn_ext K l (fun t => (u p q t s - u p q s t) * A t r) (fun t => u p q t s * A t r - u p q s t * A t r)) by (intros; ring).
    rewrite (sumn_ext K l (fun t => (u p q r t - u p q t r) * A t s) (fun t => u p q r t * A t s - u p q t r * A t s)) by (intros; ring).
    rewrite !sumn_sub. ring.
  Qed.
  Lemma spin_commutes l x sg va vb (s : nat -> nat -> K) h u (anti : bool) (f : state) : proper f ->
    (forall p q, (p < l)%nat -> (q < l)%nat -> s p q = delta p q) ->
    let S := spin_matrix sg va vb s in
    let H := hamiltonian (2 * l) x (dbl1 h) (if anti then exch (dbl2 u) else dbl2 u) in
    forall o, one_body (2 * l) S (H f) o = H (one_body (2 * l) S f) o.
  Proof.
    intros Ef Hs S H o. unfold H.
    assert (HS : forall P Q, (P < 2 * l)%nat -> (Q < 2 * l)%nat -> S P Q = shalf * kron2 K delta (rot K va vb sg) P Q).
    { intros P Q HP HQ. unfold S. rewrite spin_matrix_kron2. f_equal. unfold kron2. rewrite Hs by (apply div2_lt; assumption). reflexivity. }
    apply symmetry_commutes; [exact Ef | |].
    - intros P Q HP HQ.
      transitivity (mmul (2 * l) (fun P Q => shalf * kron2 K delta (rot K va vb sg) P Q) (dbl1 h) P Q);
        [|rewrite kron_dbl1 by assumption]; unfold mmul; apply sumn_ext; intros t Ht; rewrite HS by assumption; reflexivity.
    - assert (Base : forall p q r t, (p < 2 * l)%nat -> (q < 2 * l)%nat -> (r < 2 * l)%nat -> (t < 2 * l)%nat ->
        act K S (dbl2 u) p q r t (2 * l) = coact K S (dbl2 u) p q r t (2 * l)).
      { intros p q r t Hp Hq Hr Ht.
        destruct (act_ext (2 * l) S _ (dbl2 u) (dbl2 u) p q r t Hp Hq Hr Ht HS ltac:(reflexivity)) as [E1 E2].
        rewrite E1, E2. apply kron_dbl2; assumption. }
      intros p q r t Hp Hq Hr Ht. destruct anti; [|apply Base; assumption].
      rewrite act_exch, coact_exch, !Base by assumption. reflexivity.
  Qed.

  (** S_x^2 + S_y^2 + S_z^2 from spin_2 and spin_2_tb. *)
  Definition spin_square (l : nat) (anti : bool) (s2 : nat -> nat -> K) (tb : nat -> nat -> nat -> nat -> K) (f : state) : state :=
    fun o => one_body l s2 f o + (if anti then shalf else 1) * two_body l tb f o.
  Lemma ham_ext l x h u h' u' f o :
    (forall p q, (p < l)%nat -> (q < l)%nat -> h p q = h' p q) ->
    (forall p q r s, (p < l)%nat -> (q < l)%nat -> (r < l)%nat -> (s < l)%nat -> u p q r s = u' p q r s) ->
    hamiltonian l x h u f o = hamiltonian l x h' u' f o.
  Proof. intros H1 H2. unfold hamiltonian. rewrite (one_ext K l _ _ f H1 o), (two_ext K l _ _ f H2 o). reflexivity. Qed.
  Lemma rot_traceless va vb sg : orthonormal_pair va vb -> sg 0%nat 0%nat + sg 1%nat 1%nat = 0 ->
    rot K va vb sg 0 0 + rot K va vb sg 1 1 = 0.
  Proof.
    intros ON Ht. pose proof (rot_trace K va vb ON sg) as T. cbn [sumn] in T.
    transitivity (0 + rot K va vb sg 0 0 + rot K va vb sg 1 1); [ring|]. rewrite T. etransitivity; [|exact Ht]. ring.
  Qed.
  Lemma spin_kills l va vb sg (s : nat -> nat -> K) c : orthonormal_pair va vb -> sg 0%nat 0%nat + sg 1%nat 1%nat = 0 ->
    (forall p q, (p < l)%nat -> (q < l)%nat -> s p q = delta p q) -> closed_shell c ->
    one_body (2 * l) (spin_matrix sg va vb s) (determinant (2 * l) c) == (fun _ => 0).
  Proof.
    intros ON Ht Hs Hc. apply closed_one; [exact Hc | |].
    - intros P Q HP HQ Hne. rewrite spin_matrix_kron2. unfold kron2. rewrite Hs by (apply div2_lt; assumption).
      unfold delta. destruct (Nat.eqb_spec (P / 2) (Q / 2)); [congruence | ring].
    - intros p Hp. rewrite !spin_matrix_kron2. unfold kron2. rewrite !div2_even, !div2_odd, !mod2_even, !mod2_odd.
      rewrite Hs by exact Hp. unfold delta. rewrite Nat.eqb_refl.
      transitivity (shalf * (rot K va vb sg 0 0 + rot K va vb sg 1 1)); [ring|]. rewrite rot_traceless by assumption. ring.
  Qed.
  Lemma pauli_traceless : pauli_x 0%nat 0%nat + pauli_x 1%nat 1%nat = (0 : K) /\ pauli_y 0%nat 0%nat + pauli_y 1%nat 1%nat = (0 : K)
    /\ pauli_z 0%nat 0%nat + pauli_z 1%nat 1%nat = (0 : K).
  Proof. cbn. repeat split; ring. Qed.
  Lemma dbl1_delta_id l (s : nat -> nat -> K) P Q : (forall p q, (p < l)%nat -> (q < l)%nat -> s p q = delta p q) ->
    (P < 2 * l)%nat -> (Q < 2 * l)%nat -> dbl1 s P Q = delta P Q.
  Proof.
    intros Hs HP HQ. rewrite dbl1_kron2. rewrite <- (delta_kron2 K l P Q HP HQ). unfold kron2.
    rewrite Hs by (apply div2_lt; assumption). reflexivity.
  Qed.

  Lemma fock_spin ab anti (b : basis) l (s : arr) :
    (b_cls b = SincDVR -> ab = None) ->
    let va := match ab with Some p => fst p | None => default_a K end in
    let vb := match ab with Some p => snd p | None => default_b K end in
    orthonormal_pair va vb -> ready b l -> b_spin b = false -> b_asym b = false -> b_arr b F_s = Some s ->
    (forall p q, (p < l)%nat -> (q < l)%nat -> mat s p q = delta p q) ->
    exists b' (h u sx sy sz s2 tb : arr), change_to_general ab anti b = (Ok true, b') /\
      b_arr b' F_h = Some h /\ b_arr b' F_u = Some u /\
      b_arr b' F_spx = Some sx /\ b_arr b' F_spy = Some sy /\ b_arr b' F_spz = Some sz /\
      b_arr b' F_sp2 = Some s2 /\ b_arr b' F_sp2tb = Some tb /\
      (* the two arrays make up the square of the total spin *)
      (forall f : state, proper f -> forall o,
         one_body (2 * l) (mat s2) f o + (if anti then shalf else 1) * two_body (2 * l) (ten tb) f o
         = one_body (2 * l) (mat sx) (one_body (2 * l) (mat sx) f) o
           + one_body (2 * l) (mat sy) (one_body (2 * l) (mat sy) f) o
           + one_body (2 * l) (mat sz) (one_body (2 * l) (mat sz) f) o) /\
      (* every closed shell has no spin at all *)
      (forall c, closed_shell c -> forall S, In S [sx; sy; sz] -> forall o,
         one_body (2 * l) (mat S) (determinant (2 * l) c) o = 0) /\
      (* the spin operators commute with the Hamiltonian *)
      (forall f : state, proper f -> forall S, In S [sx; sy; sz] -> forall x o,
         one_body (2 * l) (mat S) (hamiltonian (2 * l) x (mat h) (ten u) f) o
         = hamiltonian (2 * l) x (mat h) (ten u) (one_body (2 * l) (mat S) f) o).
  Proof.
    intros Hab va vb ON R Hsp Has Hs Hd.
    destruct (change_to_general_ok K ab anti b l s Hab (orthonormal_accepted K _ _ ON) R Hsp Hs) as (b' & E & D).
    fold va vb in D. rewrite Has, andb_true_r in D.
    destruct (r_h K b l R) as (h & Hh & Sh). destruct (r_u K b l R) as (u & Hu & Su).
    pose proof (sd_h D) as Dh. rewrite Hh in Dh. destruct (b_arr b' F_h) as [h'|] eqn:Eh'; [|destruct Dh].
    pose proof (sd_u D) as Du. rewrite Hu in Du. destruct (b_arr b' F_u) as [u'|] eqn:Eu'; [|destruct Du].
    destruct (sd_spx D) as (sx & Ex & _ & Gx). destruct (sd_spy D) as (sy & Ey & _ & Gy). destruct (sd_spz D) as (sz & Ez & _ & Gz).
    destruct (sd_sp2 D) as (s2 & E2 & _ & G2). destruct (sd_tb D) as (tb & Et & _ & Gt).
    exists b', h', u', sx, sy, sz, s2, tb. do 8 (split; [assumption|]).
    assert (G : forall S, In S [sx; sy; sz] -> exists sg, sg 0%nat 0%nat + sg 1%nat 1%nat = 0 /\
      forall P Q, mat S P Q = spin_matrix sg va vb (mat s) P Q).
    { destruct pauli_traceless as (Tx & Ty & Tz). intros S [<-|[<-|[<-|[]]]];
        [exists pauli_x; exact (conj Tx Gx) | exists pauli_y; exact (conj Ty Gy) | exists pauli_z; exact (conj Tz Gz)]. }
    split; [|split].
    - intros f Ef o.
      assert (Sq : forall S sg, (forall P Q, mat S P Q = spin_matrix sg va vb (mat s) P Q) ->
        one_body (2 * l) (mat S) (one_body (2 * l) (mat S) f) o
        = one_body (2 * l) (mmul (2 * l) (spin_matrix sg va vb (mat s)) (spin_matrix sg va vb (mat s))) f o
          + two_body (2 * l) (fun P Q R T => spin_matrix sg va vb (mat s) P R * spin_matrix sg va vb (mat s) Q T) f o).
      { intros S sg GS. rewrite (one_one K (2 * l) (mat S) (mat S) f Ef o). f_equal.
        - apply one_ext. intros P Q _ _. unfold mmul. apply sumn_ext. intros. rewrite !GS. reflexivity.
        - apply two_ext. intros. rewrite !GS. reflexivity. }
      rewrite (Sq sx pauli_x Gx), (Sq sy pauli_y Gy), (Sq sz pauli_z Gz).
      pose (W := fun P Q R T => spin_matrix pauli_x va vb (mat s) P R * spin_matrix pauli_x va vb (mat s) Q T
          + spin_matrix pauli_y va vb (mat s) P R * spin_matrix pauli_y va vb (mat s) Q T
          + spin_matrix pauli_z va vb (mat s) P R * spin_matrix pauli_z va vb (mat s) Q T).
      assert (Tw : (if anti then shalf else 1) * two_body (2 * l) (ten tb) f o = two_body (2 * l) W f o).
      { rewrite (two_ext K (2 * l) (ten tb) (if anti then exch W else W) f).
        - destruct anti; [|ring]. rewrite (two_exch K (2 * l) W f Ef o). apply half_double.
        - intros P Q R' T HP HQ HR HT. rewrite (Gt P Q R' T HP HQ HR HT). reflexivity. }
      rewrite Tw. unfold W.
      rewrite (two_add K (2 * l) (fun P Q R T => spin_matrix pauli_x va vb (mat s) P R * spin_matrix pauli_x va vb (mat s) Q T
          + spin_matrix pauli_y va vb (mat s) P R * spin_matrix pauli_y va vb (mat s) Q T) _ f o).
      rewrite (two_add K (2 * l) (fun P Q R T => spin_matrix pauli_x va vb (mat s) P R * spin_matrix pauli_x va vb (mat s) Q T) _ f o).
      assert (Ow : one_body (2 * l) (mat s2) f o
        = one_body (2 * l) (mmul (2 * l) (spin_matrix pauli_x va vb (mat s)) (spin_matrix pauli_x va vb (mat s))) f o
        + one_body (2 * l) (mmul (2 * l) (spin_matrix pauli_y va vb (mat s)) (spin_matrix pauli_y va vb (mat s))) f o
        + one_body (2 * l) (mmul (2 * l) (spin_matrix pauli_z va vb (mat s)) (spin_matrix pauli_z va vb (mat s))) f o).
      { rewrite <- (one_add K (2 * l) (mmul (2 * l) (spin_matrix pauli_x va vb (mat s)) (spin_matrix pauli_x va vb (mat s)))
          (mmul (2 * l) (spin_matrix pauli_y va vb (mat s)) (spin_matrix pauli_y va vb (mat s))) f o).
        rewrite <- (one_add K (2 * l) (fun p q => mmul (2 * l) (spin_matrix pauli_x va vb (mat s)) (spin_matrix pauli_x va vb (mat s)) p q
           + mmul (2 * l) (spin_matrix pauli_y va vb (mat s)) (spin_matrix pauli_y va vb (mat s)) p q)
          (mmul (2 * l) (spin_matrix pauli_z va vb (mat s)) (spin_matrix pauli_z va vb (mat s))) f o).
        apply one_ext. intros P Q HP HQ. rewrite (G2 P Q HP HQ). cbv beta zeta.
        assert (Id : forall sg, mmul (2 * l) (mmul (2 * l) (spin_matrix sg va vb (mat s)) (dbl1 (mat s))) (spin_matrix sg va vb (mat s)) P Q
          = mmul (2 * l) (spin_matrix sg va vb (mat s)) (spin_matrix sg va vb (mat s)) P Q).
        { intros sg. unfold mmul at 1 3. apply sumn_ext. intros T HT. f_equal. unfold mmul.
          rewrite (sumn_ext K (2 * l) _ (fun Z => spin_matrix sg va vb (mat s) P Z * delta T Z)).
          - apply sum_delta_r. exact HT.
          - intros Z HZ. rewrite (dbl1_delta_id l) by assumption. unfold delta. rewrite Nat.eqb_sym. reflexivity. }
        rewrite !Id. reflexivity. }
      rewrite Ow. ring.
    - intros c Hc S HS o. destruct (G S HS) as (sg & Ht & GS).
      rewrite (one_ext K (2 * l) (mat S) (spin_matrix sg va vb (mat s)) _ ltac:(intros; apply GS) o).
      apply (spin_kills l va vb sg (mat s) c ON Ht Hd Hc).
    - intros f Ef S HS x o. destruct (G S HS) as (sg & Ht & GS).
      assert (OS : forall g o, one_body (2 * l) (mat S) g o = one_body (2 * l) (spin_matrix sg va vb (mat s)) g o)
        by (intros g; apply one_ext; intros; apply GS).
      assert (HH : forall g o, hamiltonian (2 * l) x (mat h') (ten u') g o
        = hamiltonian (2 * l) x (dbl1 (mat h)) (if anti then exch (dbl2 (ten u)) else dbl2 (ten u)) g o).
      { intros g o'. apply ham_ext; intros; [apply (proj2 Dh) | apply (proj2 Du); assumption]. }
      rewrite OS, HH.
      rewrite (lin_ext K _ (one_body_linear K (2 * l) (spin_matrix sg va vb (mat s))) _ _ (HH f) o).
      rewrite (lin_ext K _ (hamiltonian_linear K (2 * l) x (dbl1 (mat h)) _) _ _ (OS f) o).
      apply (spin_commutes l x sg va vb (mat s) (mat h) (ten u) anti f Ef Hd o).
  Qed.

  (** * Change of basis *)
  Lemma pairing l k (C D : nat -> nat -> K) (y x : nat -> K) :
    (forall a b, (a < l)%nat -> (b < l)%nat -> mmul k C D a b = delta a b) ->
    sumn k (fun p => sumn l (fun a => D p a * y a) * sumn l (fun b => C b p * x b)) = sumn l (fun a => y a * x a).
  Proof.
    intros H.
    transitivity (sumn l (fun a => sumn l (fun b => (y a * x b) * mmul k C D b a))).
    - rewrite (sumn_ext K k _ (fun p => sumn l (fun a => sumn l (fun b => D p a * y a * (C b p * x b))))) by (intros; apply sumn_mul_sumn).
      rewrite sumn_swap. apply sumn_ext. intros a Ha. rewrite sumn_swap. apply sumn_ext. intros b Hb.
      unfold mmul. rewrite sumn_mul_l. apply sumn_ext. intros. ring.
    - apply sumn_ext. intros a Ha. rewrite (sumn_ext K l _ (fun b => (y a * x b) * delta a b)).
      + apply sum_delta_r. exact Ha.
      + intros b Hb. rewrite H by assumption. unfold delta. rewrite Nat.eqb_sym. reflexivity.
  Qed.
  Lemma pairing' l k (C D : nat -> nat -> K) (y x : nat -> K) :
    (forall a b, (a < l)%nat -> (b < l)%nat -> mmul k C D a b = delta a b) ->
    sumn k (fun p => sumn l (fun a => y a * C a p) * sumn l (fun b => D p b * x b)) = sumn l (fun a => y a * x a).
  Proof.
    intros H. rewrite (sumn_ext K k _ (fun p => sumn l (fun b => D p b * x b) * sumn l (fun a => C a p * y a))).
    - rewrite (pairing l k C D x y H). apply sumn_ext. intros. ring.
    - intros p Hp. rewrite (sumn_ext K l (fun a => y a * C a p) (fun a => C a p * y a)) by (intros; ring). ring.
  Qed.
  Lemma one_change l k (C D A : nat -> nat -> K) (x : nat -> nat -> K) :
    (forall a b, (a < l)%nat -> (b < l)%nat -> mmul k C D a b = delta a b) ->
    sumn k (fun p => sumn k (fun q => T1 l A C D p q * sumn l (fun a => C a p * sumn l (fun b => D q b * x a b))))
    = sumn l (fun a => sumn l (fun b => A a b * x a b)).
  Proof.
    intros H.
    transitivity (sumn k (fun q => sumn k (fun p => sumn l (fun a => D p a * sumn l (fun b => A a b * C b q))
        * sumn l (fun a => C a p * sumn l (fun b => D q b * x a b))))).
    - rewrite sumn_swap. apply sumn_ext. intros q Hq. apply sumn_ext. intros p Hp. f_equal. unfold T1.
      apply sumn_ext. intros a _. rewrite sumn_mul_l. apply sumn_ext. intros. ring.
    - rewrite (sumn_ext K k _ (fun q => sumn l (fun a => sumn l (fun b => A a b * C b q) * sumn l (fun b => D q b * x a b))))
        by (intros q Hq; apply (pairing l k C D _ _ H)).
      rewrite sumn_swap. apply sumn_ext. intros a Ha. apply (pairing' l k C D _ _ H).
  Qed.
  Lemma two_change l k (C D : nat -> nat -> K) (U x : nat -> nat -> nat -> nat -> K) :
    (forall a b, (a < l)%nat -> (b < l)%nat -> mmul k C D a b = delta a b) ->
    sumn k (fun p => sumn k (fun q => sumn k (fun r => sumn k (fun s => T2 l U C D p q r s *
       sumn l (fun a => C a p * sumn l (fun b => C b q * sumn l (fun d => D s d * sumn l (fun c => D r c * x a b c d))))))))
    = sumn l (fun a => sumn l (fun b => sumn l (fun c => sumn l (fun d => U a b c d * x a b c d)))).
  Proof.
    intros H.
    pose (Y3 := fun a b r s => sumn l (fun c => sumn l (fun d => U a b c d * C d s) * C c r)).
    pose (X2 := fun a b r s => sumn l (fun d => D s d * sumn l (fun c => D r c * x a b c d))).
    assert (ET : forall p q r s, T2 l U C D p q r s = sumn l (fun a => D p a * sumn l (fun b => D q b * Y3 a b r s))).
    { intros p q r s. unfold T2. apply sumn_ext; intros a _. rewrite sumn_mul_l. apply sumn_ext; intros b _.
      unfold Y3. rewrite !sumn_mul_l. apply sumn_ext; intros c _.
      transitivity (D p a * D q b * C c r * sumn l (fun d => U a b c d * C d s)); [|ring].
      rewrite sumn_mul_l. apply sumn_ext; intros d _. ring. }
    transitivity (sumn k (fun q => sumn k (fun r => sumn k (fun s => sumn l (fun a =>
       sumn l (fun b => D q b * Y3 a b r s) * sumn l (fun b => C b q * X2 a b r s)))))).
    { rewrite sumn_swap. apply sumn_ext; intros q _.
      rewrite sumn_swap. apply sumn_ext; intros r _.
      rewrite sumn_swap. apply sumn_ext; intros s _.
      rewrite <- (pairing l k C D (fun a => sumn l (fun b => D q b * Y3 a b r s)) (fun a => sumn l (fun b => C b q * X2 a b r s)) H).
      apply sumn_ext; intros p _. rewrite ET. reflexivity. }
    transitivity (sumn k (fun r => sumn k (fun s => sumn l (fun a => sumn l (fun b => Y3 a b r s * X2 a b r s))))).
    { rewrite sumn_swap. apply sumn_ext; intros r _. rewrite sumn_swap. apply sumn_ext; intros s _.
      rewrite sumn_swap. apply sumn_ext; intros a _. apply (pairing l k C D _ _ H). }
    transitivity (sumn l (fun a => sumn l (fun b => sumn k (fun s => sumn k (fun r => Y3 a b r s * X2 a b r s))))).
    { rewrite (sumn_ext K k _ (fun r => sumn l (fun a => sumn k (fun s => sumn l (fun b => Y3 a b r s * X2 a b r s))))) by (intros; apply sumn_swap).
      rewrite sumn_swap. apply sumn_ext; intros a _.
      rewrite (sumn_ext K k _ (fun r => sumn l (fun b => sumn k (fun s => Y3 a b r s * X2 a b r s)))) by (intros; apply sumn_swap).
      rewrite sumn_swap. apply sumn_ext; intros b _. apply sumn_swap. }
    apply sumn_ext; intros a _. apply sumn_ext; intros b _.
    transitivity (sumn k (fun s => sumn l (fun c => sumn l (fun d => U a b c d * C d s) * sumn l (fun d => D s d * x a b c d)))).
    { apply sumn_ext; intros s _.
      rewrite <- (pairing' l k C D (fun c => sumn l (fun d => U a b c d * C d s)) (fun c => sumn l (fun d => D s d * x a b c d)) H).
      apply sumn_ext; intros r _. unfold Y3, X2. f_equal.
      rewrite (sumn_ext K l _ (fun d => sumn l (fun c => D s d * (D r c * x a b c d)))) by (intros; apply sumn_mul_l).
      rewrite sumn_swap. apply sumn_ext; intros c _. rewrite sumn_mul_l. apply sumn_ext; intros d _. ring. }
    rewrite sumn_swap. apply sumn_ext; intros c _. apply (pairing' l k C D _ _ H).
  Qed.
  Lemma hamiltonian_change (b : basis) l k (C : arr) (Ct : option arr) (h u : arr) : ready b l ->
    shape C = [l; k] -> tilde_shape C Ct k l -> b_arr b F_h = Some h -> b_arr b F_u = Some u ->
    (forall p q, (p < l)%nat -> (q < l)%nat -> mmul k (mat C) (tilde C Ct) p q = delta p q) ->
    exists b' (h' u' : arr), change_basis C Ct b = (Ok tt, b') /\ b_arr b' F_h = Some h' /\ b_arr b' F_u = Some u' /\
      forall (f : state) o,
        one_body_in k (create_in l (mat C)) (annihilate_in l (tilde C Ct)) (mat h') f o = one_body l (mat h) f o /\
        two_body_in k (create_in l (mat C)) (annihilate_in l (tilde C Ct)) (ten u') f o = two_body l (ten u) f o.
  Proof.
    intros R HC HD Hh Hu H.
    destruct (default_tilde_spec K C Ct l k k HC HD) as [SD GD].
    destruct (change_basis_ok K l k C (default_tilde C Ct) HC SD b R) as (b' & E & B).
    rewrite <- (change_basis_default K C Ct b) in E.
    pose proof (bc_h B) as Bh. rewrite Hh in Bh. destruct (b_arr b' F_h) as [h'|] eqn:Eh'; [|destruct Bh].
    pose proof (bc_u B) as Bu. rewrite Hu in Bu. destruct (b_arr b' F_u) as [u'|] eqn:Eu'; [|destruct Bu].
    exists b', h', u'. split; [exact E|]. split; [exact Eh'|]. split; [exact Eu'|].
    intros f o. set (D := tilde C Ct) in *.
    assert (LD : forall q (g : state) o, annihilate_in l D q g o = sumn l (fun b => D q b * annihilate b g o)) by reflexivity.
    split.
    - unfold one_body_in, one_body. rewrite <- (one_change l k (mat C) D (mat h) (fun a b => create a (annihilate b f) o) H).
      apply sumn_ext; intros p Hp. apply sumn_ext; intros q Hq. f_equal.
      + rewrite (proj2 Bh p q Hp Hq). unfold T1. apply sumn_ext; intros a _. apply sumn_ext; intros d _. rewrite GD. reflexivity.
      + unfold create_in. apply sumn_ext; intros a _. f_equal. unfold annihilate_in.
        rewrite (create_sum K a l (fun d o => D q d * annihilate d f o) o). apply sumn_ext; intros d _. apply create_scal.
    - unfold two_body_in, two_body.
      rewrite <- (two_change l k (mat C) D (ten u) (fun a b c d => create a (create b (annihilate d (annihilate c f))) o) H).
      apply sumn_ext; intros p Hp. apply sumn_ext; intros q Hq. apply sumn_ext; intros r Hr. apply sumn_ext; intros s Hs. f_equal.
      + rewrite (proj2 Bu p q r s Hp Hq Hr Hs). unfold T2. apply sumn_ext; intros a _. apply sumn_ext; intros c _.
        apply sumn_ext; intros d _. apply sumn_ext; intros e _. rewrite !GD. reflexivity.
      + unfold create_in at 1. apply sumn_ext; intros a _. f_equal. unfold create_in.
        rewrite (create_sum K a l (fun d o => mat C d q * create d (annihilate_in l D s (annihilate_in l D r f)) o) o).
        apply sumn_ext; intros d _. rewrite (create_scal K a (mat C d q) _ o). f_equal.
        pose proof (comp_linear K _ _ (create_linear K a) (create_linear K d)) as L.
        etransitivity; [exact (lin_sum K _ L l (fun e o => D s e * annihilate e (annihilate_in l D r f) o) o)|].
        apply sumn_ext; intros e _. etransitivity; [exact (lin_scal K _ L (D s e) (annihilate e (annihilate_in l D r f)) o)|]. f_equal.
        pose proof (comp_linear K _ _ L (annihilate_linear K e)) as L'.
        etransitivity; [exact (lin_sum K _ L' l (fun c o => D r c * annihilate c f o) o)|].
        apply sumn_ext; intros c _. apply (lin_scal K _ L' (D r c) (annihilate c f) o).
  Qed.
End FockSystem.
