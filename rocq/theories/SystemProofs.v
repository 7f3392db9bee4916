(** Construction of general-orbital systems and conversion of spatial ones;
    energies and Fock matrices in both representations (C20-C25, C29). *)
From Coq Require Import List Arith ZArith Lia Bool.
From Verif Require Import Scalar Py Numpy Spec NumpyFacts BasisSet BasisSpec BasisFacts ChangeProofs ConvProofs SpinFacts
  DoubleFacts Systems EnergySpec EnergyFacts EnergyProofs SystemFacts.
Import ListNotations.

Section SystemProofs.
  Variable K : scalar.
  Add Ring Kring : (s_ring K).
  Local Open Scope nat_scope.
  Notation arr := (arr K).
  Notation basis := (basis K).
  Notation world := (world K).
  Implicit Types (w : world) (b : basis) (x : system) (h u : arr).

  Lemma copy_basis_ok i w b m : nth_error (w_bs w) i = Some b -> b_np b = Some m ->
    exists b1 b2, copy_basis i w = (Ok (length (w_bs w)), set_bs (lset i b1 (w_bs w) ++ [b2]) w) /\
      same_reading b b1 /\ same_reading b b2.
  Proof.
    intros Hb Hm. pose proof (nth_some_lt _ _ _ Hb) as Hi.
    destruct (change_module_same K m b (set_np None b) Hm (or_intror eq_refl)) as (b1 & E1 & S1).
    exists b1, b1. unfold copy_basis.
    rewrite (wbind_ok K _ _ _ _ _ (on_basis_pure K i get_st w b _ Hb eq_refl)), Hm.
    rewrite (wbind_ok K _ _ _ _ _ (on_basis_run K i (modify (set_np None)) w b _ _ Hb eq_refl)).
    set (w1 := set_bs _ w).
    assert (Hb1 : nth_error (w_bs w1) i = Some (set_np None b)) by (apply nth_lset_same; exact Hi).
    rewrite (wbind_ok K _ _ _ _ _ (on_basis_pure K i get_st w1 _ _ Hb1 eq_refl)).
    rewrite (wbind_ok K (alloc_basis (set_np None b)) _ w1 _ _ eq_refl).
    set (w2 := set_bs _ w1).
    assert (L1 : length (w_bs w1) = length (w_bs w)) by apply lset_length.
    assert (Hb2 : nth_error (w_bs w2) (length (w_bs w1)) = Some (set_np None b)) by apply nth_app_last.
    rewrite (wbind_ok K _ _ _ _ _ (on_basis_run K _ (change_module m) w2 _ _ _ Hb2 E1)).
    set (w3 := set_bs _ w2).
    assert (E3 : w_bs w3 = w_bs w1 ++ [b1]) by (cbn [w3 w_bs set_bs w2]; apply lset_app_last).
    assert (Hb3 : nth_error (w_bs w3) i = Some (set_np None b)) by (rewrite E3, nth_error_app1 by lia; exact Hb1).
    rewrite (wbind_ok K _ _ _ _ _ (on_basis_run K _ (change_module m) w3 _ _ _ Hb3 E1)).
    split; [|split; exact S1]. unfold ret. f_equal; [congruence|].
    rewrite E3, lset_app_l by lia. cbn [w1 w_bs set_bs]. rewrite lset_lset. reflexivity.
  Qed.

  Definition new_system (k : kind) (i : nat) (np : option nat) (n : Z) (l : nat) : system :=
    System k i np n (Z.of_nat l) (Z.of_nat l - n) (PySlice 0 n) (PySlice n (Z.of_nat l)) None.

  Lemma general_init_ok (n : Z) j va vb (anti : bool) w b l s : nth_error (w_bs w) j = Some b ->
    b_cls b = Base -> accepted K va vb -> ready b l -> b_spin b = false -> b_arr b F_s = Some s ->
    exists bg, spin_doubled l va vb (anti && negb (b_asym b)) s b bg /\
      ((n <= Z.of_nat (2 * l))%Z ->
       general_init n j va vb anti w
         = (Ok (length (w_sy w)), World (lset j bg (w_bs w)) (w_sy w ++ [new_system General j (b_np b) n (2 * l)]) (w_op w))) /\
      ((Z.of_nat (2 * l) < n)%Z ->
       general_init n j va vb anti w = (Err AssertionError, set_bs (lset j bg (w_bs w)) w)).
  Proof.
    intros Hb Hcls Hacc R Hspin Hs. pose proof (nth_some_lt _ _ _ Hb) as Hj.
    destruct (change_to_general_ok K (Some (va, vb)) anti b l s) as (bg & E & D); try assumption.
    { rewrite Hcls. discriminate. }
    exists bg. split; [exact D|].
    assert (G : general_init n j va vb anti w = system_init General n j (set_bs (lset j bg (w_bs w)) w)).
    { unfold general_init. rewrite (wbind_ok K _ _ _ _ _ (on_basis_pure K j get_st w b _ Hb eq_refl)), Hspin.
      unfold bind at 1. rewrite (wbind_ok K _ _ _ _ _ (on_basis_run K j _ w b _ _ Hb E)). cbn [ret].
      assert (Hg : nth_error (w_bs (set_bs (lset j bg (w_bs w)) w)) j = Some bg) by (apply nth_lset_same; exact Hj).
      destruct anti; [|reflexivity]. unfold when.
      rewrite (wbind_ok K _ _ _ _ _ (on_basis_pure K j _ _ bg (Ok tt) Hg ltac:(
        apply anti_symmetrize_again; rewrite (sd_asym D); destruct (b_asym b); reflexivity))).
      reflexivity. }
    assert (Hg : nth_error (w_bs (set_bs (lset j bg (w_bs w)) w)) j = Some bg) by (apply nth_lset_same; exact Hj).
    rewrite G. split; intros Hn.
    - rewrite (system_init_ok K General n j _ bg Hg) by (rewrite (sd_l D); exact Hn).
      rewrite (sd_l D), (sd_np D). reflexivity.
    - apply (system_init_rejects K General n j _ bg Hg). rewrite (sd_l D). exact Hn.
  Qed.

  (** spatial_orbital_system.py:52-106, no operator set *)
  Lemma construct_general_ok s va vb (anti : bool) w N l x b ov : sys_at w s Spatial N l x b ->
    b_cls b = Base -> accepted K va vb -> b_spin b = false -> b_arr b F_s = Some ov ->
    (b_arr b F_spf = None -> b_arr b F_bra = None) -> sy_op x = None ->
    exists w' g x' b1 bg, construct_general s va vb anti w = (Ok g, w') /\
      sys_at w' g General (2 * N) (2 * l) x' bg /\ sys_at w' s Spatial N l x b1 /\
      spin_doubled l va vb (anti && negb (b_asym b)) ov b bg /\ same_reading b b1 /\
      sy_bs x' <> sy_bs x /\
      w' = World (lset (sy_bs x) b1 (w_bs w) ++ [bg]) (w_sy w ++ [x']) (w_op w) /\
      x' = new_system General (length (w_bs w)) (b_np b) (Z.of_nat (2 * N)) (2 * l).
  Proof.
    intros [H1 H2 Hk (m & Hnp) Hn Ho Hle R] Hcls Hacc Hspin Hs Hbra0 Hop.
    destruct (r_np K b l R) as (m' & Hm').
    destruct (copy_basis_ok (sy_bs x) w b m' H2 Hm') as (b1 & b2 & Ec & S1 & S2).
    pose proof (nth_some_lt _ _ _ H2) as Hi.
    set (w1 := set_bs (lset (sy_bs x) b1 (w_bs w) ++ [b2]) w) in Ec.
    set (j := length (w_bs w)) in *.
    assert (L1 : length (lset (sy_bs x) b1 (w_bs w)) = j) by apply lset_length.
    assert (Hj : nth_error (w_bs w1) j = Some b2) by (rewrite <- L1; apply nth_app_last).
    pose proof (same_reading_ready K b b2 l S2 R) as R2.
    pose proof (same_reading_ready K b b1 l S1 R) as R1.
    destruct (general_init_ok (sy_n x * 2) j va vb anti w1 b2 l ov Hj) as (bg & D & E & _); try assumption.
    { destruct S2 as (E1&E2&E3&E4&E5&E6&E7&A&V). congruence. }
    { destruct S2 as (E1&E2&E3&E4&E5&E6&E7&A&V). congruence. }
    { destruct S2 as (E1&E2&E3&E4&E5&E6&E7&A&V). rewrite A by discriminate. exact Hs. }
    assert (Eas : b_asym b2 = b_asym b) by apply S2.
    assert (Enp : b_np b2 = b_np b) by apply S2.
    rewrite Eas in D.
    assert (Db : spin_doubled l va vb (anti && negb (b_asym b)) ov b bg) by (eapply spin_doubled_reading; eassumption).
    set (x' := new_system General j (b_np b) (Z.of_nat (2 * N)) (2 * l)).
    exists (World (lset (sy_bs x) b1 (w_bs w) ++ [bg]) (w_sy w ++ [x']) (w_op w)), (length (w_sy w)), x', b1, bg.
    split; [|split; [|split; [|split; [exact Db|split; [exact S1|split; [|split; reflexivity]]]]]].
    - unfold construct_general. rewrite (wbind_ok K _ _ _ _ _ (get_sys_ok K s w x H1)).
      rewrite (wbind_ok K _ _ _ _ _ Ec). rewrite (wbind_ok K _ _ _ _ _ (E ltac:(lia))). rewrite Hop. unfold ret.
      f_equal. cbn [w1 w_bs w_sy w_op set_bs]. rewrite <- L1 at 1. rewrite lset_app_last. rewrite Enp.
      unfold x'. rewrite Hn. replace (Z.of_nat N * 2)%Z with (Z.of_nat (2 * N)) by lia. reflexivity.
    - constructor; cbn [w_sy w_bs x' new_system sy_bs sy_kind sy_np sy_n sy_o].
      + apply nth_app_last.
      + rewrite <- L1. apply nth_app_last.
      + reflexivity.
      + eexists; eassumption.
      + reflexivity.
      + reflexivity.
      + lia.
      + exact (doubled_ready K b bg l va vb _ ov R Hbra0 Db).
    - constructor; cbn [w_sy w_bs]; try assumption.
      + rewrite nth_error_app1 by exact (nth_some_lt _ _ _ H1). exact H1.
      + rewrite nth_error_app1 by lia. apply nth_lset_same. exact Hi.
      + eexists; eassumption.
    - cbn. lia.
  Qed.

  (** C20 *)
  Lemma reference_energies_agree s va vb w N l x b ov : sys_at w s Spatial N l x b ->
    b_cls b = Base -> orthonormal_pair va vb -> b_spin b = false -> b_asym b = false -> b_arr b F_s = Some ov ->
    (b_arr b F_spf = None -> b_arr b F_bra = None) -> sy_op x = None ->
    exists w' g e, construct_general s va vb true w = (Ok g, w') /\
      reference_energy s w = (Ok e, w) /\ reference_energy s w' = (Ok e, w') /\ reference_energy g w' = (Ok e, w').
  Proof.
    intros A Hcls Hpair Hspin Has Hs Hbra0 Hop.
    destruct (construct_general_ok s va vb true w N l x b ov A Hcls (orthonormal_accepted K _ _ Hpair) Hspin Hs Hbra0 Hop)
      as (w' & g & x' & b1 & bg & E & Ag & As & D & S1 & _).
    destruct (r_h K b l (at_ready K _ _ _ _ _ _ _ A)) as (h & Hh & Sh).
    destruct (r_u K b l (at_ready K _ _ _ _ _ _ _ A)) as (u & Hu & Su).
    pose proof (reference_energy_ok K w s Spatial N l x b h u A Hh Hu Sh Su) as E1.
    exists w', g, (E_restricted N (mat h) (ten u)). split; [exact E|]. split; [exact E1|].
    destruct S1 as (_&_&_&_&_&_&_&F1&_).
    pose proof (reference_energy_ok K w' s Spatial N l x b1 h u As) as E2.
    rewrite !F1 in E2 by discriminate. split; [exact (E2 Hh Hu Sh Su)|].
    pose proof (sd_h D) as Dh. rewrite Hh in Dh. destruct (b_arr bg F_h) as [h'|] eqn:Eh'; [|destruct Dh].
    pose proof (sd_u D) as Du. rewrite Hu, Has in Du. destruct (b_arr bg F_u) as [u'|] eqn:Eu'; [|destruct Du].
    rewrite (reference_energy_ok K w' g General (2 * N) (2 * l) x' bg h' u' Ag Eh' Eu' (proj1 Dh) (proj1 Du)).
    f_equal. f_equal. rewrite <- energy_doubled. pose proof (at_le K _ _ _ _ _ _ _ A) as HN.
    apply E_general_ext; intros; [apply (proj2 Dh) | apply (proj2 Du); lia].
  Qed.
  (** With anti_symmetrize=False the energies differ by the exchange sum. *)
  Lemma reference_energy_plain s va vb w N l x b ov u : sys_at w s Spatial N l x b ->
    b_cls b = Base -> orthonormal_pair va vb -> b_spin b = false -> b_arr b F_s = Some ov ->
    (b_arr b F_spf = None -> b_arr b F_bra = None) -> sy_op x = None -> b_arr b F_u = Some u ->
    exists w' g e, construct_general s va vb false w = (Ok g, w') /\ reference_energy s w = (Ok e, w) /\
      reference_energy g w' = (Ok (sadd e (sumn N (fun i => sumn N (fun j => ten u i j j i)))), w').
  Proof.
    intros A Hcls Hpair Hspin Hs Hbra0 Hop Hu.
    destruct (construct_general_ok s va vb false w N l x b ov A Hcls (orthonormal_accepted K _ _ Hpair) Hspin Hs Hbra0 Hop)
      as (w' & g & x' & b1 & bg & E & Ag & As & D & S1 & _).
    destruct (r_h K b l (at_ready K _ _ _ _ _ _ _ A)) as (h & Hh & Sh).
    destruct (r_u K b l (at_ready K _ _ _ _ _ _ _ A)) as (u0 & Hu0 & Su).
    assert (u0 = u) by congruence. subst u0.
    exists w', g, (E_restricted N (mat h) (ten u)). split; [exact E|].
    split; [exact (reference_energy_ok K w s Spatial N l x b h u A Hh Hu Sh Su)|].
    pose proof (sd_h D) as Dh. rewrite Hh in Dh. destruct (b_arr bg F_h) as [h'|] eqn:Eh'; [|destruct Dh].
    pose proof (sd_u D) as Du. rewrite Hu in Du. destruct (b_arr bg F_u) as [u'|] eqn:Eu'; [|destruct Du].
    rewrite (reference_energy_ok K w' g General (2 * N) (2 * l) x' bg h' u' Ag Eh' Eu' (proj1 Dh) (proj1 Du)).
    f_equal. f_equal. rewrite <- energy_doubled_plain. pose proof (at_le K _ _ _ _ _ _ _ A) as HN.
    apply E_general_ext; intros; [apply (proj2 Dh) | apply (proj2 Du); lia].
  Qed.

  (** C21 *)
  Lemma fock_matrices_agree s va vb w N l x b ov h u f : sys_at w s Spatial N l x b ->
    b_cls b = Base -> orthonormal_pair va vb -> b_spin b = false -> b_asym b = false -> b_arr b F_s = Some ov ->
    (b_arr b F_spf = None -> b_arr b F_bra = None) -> sy_op x = None ->
    b_arr b F_h = Some h -> b_arr b F_u = Some u -> buffer_ok f h u ->
    exists w' g F bg h' u' G, construct_general s va vb true w = (Ok g, w') /\
      fock_matrix s h u f w = (Ok F, w) /\
      sys_get g F_h w' = (Ok (Some h'), w') /\ sys_get g F_u w' = (Ok (Some u'), w') /\
      nth_error (w_bs w') (length (w_bs w)) = Some bg /\
      fock_matrix g h' u' NoBuffer w' = (Ok G, w') /\ shape G = [2 * l; 2 * l] /\
      forall P Q, P < 2 * l -> Q < 2 * l -> mat G P Q = dbl1 (mat F) P Q.
  Proof.
    intros A Hcls Hpair Hspin Has Hs Hbra0 Hop Hh Hu Hf.
    destruct (construct_general_ok s va vb true w N l x b ov A Hcls (orthonormal_accepted K _ _ Hpair) Hspin Hs Hbra0 Hop)
      as (w' & g & x' & b1 & bg & E & Ag & As & D & S1 & _ & Ew & Ex).
    destruct (r_h K b l (at_ready K _ _ _ _ _ _ _ A)) as (h0 & Hh0 & Sh).
    destruct (r_u K b l (at_ready K _ _ _ _ _ _ _ A)) as (u0 & Hu0 & Su).
    assert (h0 = h) by congruence. assert (u0 = u) by congruence. subst h0 u0.
    destruct (fock_matrix_ok K w s Spatial N l x b h u f A Sh Su Hf) as (F & EF & SF & GF).
    pose proof (sd_h D) as Dh. rewrite Hh in Dh. destruct (b_arr bg F_h) as [h'|] eqn:Eh'; [|destruct Dh].
    pose proof (sd_u D) as Du. rewrite Hu, Has in Du. destruct (b_arr bg F_u) as [u'|] eqn:Eu'; [|destruct Du].
    destruct (fock_matrix_ok K w' g General (2 * N) (2 * l) x' bg h' u' NoBuffer Ag (proj1 Dh) (proj1 Du)) as (G & EG & SG & GG).
    { cbn. rewrite (sd_complex D F_h h'), (sd_complex D F_u u'); cbn; auto. }
    exists w', g, F, bg, h', u', G. split; [exact E|]. split; [exact EF|].
    split. { rewrite (sys_get_ok K g F_h w' x' bg (at_sys K _ _ _ _ _ _ _ Ag) (at_bs K _ _ _ _ _ _ _ Ag)), Eh'. reflexivity. }
    split. { rewrite (sys_get_ok K g F_u w' x' bg (at_sys K _ _ _ _ _ _ _ Ag) (at_bs K _ _ _ _ _ _ _ Ag)), Eu'. reflexivity. }
    split. { pose proof (at_bs K _ _ _ _ _ _ _ Ag) as Hb. rewrite Ex in Hb. exact Hb. }
    split; [exact EG|]. split; [exact SG|]. intros P Q HP HQ. rewrite GG by assumption.
    pose proof (at_le K _ _ _ _ _ _ _ A) as HN.
    transitivity (F_general (2 * N) (dbl1 (mat h)) (exch (dbl2 (ten u))) P Q).
    { unfold F_general. f_equal; [apply (proj2 Dh)|]. apply sumn_ext. intros i Hi. apply (proj2 Du); lia. }
    rewrite fock_doubled. unfold dbl1. destruct (same_parity P Q); [|reflexivity].
    symmetry. apply GF; apply Nat.div_lt_upper_bound; lia.
  Qed.

  (** C22 *)
  Lemma energy_from_fock s w k N l x b h u f : sys_at w s k N l x b ->
    b_arr b F_h = Some h -> b_arr b F_u = Some u -> buffer_ok f h u ->
    exists e F, reference_energy s w = (Ok e, w) /\ fock_matrix s h u f w = (Ok F, w) /\
      e = match k with
          | General => smul shalf (sumn N (fun i => sadd (mat h i i) (mat F i i)))
          | Spatial => sumn N (fun i => sadd (mat h i i) (mat F i i))
          end.
  Proof.
    intros A Hh Hu Hf.
    destruct (r_h K b l (at_ready K _ _ _ _ _ _ _ A)) as (h0 & Hh0 & Sh).
    destruct (r_u K b l (at_ready K _ _ _ _ _ _ _ A)) as (u0 & Hu0 & Su).
    assert (h0 = h) by congruence. assert (u0 = u) by congruence. subst h0 u0.
    destruct (fock_matrix_ok K w s k N l x b h u f A Sh Su Hf) as (F & EF & SF & GF).
    pose proof (at_le K _ _ _ _ _ _ _ A) as HN.
    rewrite (reference_energy_ok K w s k N l x b h u A Hh Hu Sh Su).
    eexists; exists F. split; [reflexivity|]. split; [exact EF|]. destruct k.
    - rewrite energy_from_fock_general. f_equal. apply sumn_ext. intros i Hi. rewrite GF by lia. reflexivity.
    - rewrite energy_from_fock_restricted. apply sumn_ext. intros i Hi. rewrite GF by lia. reflexivity.
  Qed.

  (** C23: construct_fock_matrix may be given any h and u. *)
  Lemma fock_hermitian s w k N l x b h u f : sys_at w s k N l x b ->
    shape h = [l; l] -> shape u = [l; l; l; l] -> buffer_ok f h u ->
    hermitian l (mat h) -> hermitian2 l (ten u) -> (k = Spatial -> particle_sym l (ten u)) ->
    exists F, fock_matrix s h u f w = (Ok F, w) /\ shape F = [l; l] /\ hermitian l (mat F).
  Proof.
    intros A Sh Su Hf Hh Hu Hp.
    destruct (fock_matrix_ok K w s k N l x b h u f A Sh Su Hf) as (F & EF & SF & GF).
    pose proof (at_le K _ _ _ _ _ _ _ A) as HN.
    exists F. split; [exact EF|]. split; [exact SF|]. intros p q Hp' Hq'. rewrite !GF by assumption. destruct k.
    - exact (fock_general_hermitian K l N _ _ HN Hh Hu p q Hp' Hq').
    - exact (fock_restricted_hermitian K l N _ _ HN Hh Hu (Hp eq_refl) p q Hp' Hq').
  Qed.
  Lemma energy_real s w k N l x b h u : sys_at w s k N l x b ->
    b_arr b F_h = Some h -> b_arr b F_u = Some u ->
    hermitian l (mat h) -> hermitian2 l (ten u) -> (k = Spatial -> particle_sym l (ten u)) ->
    exists e, reference_energy s w = (Ok e, w) /\ sconj e = e.
  Proof.
    intros A Hh Hu Hh2 Hu2 Hp.
    destruct (r_h K b l (at_ready K _ _ _ _ _ _ _ A)) as (h0 & Hh0 & Sh).
    destruct (r_u K b l (at_ready K _ _ _ _ _ _ _ A)) as (u0 & Hu0 & Su).
    assert (h0 = h) by congruence. assert (u0 = u) by congruence. subst h0 u0.
    pose proof (at_le K _ _ _ _ _ _ _ A) as HN.
    rewrite (reference_energy_ok K w s k N l x b h u A Hh Hu Sh Su).
    eexists. split; [reflexivity|]. destruct k.
    - exact (energy_general_real K l N _ _ HN Hh2 Hu2).
    - exact (energy_restricted_real K l N _ _ HN Hh2 Hu2 (Hp eq_refl)).
  Qed.

  (** C24 *)
  Lemma fock_buffer_irrelevant s w k N l x b h u f f' : sys_at w s k N l x b ->
    shape h = [l; l] -> shape u = [l; l; l; l] -> buffer_ok f h u -> buffer_ok f' h u ->
    exists F F', fock_matrix s h u f w = (Ok F, w) /\ fock_matrix s h u f' w = (Ok F', w) /\ aeq F F'.
  Proof.
    intros A Sh Su Hf Hf'.
    destruct (fock_matrix_ok K w s k N l x b h u f A Sh Su Hf) as (F & EF & SF & GF).
    destruct (fock_matrix_ok K w s k N l x b h u f' A Sh Su Hf') as (F' & EF' & SF' & GF').
    exists F, F'. split; [exact EF|]. split; [exact EF'|]. apply (aeq2 K F F' l l SF SF').
    intros p q Hp Hq. rewrite GF, GF' by assumption. reflexivity.
  Qed.
  (** f=None starts from an array of h's type, which complex two-body elements
      cannot be added to when h is real. *)
  Lemma fock_none_rejected s w k N l x b h u : sys_at w s k N l x b ->
    shape h = [l; l] -> shape u = [l; l; l; l] -> castable (dt u) (dt h) = false ->
    fock_matrix s h u NoBuffer w = (Err UFuncTypeError, w).
  Proof.
    intros [H1 H2 Hk (m & Hnp) Hn Ho Hle R] Sh Su Hc. unfold fock_matrix.
    rewrite (wbind_ok K _ _ _ _ _ (get_sys_ok K s w x H1)), Hnp, Hk, Ho. cbn [need_np_w]. unfold bind, ret, lift.
    change (PySlice 0 (Z.of_nat N)) with (occ N).
    destruct (slice_direct K N u l Su Hle) as (uo & Euo & Suo & Duo & _).
    destruct (einsum_piqi_ok K uo l N Suo) as (e & Ee & Se & De & _).
    destruct (inplace_mat K sadd (zeros_like h) h l (dt h)) as (f1 & E1 & S1 & D1 & _); auto.
    { destruct (dt h); reflexivity. }
    assert (Hc' : castable (dt e) (dt f1) = false) by congruence.
    assert (Hc2 : castable (dt (scale Int64 (sadd s1 s1) e)) (dt f1) = false).
    { rewrite D1. unfold scale. cbn [dt]. rewrite De, Duo. destruct (dt u), (dt h); cbn in *; try discriminate Hc; reflexivity. }
    destruct k.
    - unfold fock_general, fock_start. unfold iadd at 1. rewrite E1. cbn [rbind]. rewrite Euo. cbn [rbind].
      rewrite Ee. cbn [rbind]. unfold iadd. rewrite (inplace_cast K sadd f1 e) by congruence. reflexivity.
    - unfold fock_spatial, fock_start. unfold iadd at 1. rewrite E1. cbn [rbind]. rewrite Euo. cbn [rbind].
      rewrite Ee. cbn [rbind]. unfold iadd at 1. rewrite (inplace_cast K sadd f1 _) by (cbn [scale shape]; congruence). reflexivity.
  Qed.

  (** C25 *)
  Local Open Scope K_scope.
  Lemma block_keeps_occupied l N (C D : nat -> nat -> K) : (N <= l)%nat ->
    (forall i a, (i < N)%nat -> (N <= a < l)%nat -> C i a = 0 /\ C a i = 0) ->
    (forall p q, (p < l)%nat -> (q < l)%nat -> mmul l C D p q = delta p q) ->
    (forall p q, (p < l)%nat -> (q < l)%nat -> mmul l D C p q = delta p q) ->
    keeps_occupied l N C D.
  Proof.
    intros HN HB HCD HDC.
    assert (Hoo : forall p q, (p < N)%nat -> (q < l)%nat -> sumn N (fun i => C p i * D i q) = delta p q).
    { intros p q Hp Hq. rewrite <- HCD by lia. unfold mmul. symmetry. apply sumn_restrict; [exact HN|].
      intros k Hk. rewrite (proj1 (HB p k Hp Hk)). ring. }
    assert (Hoo' : forall p q, (p < l)%nat -> (q < N)%nat -> sumn N (fun i => D p i * C i q) = delta p q).
    { intros p q Hp Hq. rewrite <- HDC by lia. unfold mmul. symmetry. apply sumn_restrict; [exact HN|].
      intros k Hk. rewrite (proj2 (HB q k Hq Hk)). ring. }
    split; [|intros a b Ha Hb; apply Hoo; lia].
    intros i a Hi Ha. split; [apply HB; assumption|].
    transitivity (sumn N (fun k => delta i k * D k a)); [symmetry; apply (sumn_delta_l K N i (fun k => D k a)); exact Hi|].
    transitivity (sumn N (fun k => sumn N (fun j => D i j * (C j k * D k a)))).
    { apply sumn_ext. intros k Hk. rewrite <- Hoo' by lia. rewrite sumn_mul_r. apply sumn_ext. intros. 
      ring. }
    rewrite sumn_swap.
    transitivity (sumn N (fun j => D i j * 0)).
    { apply sumn_ext. intros j Hj. rewrite <- sumn_mul_l. f_equal. rewrite Hoo by lia. unfold delta.
      destruct (Nat.eqb_spec j a); [lia | reflexivity]. }
    apply sumn_zero'. intros. ring.
  Qed.

  (** system.py:66-68 *)
  Lemma sys_change_basis_ok s w k N l x b C Ct n : sys_at w s k N l x b ->
    shape C = [l; n] -> tilde_shape C Ct n l ->
    exists b', basis_changed l n C (default_tilde C Ct) b b' /\
      ((N <= n)%nat -> sys_change_basis s C Ct w
         = (Ok tt, World (lset (sy_bs x) b' (w_bs w)) (lset s (sized x (Z.of_nat N) (Z.of_nat n)) (w_sy w)) (w_op w))) /\
      ((n < N)%nat -> sys_change_basis s C Ct w = (Err AssertionError, set_bs (lset (sy_bs x) b' (w_bs w)) w)).
  Proof.
    intros [H1 H2 Hk (m & Hnp) Hn Ho Hle R] HC HD.
    destruct (default_tilde_spec K C Ct l n n HC HD) as [SD GD].
    destruct (change_basis_ok K l n C (default_tilde C Ct) HC SD b R) as (b' & E & B).
    rewrite <- change_basis_default in E.
    exists b'. split; [exact B|].
    pose proof (nth_some_lt _ _ _ H2) as Hi. set (w1 := set_bs (lset (sy_bs x) b' (w_bs w)) w).
    assert (Hb' : nth_error (w_bs w1) (sy_bs x) = Some b') by (apply nth_lset_same; exact Hi).
    assert (G : sys_change_basis s C Ct w = set_system_size s (Z.of_nat N) (Z.of_nat n) w1).
    { unfold sys_change_basis. rewrite (wbind_ok K _ _ _ _ _ (get_sys_ok K s w x H1)).
      rewrite (wbind_ok K _ _ _ _ _ (on_basis_run K _ _ w b _ _ H2 E)). fold w1.
      rewrite (wbind_ok K _ _ _ _ _ (on_basis_pure K _ get_st w1 b' _ Hb' eq_refl)).
      rewrite (bc_l B), Hn. reflexivity. }
    rewrite G. unfold set_system_size. split; intros HN.
    - rewrite (proj2 (Z.leb_le _ _)) by lia. unfold bind at 1. cbn [py_assert ret].
      rewrite (wbind_ok K _ _ _ _ _ (get_sys_ok K s w1 x H1)). reflexivity.
    - rewrite (proj2 (Z.leb_gt _ _)) by lia. reflexivity.
  Qed.
  Lemma change_basis_sys_at s w k N l x b b' C Ct n : sys_at w s k N l x b ->
    basis_changed l n C (default_tilde C Ct) b b' -> spin_mats_ok b l n ->
    (b_arr b F_spf = None -> b_arr b F_bra = None) -> (N <= n)%nat ->
    sys_at (World (lset (sy_bs x) b' (w_bs w)) (lset s (sized x (Z.of_nat N) (Z.of_nat n)) (w_sy w)) (w_op w))
      s k N n (sized x (Z.of_nat N) (Z.of_nat n)) b'.
  Proof.
    intros [H1 H2 Hk Hnp Hn Ho Hle R] B Hsp Hbra HN.
    constructor; cbn; try assumption; try reflexivity.
    - apply nth_lset_same. eapply nth_some_lt; eassumption.
    - apply nth_lset_same. eapply nth_some_lt; eassumption.
    - eapply changed_ready; eassumption.
  Qed.
  Lemma energy_rotation_invariant s w k N l x b C Ct : sys_at w s k N l x b ->
    shape C = [l; l] -> tilde_shape C Ct l l ->
    (b_arr b F_spf = None -> b_arr b F_bra = None) ->
    (forall i a, (i < N)%nat -> (N <= a < l)%nat -> mat C i a = 0 /\ mat C a i = 0) ->
    (forall p q, (p < l)%nat -> (q < l)%nat -> mmul l (mat C) (tilde C Ct) p q = delta p q) ->
    (forall p q, (p < l)%nat -> (q < l)%nat -> mmul l (tilde C Ct) (mat C) p q = delta p q) ->
    exists w' e, sys_change_basis s C Ct w = (Ok tt, w') /\
      reference_energy s w = (Ok e, w) /\ reference_energy s w' = (Ok e, w').
  Proof.
    intros A HC HD Hbra HB H1 H2.
    destruct (sys_change_basis_ok s w k N l x b C Ct l A HC HD) as (b' & B & E & _).
    pose proof (at_le K _ _ _ _ _ _ _ A) as HN. specialize (E HN).
    pose proof (change_basis_sys_at s w k N l x b b' C Ct l A B (or_introl eq_refl) Hbra HN) as A'.
    destruct (r_h K b l (at_ready K _ _ _ _ _ _ _ A)) as (h & Hh & Sh).
    destruct (r_u K b l (at_ready K _ _ _ _ _ _ _ A)) as (u & Hu & Su).
    pose proof (bc_h B) as Bh. rewrite Hh in Bh. destruct (b_arr b' F_h) as [h'|] eqn:Eh'; [|destruct Bh].
    pose proof (bc_u B) as Bu. rewrite Hu in Bu. destruct (b_arr b' F_u) as [u'|] eqn:Eu'; [|destruct Bu].
    eexists; eexists. split; [exact E|].
    split; [exact (reference_energy_ok K w s k N l x b h u A Hh Hu Sh Su)|].
    rewrite (reference_energy_ok K _ s k N l _ b' h' u' A' Eh' Eu' (proj1 Bh) (proj1 Bu)).
    destruct (default_tilde_spec K C Ct l l l HC HD) as [SD GD].
    assert (KO : keeps_occupied l N (mat C) (mat (default_tilde C Ct))).
    { apply block_keeps_occupied; [exact HN | exact HB | |]; intros p q Hp Hq.
      - rewrite <- H1 by assumption. unfold mmul. apply sumn_ext. intros. rewrite GD. reflexivity.
      - rewrite <- H2 by assumption. unfold mmul. apply sumn_ext. intros. rewrite GD. reflexivity. }
    f_equal. f_equal. destruct k.
    - rewrite <- (energy_general_invariant K l N (mat h) (ten u) _ _ HN KO).
      apply E_general_ext; intros; [apply (proj2 Bh) | apply (proj2 Bu)]; lia.
    - rewrite <- (energy_restricted_invariant K l N (mat h) (ten u) _ _ HN KO).
      apply E_restricted_ext; intros; [apply (proj2 Bh) | apply (proj2 Bu)]; lia.
  Qed.
End SystemProofs.
