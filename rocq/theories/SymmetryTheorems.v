(** Symmetries of the systems built by the two-dimensional constructors. *)
From Coq Require Import List Arith ZArith Reals Bool Lra Lia.
From Coquelicot Require Import Coquelicot.
From Verif Require Import Scalar ScalarC Py Numpy BasisSet Spec BasisSpec TwoDim TwoDimProofs FieldProofs Coulomb CoulombProofs Cache CacheProofs CacheExamples Orbitals MatrixProofs PlaneSpec TwoDimBasis PlaneProofs.
From Verif Require Import OneDimProofs DotProofs GridSpec GridProofs DipoleTheorems EnergySpec EnergyFacts Systems SystemFacts SystemProofs DensitySpec DensityProofs PairTheorems SymmetryProofs.
Import ListNotations.
Open Scope R_scope.

Section System.
  Variables (w : world CC) (s n l : nat) (x : system) (b : basis CC) (h u : arr CC) (f : buffer CC).
  Hypotheses (A : sys_at w s Spatial n l x b) (Hh : b_arr b F_h = Some h) (Hu : b_arr b F_u = Some u) (Hf : buffer_ok f h u).
  Lemma oscillator_fock npm spin anti L N omega mass e files t : sound files -> oscillator npm spin anti l L N omega mass e files = (Ok b, t) ->
    exists F, fock_matrix s h u f w = (Ok F, w) /\ forall p q, (p < l)%nat -> (q < l)%nat -> snd (shell_state p) <> snd (shell_state q) -> mat F p q = RtoC 0.
  Proof.
    intros Hs E. pose proof (oscillator_holds _ _ _ _ _ _ _ _ _ _ _ _ Hs E) as H. destruct (holds_fock _ _ _ _ _ _ _ _ _ _ _ H w s n x h u f A Hh Hu Hf) as (F & EF & _ & GF).
    exists F. split; [exact EF|]. intros p q Hp Hq D. rewrite (GF p q Hp Hq), fock_other by exact D. unfold oscillator_element. destruct (Nat.eqb_spec p q) as [->|]; [congruence|]. f_equal. ring.
  Qed.
  Lemma field_fock npm spin anti L N omega_0 mass omega_c rows : field_states l omega_0 omega_c = Ok rows -> field_oscillator npm spin anti l L N omega_0 mass omega_c = (Ok tt, b) ->
    exists F, fock_matrix s h u f w = (Ok F, w) /\ forall p q, (p < l)%nat -> (q < l)%nat -> snd (nth p rows (0, 0)%Z) <> snd (nth q rows (0, 0)%Z) -> mat F p q = RtoC 0.
  Proof.
    intros Fs E. pose proof (field_holds _ _ _ _ _ _ _ _ _ _ _ Fs E) as H. destruct (holds_fock _ _ _ _ _ _ _ _ _ _ _ H w s n x h u f A Hh Hu Hf) as (F & EF & _ & GF).
    exists F. split; [exact EF|]. intros p q Hp Hq D. rewrite (GF p q Hp Hq), fock_other by exact D. unfold field_element. destruct (Nat.eqb_spec p q) as [->|]; [congruence|reflexivity].
  Qed.
  Lemma double_well_fock npm spin anti L N omega mass e barrier axis files t : sound files -> double_well npm spin anti l L N omega mass e barrier axis files = (Ok b, t) ->
    exists F, fock_matrix s h u f w = (Ok F, w) /\ forall p q, (p < l)%nat -> (q < l)%nat ->
      (snd (shell_state p) <> snd (shell_state q) -> mat F p q = mat h p q) /\
      (Z.odd (snd (shell_state p) - snd (shell_state q)) = true -> mat F p q = RtoC 0).
  Proof.
    intros Hs E. pose proof (double_well_holds _ _ _ _ _ _ _ _ _ _ _ _ _ _ Hs E) as H. destruct (holds_fock _ _ _ _ _ _ _ _ _ _ _ H w s n x h u f A Hh Hu Hf) as (F & EF & _ & GF).
    exists F. split; [exact EF|]. intros p q Hp Hq. destruct (ho_h _ _ _ _ _ _ _ _ _ _ _ H) as (h' & Eh & _ & Gh). rewrite Hh in Eh. injection Eh as <-. split.
    - intros D. rewrite (GF p q Hp Hq), fock_other by exact D. symmetry. apply Gh.
    - intros D. rewrite (GF p q Hp Hq), fock_other by (intros X; rewrite X, Z.sub_diag in D; discriminate D).
      destruct (Req_dec (double_well_element omega mass barrier axis p q) 0) as [-> |X]; [reflexivity|]. apply double_well_even in X. rewrite <- Z.negb_odd, D in X. discriminate X.
  Qed.
  (** Closed shells *)
  Section Closed.
    Variable k : nat.
    Hypothesis Hk : (2 * n = k * (k + 1))%nat.
    Lemma oscillator_mirror npm spin anti L N omega mass e files t : sound files -> oscillator npm spin anti l L N omega mass e files = (Ok b, t) ->
      exists F, fock_matrix s h u f w = (Ok F, w) /\ forall p q p' q', (p < l)%nat -> (q < l)%nat -> (p' < l)%nat -> (q' < l)%nat ->
        shell_state p' = (fst (shell_state p), - snd (shell_state p))%Z -> shell_state q' = (fst (shell_state q), - snd (shell_state q))%Z -> mat F p' q' = mat F p q.
    Proof.
      intros Hs E. pose proof (oscillator_holds _ _ _ _ _ _ _ _ _ _ _ _ Hs E) as H. destruct (holds_fock _ _ _ _ _ _ _ _ _ _ _ H w s n x h u f A Hh Hu Hf) as (F & EF & _ & GF).
      exists F. split; [exact EF|]. intros p q p' q' Hp Hq Hp' Hq' Ep Eq. rewrite (GF p q Hp Hq), (GF p' q' Hp' Hq'). f_equal.
      exact (fock_reflect omega shell_state (oscillator_element omega) n partner (fun i => partner_in k n i Hk) (fun i j _ _ => partner_inj i j) (fun i _ => partner_right i) p q p' q' Ep Eq (oscillator_reflect omega p q p' q' Ep Eq)).
    Qed.
    Lemma double_well_mirror npm spin anti L N omega mass e barrier axis files t : sound files -> double_well npm spin anti l L N omega mass e barrier axis files = (Ok b, t) ->
      exists F, fock_matrix s h u f w = (Ok F, w) /\ forall p q p' q', (p < l)%nat -> (q < l)%nat -> (p' < l)%nat -> (q' < l)%nat ->
        shell_state p' = (fst (shell_state p), - snd (shell_state p))%Z -> shell_state q' = (fst (shell_state q), - snd (shell_state q))%Z -> mat F p' q' = mat F p q.
    Proof.
      intros Hs E. pose proof (double_well_holds _ _ _ _ _ _ _ _ _ _ _ _ _ _ Hs E) as H. destruct (holds_fock _ _ _ _ _ _ _ _ _ _ _ H w s n x h u f A Hh Hu Hf) as (F & EF & _ & GF).
      exists F. split; [exact EF|]. intros p q p' q' Hp Hq Hp' Hq' Ep Eq. rewrite (GF p q Hp Hq), (GF p' q' Hp' Hq'). f_equal.
      exact (fock_reflect omega shell_state (double_well_element omega mass barrier axis) n partner (fun i => partner_in k n i Hk) (fun i j _ _ => partner_inj i j) (fun i _ => partner_right i) p q p' q' Ep Eq (double_well_reflect omega mass barrier axis p q p' q' Ep Eq)).
    Qed.
    Lemma closed_shell_energy npm spin anti L N omega mass e files t : 0 < mass -> 0 < omega -> sound files -> oscillator npm spin anti l L N omega mass e files = (Ok b, t) ->
      exists en, reference_energy s w = (Ok en, w) /\ nonneg (en - RtoC (omega * (INR k * (INR k + 1) * (2 * INR k + 1)) / 3))%C.
    Proof.
      intros Hm Hw Hs E. pose proof (oscillator_holds _ _ _ _ _ _ _ _ _ _ _ _ Hs E) as H.
      assert (B : plane_basis l N L mass 0 (sqrt omega) (fun x y => mass * omega ^ 2 * (x ^ 2 + y ^ 2) / 2) shell_state (fun p => orbital mass omega (shell_state p)) b).
      { assert (C1 : cached e = false \/ writable e = true \/ files (dir e) l <> None).
        { destruct (cached e) eqn:Ec; [|auto]. destruct (writable e) eqn:Ew; [auto|]. right. right. intros F. unfold oscillator, bind in E. rewrite (readonly e l files Ec Ew F) in E. discriminate E. }
        destruct (plane_oscillator npm spin anti l L N omega mass e files Hm Hw Hs C1) as (b' & s' & E' & _ & _ & B). rewrite E in E'. injection E' as <- <-. exact B. }
      destruct (plane_energy w s n l x b h mass omega N L 0 _ shell_state Hm Hw B A Hh) as (en & Ee & Ge). exists en. split; [exact Ee|].
      destruct (ho_h _ _ _ _ _ _ _ _ _ _ _ H) as (h' & Eh & _ & Gh). rewrite Hh in Eh. injection Eh as <-.
      replace (RtoC (omega * (INR k * (INR k + 1) * (2 * INR k + 1)) / 3)) with (RtoC 2 * sumn (K := CC) n (fun i => mat h i i))%C; [exact Ge|].
      transitivity (RtoC 2 * csum n (fun i => RtoC (oscillator_element omega i i)))%C; [f_equal; apply csum_ext; intros i _; apply Gh|].
      rewrite csum_rsum, (shell_sum omega k n Hk), <- RtoC_mult. f_equal. field.
    Qed.
  End Closed.
  Lemma holds_ground npm spin anti N L mass omega nm he : holds npm spin anti l N L mass omega nm he b -> n = 1%nat -> nm 0%nat = (0, 0)%Z -> 0 <= omega -> he 0%nat 0%nat = omega ->
    reference_energy s w = (Ok (RtoC (2 * omega + sqrt (PI * omega / 2))), w).
  Proof.
    intros H Hn H0 Hw He. destruct (ho_h _ _ _ _ _ _ _ _ _ _ _ H) as (h' & Eh & Sh & Gh). rewrite Hh in Eh. injection Eh as <-.
    destruct (ho_u _ _ _ _ _ _ _ _ _ _ _ H) as (u' & Eu & Su & Gu). rewrite Hu in Eu. injection Eu as <-.
    rewrite (reference_energy_ok CC w s Spatial n l x b h u A Hh Hu Sh Su). subst n. pose proof (at_le _ _ _ _ _ _ _ _ A) as Hle. f_equal. f_equal.
    assert (U : ten u 0 0 0 0 = RtoC (sqrt (PI * omega / 2))).
    { unfold ten. rewrite Gu by lia. f_equal. unfold coulomb_of. rewrite H0. cbn [fst snd Z.to_nat]. rewrite ground_element, <- sqrt_mult by (try lra; pose proof PI_RGT_0; lra). f_equal. field. }
    unfold E_restricted. cbn [sumn]. rewrite U. unfold mat. rewrite Gh, He. cbn [sadd smul ssub s0 s1 CC]. rewrite <- !RtoC_plus, <- !RtoC_mult, <- !RtoC_minus, <- !RtoC_plus. f_equal. ring.
  Qed.
  Lemma oscillator_ground npm spin anti L N omega mass e files t : 0 < omega -> sound files -> oscillator npm spin anti l L N omega mass e files = (Ok b, t) -> n = 1%nat ->
    reference_energy s w = (Ok (RtoC (2 * omega + sqrt (PI * omega / 2))), w).
  Proof.
    intros Hw Hs E Hn. eapply holds_ground; [exact (oscillator_holds _ _ _ _ _ _ _ _ _ _ _ _ Hs E) | exact Hn | reflexivity | lra|].
    unfold oscillator_element. change (shell_state 0) with (0, 0)%Z. cbn. ring.
  Qed.
  Lemma field_first omega_0 omega_c rows : omega_0 <> 0 -> field_states l omega_0 omega_c = Ok rows -> (0 < l)%nat -> nth 0 rows (0, 0)%Z = (0, 0)%Z.
  Proof.
    intros H0 Fs Hl. destruct (field_lowest l omega_0 omega_c rows H0 Fs) as [Hlen B]. destruct rows as [|r rows]; [cbn in Hlen; lia|]. cbn [nth].
    destruct (B 0%nat r eq_refl) as [Hn W]. destruct (state_eq_dec r (0, 0)%Z) as [->|D]; [reflexivity|]. exfalso.
    destruct (proj1 (W (0, 0)%Z ltac:(cbn; lia))) as (q & Hq & _); [|lia]. left. destruct (frequency omega_0 omega_c H0) as (W1 & W2 & _). set (om := sqrt _) in *.
    destruct r as [n0 m0]. cbn [fst] in Hn. unfold shell_energy_B. cbn [fst snd]. change (2 * 0 + Z.abs 0 + 1)%Z with 1%Z.
    assert (X : (1 <= 2 * n0 + Z.abs m0)%Z). { destruct (Z.eq_dec m0 0) as [->|]; [|lia]. assert (n0 <> 0)%Z by congruence. lia. }
    assert (Y : Rabs (omega_c * IZR m0) <= 2 * om * IZR (Z.abs m0)). { rewrite Rabs_mult, <- abs_IZR. apply Rmult_le_compat_r; [apply IZR_le; lia | lra]. }
    destruct (Z.eq_dec m0 0) as [->|Hm0].
    - rewrite (plus_IZR _ 1). apply IZR_le in X. pose proof (Rmult_le_compat_l om _ _ ltac:(lra) X). lra.
    - assert (Y' : Rabs (omega_c * IZR m0) < 2 * om * IZR (Z.abs m0)). { rewrite Rabs_mult, <- abs_IZR. apply Rmult_lt_compat_r; [apply IZR_lt; lia | lra]. }
      pose proof (Rle_abs (omega_c * IZR m0)). rewrite (plus_IZR _ 1), plus_IZR. assert (0 <= IZR (2 * n0)) by (apply IZR_le; lia). pose proof (Rmult_le_pos om _ ltac:(lra) H1). lra.
  Qed.
  Lemma field_ground npm spin anti L N omega_0 mass omega_c rows : omega_0 <> 0 -> field_states l omega_0 omega_c = Ok rows -> field_oscillator npm spin anti l L N omega_0 mass omega_c = (Ok tt, b) -> n = 1%nat ->
    let omega := sqrt (omega_0 ^ 2 + omega_c ^ 2 / 4) in reference_energy s w = (Ok (RtoC (2 * omega + sqrt (PI * omega / 2))), w).
  Proof.
    intros H0 Fs E Hn omega. pose proof (at_le _ _ _ _ _ _ _ _ A) as Hle. pose proof (field_first omega_0 omega_c rows H0 Fs ltac:(lia)) as F0.
    eapply holds_ground; [exact (field_holds _ _ _ _ _ _ _ _ _ _ _ Fs E) | exact Hn | exact F0 | apply sqrt_pos|].
    unfold field_element. cbn [Nat.eqb]. rewrite F0. unfold shell_energy_B. cbn [fst snd]. change (2 * 0 + Z.abs 0 + 1)%Z with 1%Z. fold omega. field.
  Qed.
End System.

(** ** Densities *)
Section Density.
  Variables (npm : nat) (spin anti : bool) (l N : nat) (L mass omega : R) (nm : nat -> Z * Z) (he : nat -> nat -> R) (b : basis CC).
  Hypothesis H : holds npm spin anti l N L mass omega nm he b.
  Variables (rho d : arr CC) (b' : basis CC).
  Hypotheses (Sr : shape rho = [l; l]) (Hr : forall p q, (p < l)%nat -> (q < l)%nat -> snd (nm p) <> snd (nm q) -> mat rho q p = RtoC 0).
  Hypothesis E : compute_particle_density rho None None b = (Ok d, b').
  Lemma phase_product n m n' r t : (Cconj (spf_state n m mass omega r t) * spf_state n' m mass omega r t)%C
    = RtoC (spf_norm n m mass omega * spf_radial n m mass omega r * (spf_norm n' m mass omega * spf_radial n' m mass omega r)).
  Proof.
    unfold spf_state, spf_theta, Cconj, Cmult, RtoC. cbn [fst snd]. pose proof (sin2_cos2 (IZR m * t)) as P. unfold Rsqr in P. f_equal; [|ring].
    set (S := sin (IZR m * t)) in *. set (Co := cos (IZR m * t)) in *. transitivity (spf_norm n m mass omega * spf_radial n m mass omega r * (spf_norm n' m mass omega * spf_radial n' m mass omega r) * (S * S + Co * Co)); [ring | rewrite P; ring].
  Qed.
  Lemma round_density i i' j : (i < N)%nat -> (i' < N)%nat -> (j < N)%nat -> get d [i; j] = get d [i'; j].
  Proof.
    intros Hi Hi' Hj. destruct (ho_spf _ _ _ _ _ _ _ _ _ _ _ H) as (a & Ea & Sa & Ga & B). pose proof (ho_np _ _ _ _ _ _ _ _ _ _ _ H) as Hnp.
    destruct (cpd_eval CC b rho a npm Hnp Ea) as (bra & b1 & Hv & _ & E'). rewrite E in E'. injection E' as E' _.
    assert (Hb : shape bra = [l; N; N] /\ forall idx, get bra idx = Cconj (get a idx)).
    { unfold bra_view in Hv. rewrite Ea in Hv. destruct B as [B|(a' & B & Sb & Gb)]; rewrite B in Hv; injection Hv as <-; [split; [exact Sa | reflexivity] | split; assumption]. }
    destruct Hb as [Sb Gb].
    assert (Hd : dt bra = dt a).
    { assert (D : {dt bra = dt a} + {dt bra <> dt a}) by decide equality. destruct D as [X|X]; [exact X|]. rewrite (particle_density_types CC rho a bra ltac:(congruence) X) in E'. discriminate E'. }
    assert (Hc : (0 < l)%nat -> castable (dt rho) (dt a) = true).
    { intros Hl. destruct (castable (dt rho) (dt a)) eqn:Ec; [reflexivity|]. rewrite (particle_density_cast CC rho a bra l l l [N; N] Sa Sb Sr Hl (le_n l) (le_n l) Hd Ec) in E'. discriminate E'. }
    destruct (particle_density_ok CC rho a bra l l l [N; N] Sa Sb Sr (le_n l) (le_n l) Hd Hc) as (d' & Ed & _ & _ & Gd). rewrite Ed in E'. injection E' as <-.
    assert (V : forall k, (k < N)%nat -> valid [N; N] [k; j]) by (intros k Hk; cbn; lia || (repeat constructor; assumption)).
    rewrite (Gd [i; j] (V i Hi)), (Gd [i'; j] (V i' Hi')). unfold density_at, orb. apply csum_ext. intros p Hp. apply csum_ext. intros q Hq. rewrite !Gb.
    change (@smul CC) with Cmult. destruct (Z.eq_dec (snd (nm p)) (snd (nm q))) as [Em|Em].
    - replace (Cconj (get a [p; i; j]) * mat rho q p * get a [q; i; j])%C with (mat rho q p * (Cconj (get a [p; i; j]) * get a [q; i; j]))%C by ring.
      replace (Cconj (get a [p; i'; j]) * mat rho q p * get a [q; i'; j])%C with (mat rho q p * (Cconj (get a [p; i'; j]) * get a [q; i'; j]))%C by ring.
      rewrite !Ga. unfold qm. rewrite <- Em. rewrite !phase_product. reflexivity.
    - rewrite (Hr p q Hp Hq Em). ring.
  Qed.
End Density.
