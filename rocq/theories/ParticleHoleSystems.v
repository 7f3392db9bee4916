(** Energies of holes as energies of particles, for both kinds of systems. *)
From Coq Require Import List Arith ZArith Reals Lra Lia Bool Classical.
From Coquelicot Require Import Coquelicot.
From Verif Require Import Scalar ScalarC Py Numpy BasisSet BasisSpec Spec EnergySpec EnergyFacts EnergyProofs SpinFacts SpinProofs Systems SystemFacts FockSpec FockProofs FockSystem InnerSpec InnerProofs RaiseSpec RaiseProofs FockSpectrum EvolutionProofs HoleSpec HoleProofs HoleTheorems HoleSystems ParticleHole.
Import ListNotations.
Open Scope R_scope.

Section Holes.
  Variables (n : nat) (u : nat -> nat -> nat -> nat -> C).
  Hypotheses (Hu : hermitian2 (K := CC) n u) (Hk : antisym_ket (K := CC) n u) (Hp : particle_sym (K := CC) n u).
  Let ham h := hamiltonian (K := CC) n (quarter (K := CC)) h u.
  Let level h m (E : R) := exists f : state, particle_state (K := CC) n m f /\ eigenstate (K := CC) n (ham h) (RtoC E) f.
  Let minus_fock h (p q : nat) : C := Copp (F_general (K := CC) n h u p q).

  Lemma minus_hermitian h : hermitian (K := CC) n h -> hermitian (K := CC) n (minus_fock h).
  Proof.
    intros Hh p q H1 H2. unfold minus_fock. change Copp with (@sopp CC). rewrite (conj_opp CC). f_equal.
    apply (fock_general_hermitian CC n n); [lia | assumption | assumption | assumption | assumption].
  Qed.
  Lemma level_ext h h' m E : (forall p q, (p < n)%nat -> (q < n)%nat -> h p q = h' p q) -> level h m E -> level h' m E.
  Proof.
    intros He (f & S & P & N & Ef). exists f. split; [exact S|]. split; [exact P|]. split; [exact N|]. intros o A. rewrite <- (Ef o A). symmetry.
    apply (ham_ext CC n (quarter (K := CC)) h u h' u f o); [exact He | reflexivity].
  Qed.
  Lemma level_swap h m (e E : R) : hermitian (K := CC) n h -> E_general (K := CC) n h u = RtoC e -> (m <= n)%nat -> level h (n - m) E -> level (minus_fock h) m (E - e).
  Proof.
    intros Hh He Hm (f & [Pf Zf] & _ & (o1 & A1 & N1) & Ef). exists (swap CC n f). assert (Ps := swap_proper CC n f Pf). split; [|split; [exact Ps|split]].
    - split; [exact Ps|]. intros o A P. unfold swap. rewrite (Zf (flip n o) (flip_among n o A)); [change (@sconj CC) with Cconj; apply injective_projections; cbn; ring|].
      pose proof (particles_flip n n o (le_n n)). lia.
    - exists (flip n o1). split; [apply flip_among, A1|]. unfold swap. rewrite (Pf (flip n (flip n o1)) o1) by (intros; apply flip_flip). intros Z. apply N1.
      apply conj_zero. transitivity (phase CC n (flip n o1) * (phase CC n (flip n o1) * Cconj (f o1)))%C.
      + rewrite Cmult_assoc. pose proof (phase_square CC n (flip n o1)) as Q. change (@smul CC) with Cmult in Q. rewrite Q. change (Cconj (f o1) = (RtoC 1 * Cconj (f o1))%C). apply injective_projections; cbn; ring.
      + change (Cmult (phase CC n (flip n o1)) (Cconj (f o1)) = RtoC 0) in Z. rewrite Z. apply injective_projections; cbn; ring.
    - intros o A. pose proof (swap_hamiltonian CC n h u f Pf Hh Hu Hk Hp o) as X. rewrite He in X. fold (ham h) in X.
      assert (L : swap CC n (ham h f) o = (RtoC E * swap CC n f o)%C).
      { unfold swap. rewrite (Ef (flip n o) (flip_among n o A)). change (@sconj CC) with Cconj. change (@smul CC) with Cmult.
        apply injective_projections; cbn; ring. }
      rewrite L in X. unfold ham. change (@smul CC) with Cmult in X |- *. change (@sadd CC) with Cplus in X.
      set (Y := hamiltonian (K := CC) n (quarter (K := CC)) (minus_fock h) u (swap CC n f) o).
      change (RtoC E * swap CC n f o = RtoC e * swap CC n f o + Y)%C in X.
      transitivity (RtoC e * swap CC n f o + Y - RtoC e * swap CC n f o)%C; [apply injective_projections; cbn; ring|]. rewrite <- X.
      apply injective_projections; cbn; ring.
  Qed.
  Lemma minus_energy h (e : R) : E_general (K := CC) n h u = RtoC e -> E_general (K := CC) n (minus_fock h) u = RtoC (- e).
  Proof.
    intros He. transitivity (Copp (E_general (K := CC) n h u)); [|rewrite He; apply injective_projections; cbn; ring].
    unfold E_general, minus_fock, F_general. change Copp with (@sopp CC). rewrite (sumn_opp CC), (sumn_add CC).
    set (a := S_ n (fun k => h k k)). set (s := S_ n (fun i => S_ n (fun j => u i j i j))).
    pose proof (half_half CC) as Q. change (@sadd CC) with Cplus in Q |- *. change (@smul CC) with Cmult. change (@sopp CC) with Copp.
    transitivity (- (a + (shalf (s := CC) + shalf (s := CC)) * s) + shalf (s := CC) * s)%C; [|apply injective_projections; cbn; ring].
    rewrite Q. change (- (a + s) + shalf (s := CC) * s = - (a + RtoC 1 * s) + shalf (s := CC) * s)%C. apply injective_projections; cbn; ring.
  Qed.
  Lemma level_iff h m (e E : R) : hermitian (K := CC) n h -> E_general (K := CC) n h u = RtoC e -> (m <= n)%nat ->
    level h (n - m) E <-> level (minus_fock h) m (E - e).
  Proof.
    intros Hh He Hm. split; [apply level_swap; assumption|]. intros L.
    pose proof (level_swap (minus_fock h) (n - m) (- e) (E - e) (minus_hermitian h Hh) (minus_energy h e He) ltac:(lia)) as X.
    replace (n - (n - m))%nat with m in X by lia. specialize (X L). replace (E - e - - e) with E in X by ring. revert X. apply level_ext.
    intros p q _ _. unfold minus_fock, F_general. change (@sadd CC) with Cplus. apply injective_projections; cbn; ring.
  Qed.
End Holes.

Lemma swap_kind k l (h : nat -> nat -> C) (u : nat -> nat -> nat -> nat -> C) m (E : R) : (m <= spin_orbitals k l)%nat ->
  hermitian (K := CC) l h -> hermitian2 (K := CC) l u -> (k = General -> antisym_ket (K := CC) l u) -> particle_sym (K := CC) l u ->
  exact_energy k l h u (spin_orbitals k l - m) E <->
  exact_energy k l (fun p q => Copp (fock_full k l h u p q)) u m (E - Re (energy_full k l h u)).
Proof.
  intros Hm Hh Hu Ha Hp.
  assert (R : sconj (s := CC) (energy_full k l h u) = energy_full k l h u).
  { destruct k; cbn [energy_full]; [apply (energy_general_real CC l) | apply (energy_restricted_real CC l)]; auto. }
  assert (Re' : energy_full k l h u = RtoC (Re (energy_full k l h u))).
  { apply injective_projections; cbn; [reflexivity|]. pose proof (f_equal snd R) as Z. cbn in Z. lra. }
  destruct k; cbn [spin_orbitals fock_full energy_full] in *.
  - exact (level_iff l u Hu (Ha eq_refl) Hp h m _ E Hh Re' Hm).
  - rewrite <- (energy_doubled CC l h u) in *.
    pose proof (level_iff (2 * l) (exch (K := CC) (dbl2 (K := CC) u))
      (exch_hermitian CC (2 * l) _ (dbl2_hermitian CC l u Hu) (particle_sym_dbl2 CC l u Hp)) (antisym_ket_exch CC (2 * l) _)
      (particle_sym_exch CC (2 * l) _ (particle_sym_dbl2 CC l u Hp)) (dbl1 (K := CC) h) m _ E (dbl1_hermitian CC l h Hh) Re' Hm) as X.
    unfold exact_energy. cbn [spin_orbitals many_body].
    transitivity (exists f : state, particle_state (K := CC) (2 * l) (2 * l - m) f /\ eigenstate (K := CC) (2 * l) (hamiltonian (K := CC) (2 * l) (quarter (K := CC)) (dbl1 (K := CC) h) (exch (K := CC) (dbl2 (K := CC) u))) (RtoC E) f).
    { split; intros (f & S & P & N & Ef); exists f; (split; [exact S|]); (split; [exact P|]); (split; [exact N|]); intros o A;
        rewrite <- (Ef o A); [|symmetry]; apply (ham_exch CC (2 * l)); exact P. }
    rewrite X. clear X.
    assert (G : forall f o, hamiltonian (K := CC) (2 * l) (quarter (K := CC)) (fun p q => Copp (F_general (K := CC) (2 * l) (dbl1 (K := CC) h) (exch (K := CC) (dbl2 (K := CC) u)) p q)) (exch (K := CC) (dbl2 (K := CC) u)) f o =
      hamiltonian (K := CC) (2 * l) (quarter (K := CC)) (dbl1 (K := CC) (fun p q => Copp (F_restricted (K := CC) l h u p q))) (exch (K := CC) (dbl2 (K := CC) u)) f o).
    { intros f o. apply (ham_ext CC); [|reflexivity]. intros p q _ _. rewrite (fock_doubled CC). unfold dbl1. destruct (same_parity p q); [reflexivity|]. apply injective_projections; cbn; ring. }
    split; intros (f & S & P & N & Ef); exists f; (split; [exact S|]); (split; [exact P|]); (split; [exact N|]); intros o A; rewrite <- (Ef o A).
    + rewrite (G f o). symmetry. apply (ham_exch CC (2 * l)); exact P.
    + rewrite (G f o). apply (ham_exch CC (2 * l)); exact P.
Qed.
Lemma swap_system (w : world CC) s k l x (b : basis CC) (h u : arr CC) f : sys_at w s k l l x b -> b_arr b F_h = Some h -> b_arr b F_u = Some u -> buffer_ok f h u ->
  hermitian (K := CC) l (mat h) -> hermitian2 (K := CC) l (ten u) -> (k = General -> antisym_ket (K := CC) l (ten u)) -> particle_sym (K := CC) l (ten u) ->
  exists (e : R) F, reference_energy s w = (Ok (RtoC e), w) /\ fock_matrix s h u f w = (Ok F, w) /\
    forall m E, (m <= spin_orbitals k l)%nat ->
      exact_energy k l (mat h) (ten u) (spin_orbitals k l - m) E <-> exact_energy k l (fun p q => Copp (mat F p q)) (ten u) m (E - e).
Proof.
  intros A Hh Hu Hf H1 H2 H3 H4.
  destruct (r_h CC b l (at_ready CC _ _ _ _ _ _ _ A)) as (h0 & Hh0 & Sh).
  destruct (r_u CC b l (at_ready CC _ _ _ _ _ _ _ A)) as (u0 & Hu0 & Su).
  assert (h0 = h) by congruence. assert (u0 = u) by congruence. subst h0 u0.
  destruct (fock_matrix_ok CC w s k l l x b h u f A Sh Su Hf) as (F & EF & SF & GF).
  exists (Re (energy_full k l (mat h) (ten u))), F. split; [|split; [exact EF|]].
  - rewrite (reference_energy_ok CC w s k l l x b h u A Hh Hu Sh Su). f_equal. f_equal.
    assert (R : sconj (s := CC) (energy_full k l (mat h) (ten u)) = energy_full k l (mat h) (ten u)).
    { destruct k; cbn [energy_full]; [apply (energy_general_real CC l) | apply (energy_restricted_real CC l)]; auto. }
    transitivity (energy_full k l (mat h) (ten u)); [destruct k; reflexivity|].
    apply injective_projections; cbn; [reflexivity|]. pose proof (f_equal snd R) as Z. cbn in Z. lra.
  - intros m E Hm. rewrite (swap_kind k l (mat h) (ten u) m E Hm H1 H2 H3 H4).
    assert (G : forall P Q, (P < l)%nat -> (Q < l)%nat -> Copp (fock_full k l (mat h) (ten u) P Q) = Copp (mat F P Q)).
    { intros P Q HP HQ. rewrite GF by assumption. destruct k; reflexivity. }
    assert (M : forall (g : state) o, many_body k l (fun p q => Copp (fock_full k l (mat h) (ten u) p q)) (ten u) g o = many_body k l (fun p q => Copp (mat F p q)) (ten u) g o).
    { intros g o. destruct k; cbn [many_body]; apply (ham_ext CC); try reflexivity; intros P Q HP HQ; [apply G; assumption|].
      unfold dbl1. destruct (same_parity P Q); [|reflexivity]. apply G; apply div2_lt; assumption. }
    split; intros (g & S & P & N & Ef); exists g; (split; [exact S|]); (split; [exact P|]); (split; [exact N|]); intros o Ao; rewrite <- (Ef o Ao);
      [symmetry|]; apply M.
Qed.
