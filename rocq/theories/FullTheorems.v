(** The energy of a full basis set. *)
From Coq Require Import List Arith ZArith Reals Lra Lia Bool Classical.
From Coquelicot Require Import Coquelicot.
From Verif Require Import Scalar ScalarC Py Numpy BasisSet BasisSpec Spec EnergySpec EnergyFacts EnergyProofs SpinFacts SpinProofs Systems SystemFacts FockSpec FockProofs FockSystem InnerSpec InnerProofs RaiseSpec RaiseProofs FockSpectrum EvolutionProofs HoleSpec HoleProofs HoleTheorems HoleSystems.
Import ListNotations.
Open Scope R_scope.

Lemma full_energies n x (h : nat -> nat -> C) (u : nat -> nat -> nat -> nat -> C) (E : C) :
  (exists f : state, particle_state (K := CC) n n f /\ eigenstate (K := CC) n (hamiltonian (K := CC) n x h u) E f) <->
  E = expect (K := CC) n (hamiltonian (K := CC) n x h u) (lowest n).
Proof.
  set (H := hamiltonian (K := CC) n x h u). set (D := determinant (K := CC) n (lowest n)). set (e := expect (K := CC) n H (lowest n)). split.
  - intros (f & [Pf Zf] & _ & (o1 & A1 & N1) & Ef). set (c := f (lowest n)).
    assert (Ff : forall o, among n o -> f o = (c * D o)%C).
    { intros o A. destruct (Nat.eq_dec (particles n o) n) as [P|P].
      - unfold D. rewrite (det_full n o A P). unfold c. rewrite (Pf o (lowest n) (full_lowest n o A P)). apply injective_projections; cbn; ring.
      - unfold D. rewrite (det_rest n o P), (Zf o A P). apply injective_projections; cbn; ring. }
    pose proof (linear_among n H f (fun o => (c * D o)%C) (hamiltonian_linear CC n x h u) (hamiltonian_keeps n x h u) Ff o1 A1) as E1.
    rewrite (Ef o1 A1) in E1. destruct (hamiltonian_linear CC n x h u) as [_ L _]. pose proof (L c D o1) as E2. fold H in E2.
    change (@smul CC) with Cmult in E1, E2. rewrite E2 in E1. unfold H, D in E1. rewrite (H_full n x h u o1 A1) in E1. fold H D e in E1.
    rewrite (Ff o1 A1) in E1, N1.
    assert (Z : ((E - e) * (c * D o1) = 0)%C).
    { transitivity (E * (c * D o1) - c * (e * D o1))%C; [apply injective_projections; cbn; ring|]. rewrite E1. apply injective_projections; cbn; ring. }
    apply NNPP. intros N. apply (Cmult_neq_0 (E - e)%C (c * D o1)%C); [|exact N1 | exact Z].
    intros W. apply N. transitivity (E - e + e)%C; [apply injective_projections; cbn; ring|]. rewrite W. apply injective_projections; cbn; ring.
  - intros ->. exists D. split; [apply D_state|]. split; [apply det_proper|]. split.
    + exists (lowest n). split; [apply lowest_among|]. unfold D. rewrite (det_self CC). intros Z. apply (f_equal fst) in Z. cbn in Z. lra.
    + intros o A. apply (H_full n x h u o A).
Qed.
Lemma full_kind k l (h : nat -> nat -> C) (u : nat -> nat -> nat -> nat -> C) (E : R) : (k = General -> antisym_ket (K := CC) l u) ->
  exact_energy k l h u (spin_orbitals k l) E <-> RtoC E = energy_full k l h u.
Proof.
  intros Ha. destruct k; cbn [spin_orbitals energy_full]; unfold exact_energy; cbn [spin_orbitals many_body].
  - rewrite full_energies, <- (energy_expectation CC l l h u (le_n l) (Ha eq_refl)). reflexivity.
  - rewrite <- (energy_doubled CC l h u), (energy_expectation CC (2 * l) (2 * l) _ _ (le_n _) (antisym_ket_exch CC (2 * l) _)), <- full_energies.
    split; intros (f & S & P & N & Ef); exists f; (split; [exact S|]); (split; [exact P|]); (split; [exact N|]); intros o A;
      rewrite <- (Ef o A); [|symmetry]; apply (ham_exch CC (2 * l)); exact P.
Qed.
Lemma full_system (w : world CC) s k l x (b : basis CC) (h u : arr CC) : sys_at w s k l l x b -> b_arr b F_h = Some h -> b_arr b F_u = Some u ->
  (k = General -> antisym_ket (K := CC) l (ten u)) ->
  exists e : C, reference_energy s w = (Ok e, w) /\ forall E, exact_energy k l (mat h) (ten u) (spin_orbitals k l) E <-> RtoC E = e.
Proof.
  intros A Hh Hu Ha.
  destruct (r_h CC b l (at_ready CC _ _ _ _ _ _ _ A)) as (h0 & Hh0 & Sh).
  destruct (r_u CC b l (at_ready CC _ _ _ _ _ _ _ A)) as (u0 & Hu0 & Su).
  assert (h0 = h) by congruence. assert (u0 = u) by congruence. subst h0 u0.
  exists (energy_full k l (mat h) (ten u)). split.
  - rewrite (reference_energy_ok CC w s k l l x b h u A Hh Hu Sh Su). destruct k; reflexivity.
  - intros E. apply full_kind, Ha.
Qed.
(** No place for more electrons *)
Lemma overfull k l h u m E : (spin_orbitals k l < m)%nat -> ~ exact_energy k l h u m E.
Proof.
  intros Hm (f & [_ Z] & _ & (o & A & N) & _). apply N. apply Z; [exact A|]. pose proof (particles_le (spin_orbitals k l) o). lia.
Qed.
