(** The energies of one hole, for both kinds of systems. *)
From Coq Require Import List Arith ZArith Reals Lra Lia Bool Classical.
From Coquelicot Require Import Coquelicot.
From Verif Require Import Scalar ScalarC Py Numpy BasisSet BasisSpec Spec EnergySpec EnergyFacts EnergyProofs SpinFacts SpinProofs Systems SystemFacts FockSpec FockProofs FockSystem InnerSpec InnerProofs RaiseSpec RaiseProofs FockSpectrum EvolutionProofs HoleSpec HoleProofs HoleTheorems.
Import ListNotations.
Open Scope R_scope.

Lemma general_matrix l (h : nat -> nat -> C) (u : nat -> nat -> nat -> nat -> C) p q : (p < l)%nat -> (q < l)%nat -> antisym_ket (K := CC) l u -> particle_sym (K := CC) l u ->
  hole_matrix CC l (quarter (K := CC)) h u p q = F_general (K := CC) l h u p q.
Proof.
  intros Hp Hq A P. rewrite <- (fock_general_occ CC l l h u p q (le_n l) Hp Hq A P). unfold hole_matrix.
  rewrite <- (sumn_sub CC). f_equal. f_equal. apply (sumn_ext CC). intros j Hj. unfold occ, lowest. rewrite (proj2 (Nat.ltb_lt j l) Hj).
  apply injective_projections; cbn; ring.
Qed.
Lemma eigenvalue_ext l (A B : nat -> nat -> C) x : (forall p q, (p < l)%nat -> (q < l)%nat -> A p q = B p q) -> eigenvalue l A x <-> eigenvalue l B x.
Proof.
  intros H. split; intros (c & N & E); exists c; (split; [exact N|]); intros p Hp; rewrite <- (E p Hp); apply (sumn_ext CC); intros q Hq; rewrite (H p q Hp Hq); reflexivity.
Qed.
Lemma conj_zero (z : C) : Cconj z = RtoC 0 -> z = RtoC 0.
Proof. intros H. apply injective_projections; [exact (f_equal fst H)|]. pose proof (f_equal snd H) as E. cbn in E |- *. lra. Qed.
Lemma left_right l (A : nat -> nat -> C) (x : R) : hermitian (K := CC) l A ->
  (exists c : nat -> C, (exists p, (p < l)%nat /\ c p <> RtoC 0) /\ forall v, (v < l)%nat -> S_ l (fun p => (c p * A p v)%C) = (RtoC x * c v)%C) <->
  eigenvalue l A x.
Proof.
  intros H. split; intros (c & (p & Hp & N) & E); exists (fun p => Cconj (c p)).
  - split; [exists p; split; [exact Hp|]; intros Z; exact (N (conj_zero _ Z))|].
    intros q Hq. pose proof (f_equal Cconj (E q Hq)) as F. change Cconj with (@sconj CC) in F at 1. rewrite (sumn_conj CC) in F.
    transitivity (Cconj (RtoC x * c q)%C); [|apply injective_projections; cbn; ring]. rewrite <- F. apply (sumn_ext CC). intros r Hr.
    rewrite (H q r Hq Hr). apply injective_projections; cbn; ring.
  - split; [exists p; split; [exact Hp|]; intros Z; exact (N (conj_zero _ Z))|].
    intros q Hq. pose proof (f_equal Cconj (E q Hq)) as F. change Cconj with (@sconj CC) in F at 1. rewrite (sumn_conj CC) in F.
    transitivity (Cconj (RtoC x * c q)%C); [|apply injective_projections; cbn; ring]. rewrite <- F. apply (sumn_ext CC). intros r Hr.
    rewrite (H r q Hr Hq). apply injective_projections; cbn; ring.
Qed.
Lemma hole_general l (h : nat -> nat -> C) (u : nat -> nat -> nat -> nat -> C) (E : R) : (0 < l)%nat ->
  hermitian (K := CC) l h -> hermitian2 (K := CC) l u -> antisym_ket (K := CC) l u -> particle_sym (K := CC) l u ->
  (exists f : state, particle_state (K := CC) l (l - 1) f /\ eigenstate (K := CC) l (hamiltonian (K := CC) l (quarter (K := CC)) h u) (RtoC E) f) <->
  eigenvalue l (F_general (K := CC) l h u) (Re (E_general (K := CC) l h u) - E).
Proof.
  intros Hl Hh Hu Ha Hp. rewrite (hole_energies l (quarter (K := CC)) h u Hl (RtoC E)).
  rewrite <- (energy_expectation CC l l h u (le_n l) Ha).
  pose proof (energy_general_real CC l l h u (le_n l) Hh Hu) as Re'. set (e := E_general (K := CC) l h u) in *.
  assert (Ee : (e - RtoC E)%C = RtoC (Re e - E)).
  { apply injective_projections; cbn; [reflexivity|]. pose proof (f_equal snd Re') as Z. cbn in Z. unfold Re. lra. }
  rewrite Ee. rewrite <- (left_right l (F_general (K := CC) l h u)) by (apply (fock_general_hermitian CC l l); [lia | assumption | assumption]).
  split; intros (c & N & Ec); exists c; (split; [exact N|]); intros v Hv; rewrite <- (Ec v Hv); apply (sumn_ext CC); intros p Hp';
    rewrite (general_matrix l h u p v) by assumption; reflexivity.
Qed.
Lemma double_sum l (A : nat -> nat -> C) (c : nat -> C) P : S_ (2 * l) (fun Q => (dbl1 (K := CC) A P Q * c Q)%C) =
  S_ l (fun q => (A (P / 2)%nat q * c (2 * q + (if Nat.even P then 0 else 1))%nat)%C).
Proof.
  rewrite (sumn_double CC). apply (sumn_ext CC). intros q _. unfold dbl1, same_parity. rewrite even_2k, even_2k1, div_2k, div_2k1.
  destruct (Nat.even P); cbn [Bool.eqb]; rewrite ?Nat.add_0_r; apply injective_projections; cbn; ring.
Qed.
Lemma eigenvalue_double l (A : nat -> nat -> C) x : eigenvalue (2 * l) (dbl1 (K := CC) A) x <-> eigenvalue l A x.
Proof.
  split; intros (c & (p & Hp & N) & E).
  - exists (fun q => c (2 * q + (if Nat.even p then 0 else 1))%nat).
    assert (Ep : (p = 2 * (p / 2) + (if Nat.even p then 0 else 1))%nat).
    { rewrite (Nat.div_mod p 2) at 1 by lia. f_equal. pose proof (Nat.mod_upper_bound p 2 ltac:(lia)).
      destruct (Nat.even p) eqn:Ev; [apply Nat.even_spec in Ev; destruct Ev as (k & ->); rewrite Nat.mul_comm; apply Nat.mod_mul; lia|].
      assert (O : Nat.odd p = true) by (rewrite <- Nat.negb_even, Ev; reflexivity). apply Nat.odd_spec in O. destruct O as (k & ->).
      rewrite Nat.add_comm, Nat.mul_comm, Nat.mod_add by lia. reflexivity. }
    split; [exists (p / 2)%nat; split; [apply div2_lt, Hp | rewrite <- Ep; exact N]|].
    intros q Hq. set (t := if Nat.even p then 0%nat else 1%nat). assert (Q : (2 * q + t < 2 * l)%nat) by (unfold t; destruct (Nat.even p); lia).
    pose proof (E _ Q) as F. rewrite double_sum in F. rewrite <- F.
    assert (E1 : ((2 * q + t) / 2 = q)%nat) by (unfold t; destruct (Nat.even p); [rewrite Nat.add_0_r; apply div_2k | apply div_2k1]).
    assert (E2 : (if Nat.even (2 * q + t) then 0 else 1)%nat = t) by (unfold t; destruct (Nat.even p); [rewrite Nat.add_0_r, even_2k | rewrite even_2k1]; reflexivity).
    rewrite E1, E2. reflexivity.
  - exists (fun P => if Nat.even P then c (P / 2)%nat else RtoC 0). split.
    { exists (2 * p)%nat. split; [lia|]. rewrite even_2k, div_2k. exact N. }
    intros P HP. rewrite double_sum. destruct (Nat.even P) eqn:Ev.
    + rewrite <- (E (P / 2)%nat (div2_lt _ _ HP)). apply (sumn_ext CC). intros q _. rewrite Nat.add_0_r, even_2k, div_2k. reflexivity.
    + transitivity (RtoC 0); [|apply injective_projections; cbn; ring]. apply (sumn_zero' CC). intros q _. rewrite even_2k1. apply injective_projections; cbn; ring.
Qed.
Definition fock_full (k : kind) (l : nat) (h : nat -> nat -> C) (u : nat -> nat -> nat -> nat -> C) : nat -> nat -> C :=
  match k with General => F_general (K := CC) l h u | Spatial => F_restricted (K := CC) l h u end.
Definition energy_full (k : kind) (l : nat) (h : nat -> nat -> C) (u : nat -> nat -> nat -> nat -> C) : C :=
  match k with General => E_general (K := CC) l h u | Spatial => E_restricted (K := CC) l h u end.
Lemma hole_kind k l (h : nat -> nat -> C) (u : nat -> nat -> nat -> nat -> C) (E : R) : (0 < l)%nat ->
  hermitian (K := CC) l h -> hermitian2 (K := CC) l u -> (k = General -> antisym_ket (K := CC) l u) -> particle_sym (K := CC) l u ->
  exact_energy k l h u (spin_orbitals k l - 1) E <-> eigenvalue l (fock_full k l h u) (Re (energy_full k l h u) - E).
Proof.
  intros Hl Hh Hu Ha Hp. destruct k; cbn [spin_orbitals fock_full energy_full].
  - apply hole_general; auto.
  - unfold exact_energy. cbn [spin_orbitals many_body].
    rewrite <- (energy_doubled CC l h u).
    pose proof (hole_general (2 * l) (dbl1 (K := CC) h) (exch (K := CC) (dbl2 (K := CC) u)) E ltac:(lia) (dbl1_hermitian CC l h Hh)
      (exch_hermitian CC (2 * l) _ (dbl2_hermitian CC l u Hu) (particle_sym_dbl2 CC l u Hp)) (antisym_ket_exch CC (2 * l) _)
      (particle_sym_exch CC (2 * l) _ (particle_sym_dbl2 CC l u Hp))) as X.
    rewrite <- (eigenvalue_double l). rewrite (eigenvalue_ext (2 * l) _ (F_general (K := CC) (2 * l) (dbl1 (K := CC) h) (exch (K := CC) (dbl2 (K := CC) u)))).
    2: { intros p q _ _. symmetry. apply (fock_doubled CC). }
    rewrite <- X. split; intros (f & S & P & N & Ef); exists f; (split; [exact S|]); (split; [exact P|]); (split; [exact N|]); intros o A;
      rewrite <- (Ef o A); [|symmetry]; apply (ham_exch CC (2 * l)); exact P.
Qed.
Lemma hole_system (w : world CC) s k l x (b : basis CC) (h u : arr CC) f : sys_at w s k l l x b -> (0 < l)%nat -> b_arr b F_h = Some h -> b_arr b F_u = Some u -> buffer_ok f h u ->
  hermitian (K := CC) l (mat h) -> hermitian2 (K := CC) l (ten u) -> (k = General -> antisym_ket (K := CC) l (ten u)) -> particle_sym (K := CC) l (ten u) ->
  exists (e : R) F, reference_energy s w = (Ok (RtoC e), w) /\ fock_matrix s h u f w = (Ok F, w) /\
    forall E, exact_energy k l (mat h) (ten u) (spin_orbitals k l - 1) E <-> eigenvalue l (mat F) (e - E).
Proof.
  intros A Hl Hh Hu Hf H1 H2 H3 H4.
  destruct (r_h CC b l (at_ready CC _ _ _ _ _ _ _ A)) as (h0 & Hh0 & Sh).
  destruct (r_u CC b l (at_ready CC _ _ _ _ _ _ _ A)) as (u0 & Hu0 & Su).
  assert (h0 = h) by congruence. assert (u0 = u) by congruence. subst h0 u0.
  destruct (fock_matrix_ok CC w s k l l x b h u f A Sh Su Hf) as (F & EF & SF & GF).
  exists (Re (energy_full k l (mat h) (ten u))), F. split; [|split; [exact EF|]].
  - rewrite (reference_energy_ok CC w s k l l x b h u A Hh Hu Sh Su). f_equal. f_equal.
    assert (R : sconj (s := CC) (energy_full k l (mat h) (ten u)) = energy_full k l (mat h) (ten u)).
    { destruct k; cbn [energy_full]; [apply (energy_general_real CC l) | apply (energy_restricted_real CC l)]; auto. }
    transitivity (energy_full k l (mat h) (ten u)); [destruct k; reflexivity|].
    apply injective_projections; cbn; [reflexivity|]. pose proof (f_equal snd R) as Z. cbn in Z. lra.
  - intros E. rewrite (hole_kind k l (mat h) (ten u) E Hl H1 H2 H3 H4). apply eigenvalue_ext. intros p q Hp Hq. rewrite GF by assumption.
    destruct k; reflexivity.
Qed.
