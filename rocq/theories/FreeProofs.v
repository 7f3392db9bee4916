(** Exact states and energies of electrons that do not interact. *)
From Coq Require Import List Arith ZArith Reals Lra Lia Bool Permutation Sorting.Sorted.
From Coquelicot Require Import Coquelicot.
From Verif Require Import Scalar ScalarC Spec OneDimSpec BasisSet Systems DotProofs SpectralSpec SpectralProofs.
From Verif Require Import KineticSpec FockSpec FockProofs InnerSpec InnerProofs RaiseSpec RaiseProofs RaiseFock RaiseTheorems FockSpectrumSpec FockSpectrum GroundTheorems VariationalSpec VariationalTheorems StrengthProofs FreeSpec.
Import ListNotations.
Open Scope R_scope.
Local Notation S_ := (sumn (K := CC)).
Local Notation state := (FockSpec.state CC).
Local Notation inner := (InnerSpec.inner (K := CC)).

(** ** Sorting *)
Fixpoint place (w : nat -> R) (i : nat) (xs : list nat) : list nat :=
  match xs with [] => [i] | j :: r => if Rle_dec (w i) (w j) then i :: xs else j :: place w i r end.
Fixpoint arrange (w : nat -> R) (xs : list nat) : list nat := match xs with [] => [] | i :: r => place w i (arrange w r) end.
Lemma place_perm w i xs : Permutation (place w i xs) (i :: xs).
Proof. induction xs as [|j r IH]; [reflexivity|]. cbn. destruct (Rle_dec (w i) (w j)); [reflexivity|]. rewrite IH. apply perm_swap. Qed.
Lemma arrange_perm w xs : Permutation (arrange w xs) xs.
Proof. induction xs as [|i r IH]; [reflexivity|]. cbn. rewrite place_perm, IH. reflexivity. Qed.
Lemma place_sorted w i xs : StronglySorted (fun a b => w a <= w b) xs -> StronglySorted (fun a b => w a <= w b) (place w i xs).
Proof.
  induction 1 as [|j r Hr IH Hj]; [repeat constructor|]. cbn. destruct (Rle_dec (w i) (w j)) as [L|L].
  - constructor; [constructor; assumption|]. constructor; [exact L|]. revert Hj. apply List.Forall_impl. intros a Ha. lra.
  - constructor; [exact IH|]. apply List.Forall_forall. intros a Ha. apply (Permutation_in _ (place_perm w i r)) in Ha. destruct Ha as [->|Ha]; [lra|]. rewrite List.Forall_forall in Hj. apply Hj, Ha.
Qed.
Lemma arrange_sorted w xs : StronglySorted (fun a b => w a <= w b) (arrange w xs).
Proof. induction xs as [|i r IH]; [constructor|]. apply place_sorted, IH. Qed.
Lemma sorted_nth (w : nat -> R) xs : StronglySorted (fun a b => w a <= w b) xs -> forall p q, (p <= q)%nat -> (q < length xs)%nat -> w (nth p xs 0%nat) <= w (nth q xs 0%nat).
Proof.
  induction 1 as [|j r Hr IH Hj]; intros p q Hp Hq; [cbn in Hq; lia|]. destruct p as [|p], q as [|q]; [lra | | lia |].
  - cbn. rewrite List.Forall_forall in Hj. apply Hj, nth_In. cbn in Hq. lia.
  - cbn. apply IH; [lia|]. cbn in Hq. lia.
Qed.
Lemma ordering (w : nat -> R) d : exists pi, (forall p, (p < d)%nat -> (pi p < d)%nat) /\ (forall p q, (p < d)%nat -> (q < d)%nat -> pi p = pi q -> p = q) /\
  (forall i, (i < d)%nat -> exists p, (p < d)%nat /\ pi p = i) /\ (forall p q, (p <= q)%nat -> (q < d)%nat -> w (pi p) <= w (pi q)).
Proof.
  pose proof (arrange_perm w (seq 0 d)) as P. pose proof (Permutation_length P) as Ln. rewrite seq_length in Ln. exists (fun p => nth p (arrange w (seq 0 d)) 0%nat). repeat split.
  - intros p Hp. pose proof (nth_In (arrange w (seq 0 d)) 0%nat (eq_ind_r (fun n => (p < n)%nat) Hp Ln)) as H. apply (Permutation_in _ P), in_seq in H. lia.
  - intros p q Hp Hq. apply (proj1 (NoDup_nth _ _) (Permutation_NoDup (Permutation_sym P) (seq_NoDup d 0))); lia.
  - intros i Hi. assert (H : In i (arrange w (seq 0 d))) by (apply (Permutation_in _ (Permutation_sym P)), in_seq; lia). destruct (In_nth _ _ 0%nat H) as (p & Hp & E). exists p. split; [lia | exact E].
  - intros p q Hp Hq. apply sorted_nth; [apply arrange_sorted | exact Hp | lia].
Qed.

(** ** Diagonal operators *)
Lemma level_sum_rsum n e o : RtoC (level_sum n e o) = S_ n (fun p => RtoC (if o p then e p else 0)).
Proof. induction n as [|n IH]; [reflexivity|]. cbn [level_sum sumn]. rewrite RtoC_plus, IH. reflexivity. Qed.
Lemma level_sum_ext n e o o' : (forall p, (p < n)%nat -> o p = o' p) -> level_sum n e o = level_sum n e o'.
Proof. induction n as [|n IH]; intros H; [reflexivity|]. cbn. rewrite IH, H by (intros; try apply H; lia). reflexivity. Qed.
Lemma diagonal_one n h e (f : state) o : diagonal_energies n h e -> proper f -> one_body (K := CC) n h f o = (RtoC (level_sum n e o) * f o)%C.
Proof.
  intros D Pf. unfold one_body. rewrite level_sum_rsum. etransitivity; [|exact (eq_sym (sumn_mul_r CC n (f o) (fun p => RtoC (if o p then e p else 0))))].
  apply csum_ext. intros p Hp. rewrite (csum_pick n p); [|exact Hp|].
  - rewrite (D p p Hp Hp), Nat.eqb_refl, (number_at CC p f o Pf). destruct (o p); [reflexivity|]. apply injective_projections; cbn; ring.
  - intros q Hq Ne. rewrite (D p q Hp Hq), (proj2 (Nat.eqb_neq p q)) by congruence. apply injective_projections; cbn; ring.
Qed.
Lemma no_two n u (f : state) o : vanishing n u -> two_body (K := CC) n u f o = RtoC 0.
Proof.
  intros V. unfold two_body. apply csum_zero. intros p Hp. apply csum_zero. intros q Hq. apply csum_zero. intros r Hr. apply csum_zero. intros s Hs. rewrite (V p q r s Hp Hq Hr Hs). apply injective_projections; cbn; ring.
Qed.
Lemma doubled_diagonal l h e : diagonal_energies l h e -> diagonal_energies (2 * l) (dbl1 (K := CC) h) (spin_energy Spatial e).
Proof.
  intros D P Q HP HQ. unfold dbl1, spin_energy. assert (HP2 : (P / 2 < l)%nat) by (apply Nat.div_lt_upper_bound; lia). assert (HQ2 : (Q / 2 < l)%nat) by (apply Nat.div_lt_upper_bound; lia).
  rewrite (D _ _ HP2 HQ2). unfold same_parity. destruct (Nat.eqb_spec P Q) as [->|Ne]; [rewrite Nat.eqb_refl, eqb_reflx; reflexivity|].
  destruct (eqb (Nat.even P) (Nat.even Q)) eqn:E; [|reflexivity]. destruct (Nat.eqb_spec (P / 2) (Q / 2)) as [E2|E2]; [|reflexivity].
  exfalso. apply Ne. apply eqb_prop in E. pose proof (Nat.div2_odd P) as A1. pose proof (Nat.div2_odd Q) as A2. rewrite Nat.div2_div in A1, A2. unfold Nat.odd in A1, A2. rewrite A1, A2, E, E2. reflexivity.
Qed.
Lemma doubled_vanishing l u : vanishing l u -> vanishing (2 * l) (dbl2 (K := CC) u).
Proof. intros V P Q R' S' H1 H2 H3 H4. unfold dbl2. destruct (same_parity P R' && same_parity Q S'); [|reflexivity]. apply V; apply Nat.div_lt_upper_bound; lia. Qed.
Lemma add_zero (a x : C) : (a + x * RtoC 0)%C = a.
Proof. ring. Qed.
Lemma free_action k l h u e (f : state) o : diagonal_energies l h e -> vanishing l u -> proper f ->
  many_body k l h u f o = (RtoC (level_sum (spin_orbitals k l) (spin_energy k e) o) * f o)%C.
Proof.
  intros D V Pf. destruct k; cbn [many_body spin_orbitals]; unfold hamiltonian.
  - rewrite (diagonal_one l h e f o D Pf), (no_two l u f o V). apply add_zero.
  - rewrite (diagonal_one (2 * l) _ _ f o (doubled_diagonal l h e D) Pf), (no_two (2 * l) _ f o (doubled_vanishing l u V)). apply add_zero.
Qed.
Lemma det_support n c o : determinant (K := CC) n c o = RtoC 0 \/ forall p, (p < n)%nat -> o p = c p.
Proof.
  unfold determinant. destruct (forallb _ _) eqn:E; [right|left; reflexivity]. rewrite forallb_forall in E. intros p Hp. apply eqb_prop, E, in_seq. lia.
Qed.
Lemma free_eigenstate k l h u e c : diagonal_energies l h e -> vanishing l u -> among (spin_orbitals k l) c ->
  eigenstate (K := CC) (spin_orbitals k l) (many_body k l h u) (RtoC (level_sum (spin_orbitals k l) (spin_energy k e) c)) (determinant (spin_orbitals k l) c).
Proof.
  intros D V A. split; [apply det_proper|]. split.
  - exists c. split; [exact A|]. rewrite (det_self CC). intros Z. apply RtoC_inj in Z. lra.
  - intros o _. rewrite (free_action k l h u e _ o D V (det_proper CC _ c)). destruct (det_support (spin_orbitals k l) c o) as [Z|Z].
    + rewrite Z. generalize (RtoC (level_sum (spin_orbitals k l) (spin_energy k e) o)), (RtoC (level_sum (spin_orbitals k l) (spin_energy k e) c)). intros x y. apply injective_projections; cbn; ring.
    + rewrite (level_sum_ext _ _ o c Z). reflexivity.
Qed.
Lemma cancel (a b z : C) : z <> RtoC 0 -> (a * z)%C = (b * z)%C -> b = a.
Proof. intros N H. transitivity (b * z / z)%C; [field; exact N|]. rewrite <- H. field. exact N. Qed.
Lemma free_value k l h u e m E (f : state) : diagonal_energies l h e -> vanishing l u -> particle_state (spin_orbitals k l) m f -> eigenstate (K := CC) (spin_orbitals k l) (many_body k l h u) E f ->
  exists c, among (spin_orbitals k l) c /\ particles (spin_orbitals k l) c = m /\ E = RtoC (level_sum (spin_orbitals k l) (spin_energy k e) c).
Proof.
  intros D V [Pf Pn] (_ & (o & A & N) & H). exists o. split; [exact A|]. split; [destruct (Nat.eq_dec (particles (spin_orbitals k l) o) m) as [Q|Q]; [exact Q|]; exfalso; apply N, Pn; assumption|].
  specialize (H o A). rewrite (free_action k l h u e f o D V Pf) in H. cbn [smul CC] in H.
  exact (cancel _ _ _ N H).
Qed.
Section Free.
  Variables (k : kind) (l : nat) (h : nat -> nat -> C) (u : nat -> nat -> nat -> nat -> C) (e : nat -> R).
  Hypothesis (D : diagonal_energies l h e) (V : vanishing l u).
  Notation n := (spin_orbitals k l). Notation X := (many_body k l h u). Notation sum := (level_sum n (spin_energy k e)).
  Lemma free_hermitian : hermitian (K := CC) l h.
  Proof. intros p q Hp Hq. rewrite (D p q Hp Hq), (D q p Hq Hp), (Nat.eqb_sym q p). destruct (Nat.eqb_spec p q) as [->|]; apply injective_projections; cbn; ring. Qed.
  Lemma free_hermitian2 : hermitian2 (K := CC) l u.
  Proof. intros p q r s Hp Hq Hr Hs. rewrite (V p q r s), (V r s p q) by assumption. apply injective_projections; cbn; ring. Qed.
  Lemma free_spectrum m : exists c Psi, enumerates n m (choose n m) c /\ spectrum n X m (choose n m) (fun p => sum (c p)) Psi.
  Proof.
    destruct (ordering (fun i => sum (occ_nr n m i)) (length (codes n m))) as (pi & P1 & P2 & P3 & P4). rewrite <- codes_length.
    exists (fun p => occ_nr n m (pi p)). eexists. split.
    - split; [intros p Hp; split; [apply e_among, P1, Hp | apply e_particles, P1, Hp]|]. split.
      + intros p q Hp Hq H. apply P2; [exact Hp | exact Hq|]. apply (e_same n m); [apply P1, Hp | apply P1, Hq | exact H].
      + intros o A Q. destruct (e_reaches n m o A Q) as (i & Hi & Ei). destruct (P3 i Hi) as (p & Hp & <-). exists p. split; assumption.
    - apply (spectrum_from n m X) with (v := fun i p => kronecker i (pi p)).
      + destruct k; apply hamiltonian_linear.
      + intros f Hf. destruct k; apply hamiltonian_particles; exact Hf.
      + split.
        * intros p q Hp Hq. rewrite (csum_pick _ (pi p)); [|apply P1, Hp|].
          -- unfold kronecker. rewrite Nat.eqb_refl. destruct (Nat.eqb_spec (pi p) (pi q)) as [E|E], (Nat.eqb_spec p q) as [F|F]; try (exfalso; first [apply F, P2; assumption | apply E; congruence]); apply injective_projections; cbn; ring.
          -- intros i Hi Ne. unfold kronecker. rewrite (proj2 (Nat.eqb_neq i (pi p)) Ne). apply injective_projections; cbn; ring.
        * intros i p Hi Hp. rewrite (csum_pick _ (pi p)); [|apply P1, Hp|].
          -- unfold xmat. rewrite (free_action k l h u e _ _ D V (det_proper CC _ _)), (det_e n m) by (exact Hi || apply P1, Hp). unfold kronecker. rewrite Nat.eqb_refl.
             destruct (Nat.eqb_spec i (pi p)) as [->|]; apply injective_projections; cbn; ring.
          -- intros j Hj Ne. unfold kronecker. rewrite (proj2 (Nat.eqb_neq j (pi p)) Ne). apply injective_projections; cbn; ring.
        * exact P4.
  Qed.
  Lemma free_levels m d E Psi : spectrum n X m d E Psi -> d = choose n m /\ sums_of_levels k l m d e E.
  Proof.
    intros Sp. destruct (free_spectrum m) as (c & Psi' & En & Sp'). destruct (energies_unique k l h u free_hermitian free_hermitian2 m _ _ _ _ _ _ Sp Sp') as [-> G].
    split; [reflexivity|]. exists c. split; [exact En | exact G].
  Qed.
End Free.
