(** One electron: the energies are the eigenvalues of h. *)
From Coq Require Import List Arith ZArith Reals Lra Lia Bool Classical.
From Coquelicot Require Import Coquelicot.
From Verif Require Import Scalar ScalarC Py Numpy BasisSet Spec Systems FockSpec FockProofs FockSystem InnerSpec InnerProofs RaiseSpec RaiseProofs FockSpectrum EvolutionProofs HoleSpec HoleProofs HoleTheorems HoleSystems.
Import ListNotations.
Open Scope R_scope.

Definition empty : occupation := fun _ => false.
Lemma particles_none n o : particles n o = 0%nat <-> forall p, (p < n)%nat -> o p = false.
Proof.
  induction n; cbn; [split; [intros; lia | reflexivity]|]. split.
  - intros E p Hp. destruct (o n) eqn:En; [lia|]. destruct (Nat.eq_dec p n) as [->|Ne]; [exact En|]. apply IHn; lia.
  - intros Hf. rewrite (Hf n) by lia. assert (particles n o = 0%nat) by (apply IHn; intros; apply Hf; lia). lia.
Qed.
Lemma present n o : particles n o <> 0%nat -> exists p, (p < n)%nat /\ o p = true.
Proof.
  intros Hn. apply NNPP. intros N. apply Hn. apply particles_none. intros p Hp. destruct (o p) eqn:E; [|reflexivity]. exfalso. eauto.
Qed.

Section Electron.
  Variables (n : nat) (x : C) (h : nat -> nat -> C) (u : nat -> nat -> nat -> nat -> C).
  Let V : state := determinant (K := CC) n empty.
  Let H : state -> state := hamiltonian (K := CC) n x h u.
  Definition electron (c : nat -> C) : state := fun o => S_ n (fun p => (c p * create (K := CC) p (determinant (K := CC) n empty) o)%C).

  Lemma vac_none o : among n o -> particles n o = 0%nat -> V o = RtoC 1.
  Proof.
    intros A P. unfold V. rewrite (det_proper CC n empty o empty); [apply (det_self CC)|].
    intros p. destruct (Nat.lt_ge_cases p n); [apply (proj1 (particles_none n o) P); assumption | apply A; assumption].
  Qed.
  Lemma vac_rest o : particles n o <> 0%nat -> V o = RtoC 0.
  Proof. intros P. destruct (present n o P) as (p & Hp & E). apply (det_other CC n empty o p Hp). rewrite E. discriminate. Qed.
  Lemma vac_annihilate p : (p < n)%nat -> forall o, annihilate (K := CC) p V o = RtoC 0.
  Proof. intros Hp o. exact (det_annihilate CC n empty p Hp eq_refl o). Qed.
  Lemma electron_term k o : (k < n)%nat -> H (create (K := CC) k V) o = S_ n (fun t => (h t k * create (K := CC) t V o)%C).
  Proof.
    intros Hk. assert (P : proper V) by apply det_proper.
    assert (O : forall o, one_body (K := CC) n h V o = RtoC 0).
    { intros o'. unfold one_body. apply (sumn_zero' CC). intros p Hp. apply (sumn_zero' CC). intros q Hq.
      rewrite (create_zero CC p _ (vac_annihilate q Hq) o'). apply injective_projections; cbn; ring. }
    assert (T : two_body (K := CC) n u (create (K := CC) k V) o = RtoC 0).
    { unfold two_body. apply (sumn_zero' CC). intros p Hp. apply (sumn_zero' CC). intros q Hq. apply (sumn_zero' CC). intros r Hr. apply (sumn_zero' CC). intros s Hs.
      assert (Z : forall o, annihilate (K := CC) s (annihilate (K := CC) r (create (K := CC) k V)) o = RtoC 0).
      { intros o'. rewrite (annihilate_ext CC s _ _ (anti_ac CC r k V P) o').
        rewrite (annihilate_sub CC s (fun o => smul (s := CC) (delta r k) (V o)) _ o'), (annihilate_scal CC s _ V o'), (vac_annihilate s Hs o').
        rewrite (annihilate_zero CC s _ (create_zero CC k _ (vac_annihilate r Hr)) o'). apply injective_projections; cbn; ring. }
      rewrite (create_zero CC p _ (create_zero CC q _ Z) o). apply injective_projections; cbn; ring. }
    unfold H, hamiltonian. rewrite T, (one_create CC n h k V P Hk o), (create_zero CC k _ O o). apply injective_projections; cbn; ring.
  Qed.
  Lemma electron_ham c o : H (electron c) o = electron (fun t => S_ n (fun p => (h t p * c p)%C)) o.
  Proof.
    pose proof (hamiltonian_linear CC n x h u) as L. unfold electron. fold V.
    pose proof (lin_sum _ _ L n (fun p o => (c p * create (K := CC) p V o)%C) o) as E. unfold H. rewrite E. fold H.
    rewrite (sumn_ext CC n _ (fun p => S_ n (fun t => (h t p * c p * create (K := CC) t V o)%C))).
    - rewrite (sumn_swap CC). apply (sumn_ext CC). intros t _. symmetry. apply (sumn_mul_r CC n (create (K := CC) t V o) (fun p => (h t p * c p)%C)).
    - intros p Hp. pose proof (lin_scal _ _ L (c p) (create (K := CC) p V) o) as E2. change (@smul CC) with Cmult in E2. unfold H. rewrite E2. fold H.
      rewrite (electron_term p o Hp). change Cmult with (@smul CC). rewrite (sumn_mul_l CC). apply (sumn_ext CC). intros t _. apply injective_projections; cbn; ring.
  Qed.
  Definition only (p : nat) : occupation := put p true empty.
  Lemma only_among p : (p < n)%nat -> among n (only p).
  Proof. intros Hp. apply among_put; [exact Hp | intros q _; reflexivity]. Qed.
  Lemma only_false p q : q <> p -> only p q = false.
  Proof. intros N. unfold only. rewrite put_other by congruence. reflexivity. Qed.
  Lemma electron_at c p : (p < n)%nat -> electron c (only p) = (parity (K := CC) p (only p) * c p)%C.
  Proof.
    intros Hp. unfold electron. fold V. rewrite (sumn_pick CC n p _ Hp).
    - unfold create. unfold only at 1. rewrite put_same.
      assert (E : V (put p false (only p)) = RtoC 1).
      { apply vac_none; [apply among_put; [exact Hp | apply only_among, Hp]|]. apply particles_none. intros q Hq. unfold put at 1.
        destruct (Nat.eqb_spec q p); [reflexivity | apply only_false; assumption]. }
      rewrite E. apply injective_projections; cbn; ring.
    - intros q Hq N. unfold create. rewrite (only_false p q N). apply injective_projections; cbn; ring.
  Qed.
  Lemma parity_twice p (o : occupation) (z : C) : (parity (K := CC) p o * (parity (K := CC) p o * z))%C = z.
  Proof.
    pose proof (parity_square CC p o) as Q. change (@smul CC) with Cmult in Q. rewrite Cmult_assoc, Q. change (Cmult (RtoC 1) z = z). ring.
  Qed.
  Lemma electron_proper c : proper (electron c).
  Proof. intros o o' E. unfold electron. apply (sumn_ext CC). intros p _. f_equal. apply (create_proper CC); [apply det_proper | exact E]. Qed.
  Lemma electron_other c o : among n o -> particles n o <> 1%nat -> electron c o = RtoC 0.
  Proof.
    intros A P. unfold electron. fold V. apply (sumn_zero' CC). intros p Hp. unfold create. destruct (o p) eqn:E; [|apply injective_projections; cbn; ring].
    pose proof (particles_remove n p o Hp E). rewrite (vac_rest (put p false o)) by lia. apply injective_projections; cbn; ring.
  Qed.
  Lemma state_electron (f : state) : particle_state (K := CC) n 1 f ->
    forall o, among n o -> f o = electron (fun p => (parity (K := CC) p (only p) * f (only p))%C) o.
  Proof.
    intros [Pf Zf] o A. destruct (Nat.eq_dec (particles n o) 1) as [E|E].
    - destruct (present n o ltac:(lia)) as (p & Hp & Op). pose proof (particles_remove n p o Hp Op) as R.
      assert (W : forall q, o q = only p q).
      { intros q. destruct (Nat.eq_dec q p) as [->|Ne]; [unfold only; rewrite put_same; exact Op|]. rewrite only_false by exact Ne.
        destruct (Nat.lt_ge_cases q n) as [Hq|Hq]; [|apply A, Hq].
        pose proof (proj1 (particles_none n (put p false o)) ltac:(lia) q Hq) as F. unfold put in F. destruct (Nat.eqb_spec q p); [contradiction | exact F]. }
      rewrite (Pf o (only p) W), (electron_proper _ o (only p) W), electron_at, parity_twice by exact Hp. reflexivity.
    - rewrite (Zf o A E). symmetry. apply electron_other; assumption.
  Qed.
  Lemma electron_sub c d (z : C) o : electron (fun t => (z * c t - d t)%C) o = (z * electron c o - electron d o)%C.
  Proof.
    unfold electron. fold V. pose proof (sumn_mul_l CC n z (fun p => (c p * create (K := CC) p V o)%C)) as E4. change (@smul CC) with Cmult in E4. rewrite E4.
    pose proof (sumn_sub CC n (fun p => (z * (c p * create (K := CC) p V o))%C) (fun v => (d v * create (K := CC) v V o)%C)) as E5.
    change (@ssub CC) with Cminus in E5. rewrite <- E5. apply (sumn_ext CC). intros v _. apply injective_projections; cbn; ring.
  Qed.
  Lemma electron_energies (E : R) :
    (exists f : state, particle_state (K := CC) n 1 f /\ eigenstate (K := CC) n H (RtoC E) f) <-> eigenvalue n h E.
  Proof.
    split.
    - intros (f & Sf & Pf & (o1 & A1 & N1) & Ef). set (c := fun p => (parity (K := CC) p (only p) * f (only p))%C).
      pose proof (state_electron f Sf) as Sh. fold c in Sh. exists c. split.
      + apply NNPP. intros N. apply N1. rewrite (Sh o1 A1). unfold electron. apply (sumn_zero' CC). intros p Hp.
        assert (Z : c p = RtoC 0) by (apply NNPP; intros Z; apply N; eauto). rewrite Z. apply injective_projections; cbn; ring.
      + intros p Hp.
        assert (Z : electron (fun t => (RtoC E * c t - S_ n (fun p => (h t p * c p)%C))%C) (only p) = RtoC 0).
        { pose proof (only_among p Hp) as A. rewrite electron_sub, <- electron_ham.
          rewrite <- (linear_among n H f (electron c) (hamiltonian_linear CC n x h u) (hamiltonian_keeps n x h u) Sh _ A).
          rewrite (Ef _ A), (Sh _ A). apply injective_projections; cbn; ring. }
        rewrite (electron_at _ p Hp) in Z. apply (f_equal (Cmult (parity (K := CC) p (only p)))) in Z. rewrite parity_twice, Cmult_0_r in Z.
        transitivity (RtoC E * c p - (RtoC E * c p - S_ n (fun q => (h p q * c q)%C)))%C; [apply injective_projections; cbn; ring|]. rewrite Z. apply injective_projections; cbn; ring.
    - intros (c & (p & Hp & Np) & Ec). exists (electron c). split; [split; [apply electron_proper | intros o; apply electron_other]|]. split; [apply electron_proper|]. split.
      + exists (only p). split; [apply only_among, Hp|]. rewrite electron_at by exact Hp. intros Z. apply Np.
        rewrite <- (parity_twice p (only p) (c p)), Z. apply injective_projections; cbn; ring.
      + intros o A. rewrite electron_ham. unfold electron. pose proof (sumn_mul_l CC n (RtoC E) (fun p => (c p * create (K := CC) p (determinant (K := CC) n empty) o)%C)) as E4.
        rewrite E4. apply (sumn_ext CC). intros v Hv. rewrite (Ec v Hv). apply injective_projections; cbn; ring.
  Qed.
End Electron.
Lemma electron_kind k l h u E : exact_energy k l h u 1 E <-> eigenvalue l h E.
Proof.
  destruct k; unfold exact_energy; cbn [spin_orbitals many_body].
  - apply electron_energies.
  - rewrite <- (eigenvalue_double l). apply electron_energies.
Qed.
