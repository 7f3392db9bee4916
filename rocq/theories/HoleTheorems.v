(** One electron missing: the energies are those of the hole in the Fock matrix. *)
From Coq Require Import List Arith ZArith Reals Lra Lia Bool Classical.
From Coquelicot Require Import Coquelicot.
From Verif Require Import Scalar ScalarC Py Numpy BasisSet Spec EnergySpec EnergyFacts EnergyProofs Systems SystemFacts FockSpec FockProofs FockSystem InnerSpec InnerProofs RaiseSpec RaiseProofs FockSpectrum EvolutionProofs HoleSpec HoleProofs.
Import ListNotations.
Open Scope R_scope.
Notation state := (FockSpec.state CC).
Notation S_ := (sumn (K := CC)).

Lemma linear_among n (X : state -> state) (f g : state) : linear CC X -> keeps n X -> (forall o, among n o -> f o = g o) ->
  forall o, among n o -> X f o = X g o.
Proof.
  intros [L1 L2 L3] Kp H o A.
  set (F := fun (k : nat) (o : occupation) => match k with O => f o | _ => (RtoC (-1) * g o)%C end).
  assert (Z : X (fun o => S_ 2 (fun k => F k o)) o = RtoC 0).
  { apply (Kp (fun _ => False)); [|exact A | intros []]. intros o' A' _. cbn. unfold F. rewrite (H o' A').
    apply injective_projections; cbn; ring. }
  rewrite (L3 2%nat F o) in Z. cbn in Z. change (F 0%nat) with (fun o => f o) in Z. unfold F in Z.
  pose proof (L2 (RtoC (-1)) g o) as E. change (@smul CC) with Cmult in E. rewrite E in Z.
  change (fun o => f o) with f in Z.
  assert (W : X f o = (X g o + (0 + X f o + RtoC (-1) * X g o))%C) by (apply injective_projections; cbn; ring).
  rewrite W. change (Cplus (Cplus (RtoC 0) (X f o)) (Cmult (RtoC (-1)) (X g o)) = RtoC 0) in Z. rewrite Z.
  apply injective_projections; cbn; ring.
Qed.

Lemma hamiltonian_keeps n c h u : keeps n (hamiltonian (K := CC) n c h u).
Proof. intros P f H o A N. unfold hamiltonian. rewrite (sector_one n P h f H o A N), (sector_two n P u f H o A N). apply injective_projections; cbn; ring. Qed.

(** Occupations *)
Lemma particles_le n o : (particles n o <= n)%nat.
Proof. induction n; cbn; [lia|]. destruct (o n); lia. Qed.
Lemma particles_full n o : particles n o = n <-> forall p, (p < n)%nat -> o p = true.
Proof.
  induction n; cbn; [split; [intros; lia | reflexivity]|]. pose proof (particles_le n o). split.
  - intros E p Hp. destruct (o n) eqn:En; [|lia]. destruct (Nat.eq_dec p n) as [->|Ne]; [exact En|]. apply IHn; lia.
  - intros Hf. rewrite (Hf n) by lia. assert (particles n o = n) by (apply IHn; intros; apply Hf; lia). lia.
Qed.
Lemma missing n o : particles n o <> n -> exists p, (p < n)%nat /\ o p = false.
Proof.
  intros Hn. apply NNPP. intros N. apply Hn. apply particles_full. intros p Hp. destruct (o p) eqn:E; [reflexivity|]. exfalso. eauto.
Qed.
Lemma among_put n p x o : (p < n)%nat -> among n o -> among n (put p x o).
Proof. intros Hp A q Hq. unfold put. destruct (Nat.eqb_spec q p); [lia | apply A; lia]. Qed.
Lemma lowest_among n : among n (lowest n).
Proof. intros p Hp. apply Nat.ltb_ge. lia. Qed.
Lemma full_lowest n o : among n o -> particles n o = n -> forall p, o p = lowest n p.
Proof.
  intros A P p. unfold lowest. destruct (Nat.ltb_spec p n); [apply (proj1 (particles_full n o) P); assumption | apply A; assumption].
Qed.

Section Hole.
  Variables (n : nat) (x : C) (h : nat -> nat -> C) (u : nat -> nat -> nat -> nat -> C).
  Let D : state := determinant (K := CC) n (lowest n).
  Let H : state -> state := hamiltonian (K := CC) n x h u.
  Let G : nat -> nat -> C := hole_matrix CC n x h u.
  Let e : C := expect (K := CC) n H (lowest n).
  Definition hole (c : nat -> C) : state := fun o => S_ n (fun p => (c p * annihilate (K := CC) p (determinant (K := CC) n (lowest n)) o)%C).

  Lemma det_full o : among n o -> particles n o = n -> D o = RtoC 1.
  Proof. intros A P. unfold D. rewrite (det_proper CC n (lowest n) o (lowest n) (full_lowest n o A P)). apply (det_self CC). Qed.
  Lemma det_rest o : particles n o <> n -> D o = RtoC 0.
  Proof.
    intros P. destruct (missing n o P) as (p & Hp & E). apply (det_other CC n (lowest n) o p Hp). rewrite E. unfold lowest.
    apply Nat.ltb_lt in Hp. rewrite Hp. discriminate.
  Qed.
  Lemma D_state : particle_state (K := CC) n n D.
  Proof. split; [apply det_proper | intros o _ P; apply det_rest, P]. Qed.
  Lemma H_full o : among n o -> H D o = (e * D o)%C.
  Proof.
    intros A. destruct (hamiltonian_particles n x h u n D D_state) as [P Z]. destruct (Nat.eq_dec (particles n o) n) as [E|E].
    - rewrite det_full by assumption. unfold H. rewrite (P o (lowest n) (full_lowest n o A E)). unfold e, expect, H. fold D.
      apply injective_projections; cbn; ring.
    - rewrite det_rest by exact E. unfold H. rewrite (Z o A E). apply injective_projections; cbn; ring.
  Qed.
  Lemma hole_term k o : (k < n)%nat -> among n o ->
    H (annihilate (K := CC) k D) o = (e * annihilate (K := CC) k D o - S_ n (fun v => (G k v * annihilate (K := CC) v D o)%C))%C.
  Proof.
    intros Hk A. pose proof (hole_algebra CC n x h u k Hk o) as E. cbv zeta in E. fold D in E. fold H in E. rewrite E.
    change (@ssub CC) with Cminus. f_equal. unfold annihilate. destruct (o k); [apply injective_projections; cbn; ring|].
    rewrite (H_full (put k true o)) by (apply among_put; assumption). change (@smul CC) with Cmult.
    apply injective_projections; cbn; ring.
  Qed.
  Lemma hole_ham c o : among n o ->
    H (hole c) o = (e * hole c o - hole (fun v => S_ n (fun p => (c p * G p v)%C)) o)%C.
  Proof.
    intros A. pose proof (hamiltonian_linear CC n x h u) as L. unfold hole. fold D.
    pose proof (lin_sum _ _ L n (fun p o => (c p * annihilate (K := CC) p D o)%C) o) as E. unfold H. rewrite E. fold H.
    assert (E2 : forall p, (p < n)%nat -> H (fun o => (c p * annihilate (K := CC) p D o)%C) o =
      (e * (c p * annihilate (K := CC) p D o) - S_ n (fun v => (c p * G p v * annihilate (K := CC) v D o)%C))%C).
    { intros p Hp. pose proof (lin_scal _ _ L (c p) (annihilate (K := CC) p D) o) as E2. change (@smul CC) with Cmult in E2. unfold H. rewrite E2. fold H.
      rewrite (hole_term p o Hp A).
      assert (E3 : S_ n (fun v => (c p * G p v * annihilate (K := CC) v D o)%C) = (c p * S_ n (fun v => (G p v * annihilate (K := CC) v D o)%C))%C).
      { change Cmult with (@smul CC). rewrite (sumn_mul_l CC). apply (sumn_ext CC). intros v _. apply injective_projections; cbn; ring. }
      rewrite E3. apply injective_projections; cbn; ring. }
    rewrite (sumn_ext CC n _ _ E2).
    pose proof (sumn_sub CC n (fun p => (e * (c p * annihilate (K := CC) p D o))%C) (fun p => S_ n (fun v => (c p * G p v * annihilate (K := CC) v D o)%C))) as E4.
    change (@ssub CC) with Cminus in E4. rewrite E4. f_equal.
    - pose proof (sumn_mul_l CC n e (fun p => (c p * annihilate (K := CC) p D o)%C)) as E5. change (@smul CC) with Cmult in E5. symmetry. exact E5.
    - rewrite (sumn_swap CC). apply (sumn_ext CC). intros v _. symmetry. apply (sumn_mul_r CC n (annihilate (K := CC) v D o) (fun p => (c p * G p v)%C)).
  Qed.

  (** The state without electron p *)
  Definition without (p : nat) : occupation := put p false (lowest n).
  Lemma without_among p : (p < n)%nat -> among n (without p).
  Proof. intros Hp. apply among_put; [exact Hp | apply lowest_among]. Qed.
  Lemma without_true p q : (q < n)%nat -> q <> p -> without p q = true.
  Proof. intros Hq N. unfold without, put. destruct (Nat.eqb_spec q p); [contradiction | apply Nat.ltb_lt, Hq]. Qed.
  Lemma without_false p : without p p = false.
  Proof. unfold without. apply put_same. Qed.
  Lemma hole_at c p : (p < n)%nat -> hole c (without p) = (parity (K := CC) p (without p) * c p)%C.
  Proof.
    intros Hp. unfold hole. fold D. rewrite (sumn_pick CC n p _ Hp).
    - unfold annihilate. rewrite without_false.
      assert (E : D (put p true (without p)) = RtoC 1).
      { apply det_full; [apply among_put; [exact Hp | apply without_among, Hp]|]. apply particles_full. intros q Hq. unfold put.
        destruct (Nat.eqb_spec q p); [reflexivity | apply without_true; assumption]. }
      rewrite E. apply injective_projections; cbn; ring.
    - intros q Hq N. unfold annihilate. rewrite (without_true p q Hq N). apply injective_projections; cbn; ring.
  Qed.
  Lemma hole_zero c : (forall o, among n o -> hole c o = RtoC 0) -> forall p, (p < n)%nat -> c p = RtoC 0.
  Proof.
    intros Z p Hp. pose proof (hole_at c p Hp) as E. rewrite (Z _ (without_among p Hp)) in E.
    pose proof (parity_square CC p (without p)) as Q. change (@smul CC) with Cmult in Q.
    transitivity (parity (K := CC) p (without p) * (parity (K := CC) p (without p) * c p))%C.
    - rewrite Cmult_assoc, Q. change (c p = Cmult (RtoC 1) (c p)). apply injective_projections; cbn; ring.
    - rewrite <- E. apply injective_projections; cbn; ring.
  Qed.
  Lemma hole_proper c : proper (hole c).
  Proof.
    intros o o' E. unfold hole. apply (sumn_ext CC). intros p _. f_equal. apply (annihilate_proper CC); [apply det_proper | exact E].
  Qed.
  Lemma hole_other c o : among n o -> S (particles n o) <> n -> hole c o = RtoC 0.
  Proof.
    intros A P. unfold hole. fold D. apply (sumn_zero' CC). intros p Hp. unfold annihilate. destruct (o p) eqn:E; [apply injective_projections; cbn; ring|].
    rewrite (det_rest (put p true o)) by (rewrite particles_add by assumption; exact P). apply injective_projections; cbn; ring.
  Qed.
  Lemma hole_state c : (0 < n)%nat -> particle_state (K := CC) n (n - 1) (hole c).
  Proof. intros Hn. split; [apply hole_proper|]. intros o A P. apply hole_other; [exact A | lia]. Qed.
  Lemma state_hole (f : state) : (0 < n)%nat -> particle_state (K := CC) n (n - 1) f ->
    forall o, among n o -> f o = hole (fun p => (parity (K := CC) p (without p) * f (without p))%C) o.
  Proof.
    intros Hn [Pf Zf] o A. destruct (Nat.eq_dec (particles n o) (n - 1)) as [E|E].
    - destruct (missing n o ltac:(lia)) as (p & Hp & Op).
      assert (W : forall q, o q = without p q).
      { intros q. unfold without, put. destruct (Nat.eqb_spec q p) as [->|Ne]; [exact Op|].
        rewrite <- (full_lowest n (put p true o)); [unfold put; destruct (Nat.eqb_spec q p); [contradiction | reflexivity] | apply among_put; assumption|].
        rewrite particles_add by assumption. lia. }
      rewrite (Pf o (without p) W), (hole_proper _ o (without p) W), hole_at by exact Hp.
      rewrite Cmult_assoc. pose proof (parity_square CC p (without p)) as Q. change (@smul CC) with Cmult in Q. rewrite Q.
      change (f (without p) = Cmult (RtoC 1) (f (without p))). apply injective_projections; cbn; ring.
    - rewrite (Zf o A E). symmetry. apply hole_other; [exact A | lia].
  Qed.
  (** Energies of n - 1 electrons and left eigenvectors of G *)
  Lemma hole_energies (Hn : (0 < n)%nat) (E : C) :
    (exists f : state, particle_state (K := CC) n (n - 1) f /\ eigenstate (K := CC) n H E f) <->
    (exists c : nat -> C, (exists p, (p < n)%nat /\ c p <> RtoC 0) /\
      forall v, (v < n)%nat -> S_ n (fun p => (c p * G p v)%C) = ((e - E) * c v)%C).
  Proof.
    split.
    - intros (f & Sf & Pf & (o1 & A1 & N1) & Ef). set (c := fun p => (parity (K := CC) p (without p) * f (without p))%C).
      pose proof (state_hole f Hn Sf) as Sh. fold c in Sh. exists c. split.
      + apply NNPP. intros N. apply N1. rewrite (Sh o1 A1). unfold hole. apply (sumn_zero' CC). intros p Hp.
        assert (Z : c p = RtoC 0) by (apply NNPP; intros Z; apply N; eauto). rewrite Z. apply injective_projections; cbn; ring.
      + assert (Z : forall o, among n o -> hole (fun v => ((e - E) * c v - S_ n (fun p => (c p * G p v)%C))%C) o = RtoC 0).
        { intros o A. pose proof (hole_ham c o A) as E1.
          assert (E2 : H f o = H (hole c) o).
          { apply (linear_among n H); [apply hamiltonian_linear | exact (hamiltonian_keeps n x h u) | exact Sh | exact A]. }
          rewrite <- E2, (Ef o A), (Sh o A) in E1. change (@smul CC) with Cmult in E1.
          assert (E3 : hole (fun v => ((e - E) * c v - S_ n (fun p => (c p * G p v)%C))%C) o =
            ((e - E) * hole c o - hole (fun v => S_ n (fun p => (c p * G p v)%C)) o)%C).
          { unfold hole. fold D. pose proof (sumn_mul_l CC n (e - E)%C (fun p => (c p * annihilate (K := CC) p D o)%C)) as E4. change (@smul CC) with Cmult in E4. rewrite E4.
            pose proof (sumn_sub CC n (fun p => ((e - E) * (c p * annihilate (K := CC) p D o))%C) (fun v => (S_ n (fun p => (c p * G p v)%C) * annihilate (K := CC) v D o)%C)) as E5.
            change (@ssub CC) with Cminus in E5. rewrite <- E5. apply (sumn_ext CC). intros v _. apply injective_projections; cbn; ring. }
          rewrite E3. transitivity (e * hole c o - hole (fun v => S_ n (fun p => (c p * G p v)%C)) o - E * hole c o)%C; [apply injective_projections; cbn; ring|].
          rewrite <- E1. apply injective_projections; cbn; ring. }
        intros v Hv. pose proof (hole_zero _ Z v Hv) as E1. cbn beta in E1.
        transitivity ((e - E) * c v - ((e - E) * c v - S_ n (fun p => (c p * G p v)%C)))%C; [apply injective_projections; cbn; ring|]. rewrite E1. apply injective_projections; cbn; ring.
    - intros (c & (p & Hp & Np) & Ec). exists (hole c). split; [apply hole_state, Hn|]. split; [apply hole_proper|]. split.
      + exists (without p). split; [apply without_among, Hp|]. rewrite hole_at by exact Hp. intros Z. apply Np.
        pose proof (parity_square CC p (without p)) as Q. change (@smul CC) with Cmult in Q.
        transitivity (parity (K := CC) p (without p) * (parity (K := CC) p (without p) * c p))%C.
        * rewrite Cmult_assoc, Q. change (c p = Cmult (RtoC 1) (c p)). apply injective_projections; cbn; ring.
        * rewrite Z. apply injective_projections; cbn; ring.
      + intros o A. rewrite (hole_ham c o A).
        assert (E1 : hole (fun v => S_ n (fun p => (c p * G p v)%C)) o = ((e - E) * hole c o)%C).
        { unfold hole. fold D. pose proof (sumn_mul_l CC n (e - E)%C (fun p => (c p * annihilate (K := CC) p D o)%C)) as E4. change (@smul CC) with Cmult in E4. rewrite E4.
          apply (sumn_ext CC). intros v Hv. rewrite (Ec v Hv). apply injective_projections; cbn; ring. }
        rewrite E1. apply injective_projections; cbn; ring.
  Qed.
End Hole.
