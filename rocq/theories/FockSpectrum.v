(** Self-adjoint operators that conserve the number of particles have a spectrum. *)
From Coq Require Import List Arith ZArith Reals Lra Lia Bool.
From Coquelicot Require Import Coquelicot.
From Verif Require Import Scalar ScalarC Spec OneDimSpec OneDimProofs DotProofs GridSpec GridProofs PositiveForms SpectralSpec SpectralProofs.
From Verif Require Import FockSpec FockProofs InnerSpec InnerProofs RaiseSpec RaiseProofs RaiseFock FockSpectrumSpec.
Import ListNotations.
Open Scope R_scope.
Local Notation S_ := (sumn (K := CC)).
Local Notation state := (FockSpec.state CC).

(** ** Particle numbers *)
Lemma particles_add l q o : (q < l)%nat -> o q = false -> particles l (put q true o) = S (particles l o).
Proof.
  induction l as [|l IH]; intros Hq E; [lia|]. cbn [particles]. destruct (Nat.eq_dec q l) as [->|N].
  - rewrite (particles_ext l (put l true o) o). 2:{ intros p Hp. unfold put. destruct (Nat.eqb_spec p l); [lia | reflexivity]. }
    unfold put. rewrite Nat.eqb_refl, E. lia.
  - rewrite IH by (try assumption; lia). unfold put at 1. destruct (Nat.eqb_spec l q); [lia|]. lia.
Qed.
Lemma particles_remove l q o : (q < l)%nat -> o q = true -> S (particles l (put q false o)) = particles l o.
Proof.
  induction l as [|l IH]; intros Hq E; [lia|]. cbn [particles]. destruct (Nat.eq_dec q l) as [->|N].
  - rewrite (particles_ext l (put l false o) o). 2:{ intros p Hp. unfold put. destruct (Nat.eqb_spec p l); [lia | reflexivity]. }
    unfold put. rewrite Nat.eqb_refl, E. lia.
  - rewrite <- IH by (try assumption; lia). unfold put at 2. destruct (Nat.eqb_spec l q); [lia|]. lia.
Qed.
Lemma among_put l q x o : among l o -> (q < l)%nat -> among l (put q x o).
Proof. intros A Hq p Hp. unfold put. destruct (Nat.eqb_spec p q); [lia | apply A, Hp]. Qed.
(** The states with particle numbers in P *)
Definition sector (l : nat) (P : nat -> Prop) (f : state) : Prop := forall o, among l o -> ~ P (particles l o) -> f o = RtoC 0.
Lemma sector_annihilate l P q f : (q < l)%nat -> sector l P f -> sector l (fun n => P (S n)) (annihilate q f).
Proof.
  intros Hq H o A N. unfold annihilate. destruct (o q) eqn:E; [reflexivity|]. rewrite H; [cx; cbn; ring | apply among_put; assumption|]. rewrite particles_add by assumption. exact N.
Qed.
Lemma sector_create l P q f : (q < l)%nat -> sector l P f -> sector l (fun n => match n with O => False | S m => P m end) (create q f).
Proof.
  intros Hq H o A N. unfold create. destruct (o q) eqn:E; [|reflexivity]. rewrite H; [cx; cbn; ring | apply among_put; assumption|]. rewrite <- (particles_remove l q o Hq E) in N. exact N.
Qed.
Lemma sector_mono l (P Q : nat -> Prop) f : (forall n, P n -> Q n) -> sector l P f -> sector l Q f.
Proof. intros PQ H o A N. apply H; [exact A|]. intros C. apply N, PQ, C. Qed.
Lemma sector_one l P h f : sector l P f -> sector l P (one_body (K := CC) l h f).
Proof.
  intros H o A N. unfold one_body. apply csum_zero. intros p Hp. apply csum_zero. intros q Hq.
  assert (Z : create p (annihilate q f) o = RtoC 0); [|rewrite Z; cx; cbn; ring].
  refine (sector_mono l _ P _ _ (sector_create l _ p _ Hp (sector_annihilate l P q f Hq H)) o A N). intros [|n] C; [destruct C | exact C].
Qed.
Lemma sector_two l P u f : sector l P f -> sector l P (two_body (K := CC) l u f).
Proof.
  intros H o A N. unfold two_body. apply csum_zero. intros p Hp. apply csum_zero. intros q Hq. apply csum_zero. intros r Hr. apply csum_zero. intros s Hs.
  assert (Z : create p (create q (annihilate s (annihilate r f))) o = RtoC 0); [|rewrite Z; cx; cbn; ring].
  refine (sector_mono l _ P _ _ (sector_create l _ p _ Hp (sector_create l _ q _ Hq (sector_annihilate l _ s _ Hs (sector_annihilate l P r f Hr H)))) o A N).
  intros [|[|n]] C; try destruct C; exact C.
Qed.
Lemma hamiltonian_particles l x h u N f : particle_state l N f -> particle_state l N (hamiltonian (K := CC) l x h u f).
Proof.
  intros [Pf Hf]. split; [apply hamiltonian_proper, Pf|]. assert (H : sector l (fun n => n = N) f) by exact Hf.
  intros o A Ne. unfold hamiltonian. rewrite (sector_one l _ h f H o A Ne), (sector_two l _ u f H o A Ne). cx. cbn. ring.
Qed.

(** ** An enumeration of the occupations with N particles *)
Definition codes (l N : nat) : list nat := filter (fun c => particles l (Nat.testbit c) =? N)%nat (seq 0 (2 ^ l)).
Definition occ_nr (l N i : nat) : occupation := Nat.testbit (nth i (codes l N) 0%nat).
Fixpoint code (l : nat) (o : occupation) : nat := match l with O => 0%nat | S k => if o k then Nat.setbit (code k o) k else code k o end.
Lemma code_bits l o p : Nat.testbit (code l o) p = (p <? l)%nat && o p.
Proof.
  induction l as [|l IH]; [apply Nat.bits_0|]. cbn [code]. destruct (o l) eqn:E.
  - rewrite Nat.setbit_eqb, IH. destruct (Nat.eqb_spec l p) as [->|N]; cbn [orb]; [rewrite E; destruct (Nat.ltb_spec p (S p)); [reflexivity | lia]|].
    destruct (Nat.ltb_spec p l), (Nat.ltb_spec p (S l)); try lia; reflexivity.
  - rewrite IH. destruct (Nat.ltb_spec p l), (Nat.ltb_spec p (S l)); try lia; try reflexivity. assert (p = l) as -> by lia. rewrite E. reflexivity.
Qed.
Lemma code_lt l o : (code l o < 2 ^ l)%nat.
Proof.
  replace (code l o) with (code l o mod 2 ^ l)%nat; [apply Nat.mod_upper_bound, Nat.pow_nonzero; lia|]. apply Nat.bits_inj. intros p.
  destruct (Nat.lt_ge_cases p l) as [L|L]; [apply Nat.mod_pow2_bits_low, L|]. rewrite Nat.mod_pow2_bits_high by exact L. rewrite code_bits. destruct (Nat.ltb_spec p l); [lia | reflexivity].
Qed.
Lemma bits_among l c : (c < 2 ^ l)%nat -> among l (Nat.testbit c).
Proof. intros H p Hp. rewrite <- (Nat.mod_small c (2 ^ l) H). apply Nat.mod_pow2_bits_high, Hp. Qed.
Section Enumeration.
  Variables (l N : nat).
  Notation d := (length (codes l N)).
  Notation e := (occ_nr l N).
  Lemma codes_in i : (i < d)%nat -> (nth i (codes l N) 0 < 2 ^ l)%nat /\ particles l (e i) = N.
  Proof.
    intros Hi. pose proof (nth_In (codes l N) 0%nat Hi) as H. unfold codes in H at 2. apply filter_In in H. destruct H as [H1 H2]. apply in_seq in H1. apply Nat.eqb_eq in H2. split; [lia | exact H2].
  Qed.
  Lemma e_among i : (i < d)%nat -> among l (e i).
  Proof. intros Hi. apply bits_among, codes_in, Hi. Qed.
  Lemma e_particles i : (i < d)%nat -> particles l (e i) = N.
  Proof. intros Hi. apply codes_in, Hi. Qed.
  Lemma e_reaches o : among l o -> particles l o = N -> exists i, (i < d)%nat /\ forall p, e i p = o p.
  Proof.
    intros A P. assert (B : forall p, Nat.testbit (code l o) p = o p). { intros p. rewrite code_bits. destruct (Nat.ltb_spec p l); [reflexivity|]. symmetry. apply A. assumption. }
    assert (H : In (code l o) (codes l N)). { apply filter_In. split; [apply in_seq; pose proof (code_lt l o); lia|]. apply Nat.eqb_eq. rewrite <- P. apply particles_ext. intros p _. apply B. }
    destruct (In_nth _ _ 0%nat H) as (i & Hi & Ei). exists i. split; [exact Hi|]. intros p. unfold occ_nr. rewrite Ei. apply B.
  Qed.
  Lemma e_same i j : (i < d)%nat -> (j < d)%nat -> (forall p, (p < l)%nat -> e i p = e j p) -> i = j.
  Proof.
    intros Hi Hj H. apply (proj1 (NoDup_nth (codes l N) 0%nat) (NoDup_filter _ (seq_NoDup _ _)) i j Hi Hj). apply Nat.bits_inj. intros p.
    destruct (Nat.lt_ge_cases p l) as [L|L]; [apply H, L|]. pose proof (e_among i Hi p L) as Z1. pose proof (e_among j Hj p L) as Z2. unfold occ_nr in Z1, Z2. congruence.
  Qed.
  Lemma d_pos : (N <= l)%nat -> (0 < d)%nat.
  Proof.
    intros H. destruct (e_reaches (lowest N)) as (i & Hi & _); [intros p Hp; unfold lowest; apply Nat.ltb_ge; lia | apply lowest_particles, H|]. lia.
  Qed.
  Lemma det_e i j : (i < d)%nat -> (j < d)%nat -> determinant (K := CC) l (e j) (e i) = kronecker i j.
  Proof.
    intros Hi Hj. unfold determinant, kronecker. destruct (Nat.eqb_spec i j) as [->|Ne].
    - replace (forallb _ _) with true; [reflexivity|]. symmetry. apply forallb_forall. intros p _. apply eqb_reflx.
    - destruct (forallb _ _) eqn:E; [|reflexivity]. exfalso. apply Ne, e_same; [exact Hi | exact Hj|]. rewrite forallb_forall in E. intros p Hp. apply eqb_prop, E. apply in_seq. lia.
  Qed.
  (** The state with coordinates x *)
  Definition combine (x : nat -> C) : state := fun o => S_ d (fun j => (x j * determinant (K := CC) l (e j) o)%C).
  Lemma combine_proper x : proper (combine x).
  Proof. intros o o' H. apply csum_ext. intros j _. rewrite (det_proper CC l (e j) o o' H). reflexivity. Qed.
  Lemma combine_at x i : (i < d)%nat -> combine x (e i) = x i.
  Proof.
    intros Hi. unfold combine. rewrite (csum_pick d i); [|exact Hi|].
    - rewrite det_e by exact Hi. unfold kronecker. rewrite Nat.eqb_refl. cx. ring.
    - intros k Hk Ne. rewrite det_e by assumption. unfold kronecker. destruct (Nat.eqb_spec i k); [congruence|]. cx. ring.
  Qed.
  Lemma combine_particles x : particle_state l N (combine x).
  Proof.
    split; [apply combine_proper|]. intros o A Ne. apply csum_zero. intros j Hj. pose proof (proj2 (det_particles CC l (e j)) o A) as Z. rewrite (e_particles j Hj) in Z. rewrite Z by exact Ne. cx. cbn. ring.
  Qed.
  Lemma combine_inner x g : proper g -> inner l (combine x) g = S_ d (fun j => (Cconj (x j) * g (e j))%C).
  Proof.
    intros Pg. rewrite <- (inner_conj CC). unfold combine. rewrite (inner_sum CC l g d (fun j o => (x j * determinant (K := CC) l (e j) o)%C)). cbn [sconj CC].
    change (@sumn CC) with (@sumn CC). rewrite csum_conj. apply csum_ext. intros j Hj.
    pose proof (inner_scal CC l g (x j) (determinant (K := CC) l (e j))) as Q. cbv beta. etransitivity; [apply (f_equal Cconj); exact Q|]. cbn [smul CC]. rewrite C_conj_mul. f_equal.
    etransitivity; [exact (inner_conj CC l g (determinant (K := CC) l (e j)))|]. exact (inner_det CC l (e j) g (e_among j Hj) Pg).
  Qed.
  Lemma state_at (f g : state) : particle_state l N f -> particle_state l N g -> (forall i, (i < d)%nat -> f (e i) = g (e i)) -> forall o, among l o -> f o = g o.
  Proof.
    intros [Pf Hf] [Pg Hg] E o A. destruct (Nat.eq_dec (particles l o) N) as [Q|Q]; [|rewrite Hf, Hg by assumption; reflexivity].
    destruct (e_reaches o A Q) as (i & Hi & Ei). rewrite <- (Pf _ _ Ei), <- (Pg _ _ Ei). apply E, Hi.
  Qed.
  Variable X : state -> state.
  Hypothesis XL : linear CC X.
  Hypothesis XP : forall f, particle_state l N f -> particle_state l N (X f).
  Hypothesis XS : symmetric_operator l X.
  Definition xmat (i j : nat) : C := X (determinant (K := CC) l (e j)) (e i).
  Lemma xmat_hermitian : hermitian (K := CC) d xmat.
  Proof.
    intros i j Hi Hj. unfold xmat.
    assert (P : forall k, (k < d)%nat -> particle_state l N (determinant (K := CC) l (e k))) by (intros k Hk; pose proof (det_particles CC l (e k)) as Q; rewrite (e_particles k Hk) in Q; exact Q).
    rewrite <- (inner_det CC l (e i) (X (determinant l (e j)))); [|apply e_among, Hi | apply (XP _ (P j Hj))].
    rewrite <- (inner_det CC l (e j) (X (determinant l (e i)))); [|apply e_among, Hj | apply (XP _ (P i Hi))].
    rewrite (inner_conj CC). apply XS; apply det_proper.
  Qed.
  Lemma X_combine x i : X (combine x) (e i) = ap d xmat x i.
  Proof.
    unfold combine. rewrite (lin_sum CC X XL d (fun j o => (x j * determinant (K := CC) l (e j) o)%C) (e i)). apply csum_ext. intros j _.
    etransitivity; [exact (lin_scal CC X XL (x j) (determinant (K := CC) l (e j)) (e i))|]. unfold xmat. cx. cbn. ring.
  Qed.
  Lemma spectrum_from w v : eigensystem d xmat w v -> spectrum l X N d w (fun p => combine (fun i => v i p)).
  Proof.
    intros [O Ev As]. split.
    - intros p Hp. split; [apply combine_particles|]. split; [apply combine_proper|]. split.
      + assert (exists i, (i < d)%nat /\ v i p <> RtoC 0) as (i & Hi & Ni).
        { apply Classical_Prop.NNPP. intros No. pose proof (O p p Hp Hp) as Z. rewrite csum_zero in Z; [unfold kronecker in Z; rewrite Nat.eqb_refl in Z; apply RtoC_inj in Z; lra|].
          intros i Hi. replace (v i p) with (RtoC 0); [cring|]. symmetry. apply Classical_Prop.NNPP. intros Nz. apply No. exists i. split; assumption. }
        exists (e i). split; [apply e_among, Hi|]. rewrite combine_at by exact Hi. exact Ni.
      + apply state_at; [apply XP, combine_particles | |].
        * split; [intros o o' H; rewrite (combine_proper _ o o' H); reflexivity|]. intros o A Ne. rewrite (proj2 (combine_particles (fun i => v i p)) o A Ne). cx. cbn. ring.
        * intros i Hi. rewrite X_combine. unfold ap. rewrite (Ev i p Hi Hp). rewrite combine_at by exact Hi. reflexivity.
    - intros p q Hp Hq. rewrite combine_inner by apply combine_proper. rewrite <- (O p q Hp Hq). apply csum_ext. intros i Hi. rewrite combine_at by exact Hi. reflexivity.
    - exact As.
    - intros f Hf. set (g := fun o => S_ d (fun p => (inner l (combine (fun i => v i p)) f * combine (fun i => v i p) o)%C)). change (forall o, among l o -> f o = g o). apply state_at; [exact Hf | |].
      + split.
        * intros o o' H. apply csum_ext. intros p _. rewrite (combine_proper _ o o' H). reflexivity.
        * intros o A Ne. apply csum_zero. intros p _. rewrite (proj2 (combine_particles (fun i => v i p)) o A Ne). cx. cbn. ring.
      + intros i Hi. unfold g. transitivity (S_ d (fun p => S_ d (fun j => (v i p * Cconj (v j p) * f (e j))%C))).
        * rewrite (sumn_swap CC). rewrite (csum_pick d i); [|exact Hi|].
          -- rewrite (csum_ext d _ (fun p => (f (e i) * (v i p * Cconj (v i p)))%C)) by (intros; cx; ring). rewrite <- csum_scal.
             rewrite (family_complete d false (fun p j => v j p) i i); [unfold kronecker; rewrite Nat.eqb_refl; symmetry; apply Cmult_1_r | | exact Hi | exact Hi]. split; [discriminate | exact O].
          -- intros j Hj Ne. rewrite (csum_ext d _ (fun p => (f (e j) * (v i p * Cconj (v j p)))%C)) by (intros; cx; ring). rewrite <- csum_scal.
             rewrite (family_complete d false (fun p j => v j p) i j); [unfold kronecker; destruct (Nat.eqb_spec i j); [congruence|]; apply Cmult_0_r | | exact Hi | exact Hj]. split; [discriminate | exact O].
        * apply csum_ext. intros p _. rewrite combine_inner by apply Hf. rewrite combine_at by exact Hi. rewrite Cmult_comm, csum_scal. apply csum_ext. intros j _. cx. ring.
  Qed.
  Lemma spectrum_exists : exists E Psi, spectrum l X N d E Psi.
  Proof. destruct (spectral d xmat xmat_hermitian) as (w & v & Ev). eexists. eexists. exact (spectrum_from w v Ev). Qed.
End Enumeration.
