(** Exact energies in fewer orbitals are higher. *)
From Coq Require Import List Arith ZArith Reals Lra Lia Bool.
From Coquelicot Require Import Coquelicot.
From Verif Require Import Scalar ScalarC Spec OneDimSpec DotProofs GridSpec GridProofs PositiveForms NodeProofs SpectralSpec SpectralProofs.
From Verif Require Import FockSpec FockProofs InnerSpec InnerProofs RaiseSpec RaiseProofs RaiseFock FockSpectrumSpec FockSpectrum GroundTheorems OrbitalMap LinearOde.
Import ListNotations.
Open Scope R_scope.
Local Notation S_ := (sumn (K := CC)).
Local Notation state := (FockSpec.state CC).
Local Notation inner := (InnerSpec.inner (K := CC)).

(** ** Particles *)
Fixpoint count (n i : nat) (o : occupation) : nat := match n with O => O | S n' => (if o i then 1 else 0) + count n' (S i) o end.
Lemma count_particles n : forall i o, particles (i + n) o = (particles i o + count n i o)%nat.
Proof.
  induction n as [|n IH]; intros i o; cbn [count]; [rewrite !Nat.add_0_r; reflexivity|]. replace (i + S n)%nat with (S i + n)%nat by lia. rewrite IH. cbn [particles]. lia.
Qed.
Lemma particles_none k : particles k (fun _ => false) = 0%nat.
Proof. induction k as [|k IH]; cbn [particles]; [reflexivity|]. rewrite IH. reflexivity. Qed.
Lemma lift_sector k C n : forall i P f o, sector k P f -> ~ P (count n i o) -> lift (K := CC) k C n i f o = RtoC 0.
Proof.
  induction n as [|n IH]; intros i P f o H N; cbn [lift].
  - apply H; [intros p _; reflexivity|]. rewrite particles_none. exact N.
  - cbn [count] in N. destruct (o i).
    + apply csum_zero. intros q Hq. rewrite (IH (S i) (fun n => P (S n)) (annihilate q f) o); [apply Cmult_0_r | apply sector_annihilate; assumption | exact N].
    + apply (IH (S i) P); assumption.
Qed.
Lemma embed_particles k C l N (f : state) : particle_state k N f -> particle_state l N (embed (K := CC) k C l f).
Proof.
  intros [_ H]. split; [apply embed_proper|]. intros o _ Ne. apply (lift_sector k C l 0 (fun n => n = N)); [exact H|]. pose proof (count_particles l 0 o) as Q. cbn in Q. rewrite <- Q. exact Ne.
Qed.
Lemma annihilate_particles k N q (f : state) : (q < k)%nat -> particle_state k (S N) f -> particle_state k N (annihilate q f).
Proof.
  intros Hq [Pf H]. split; [apply annihilate_proper, Pf|]. intros o A Ne. apply (sector_annihilate k (fun n => n = S N) q f Hq H o A). lia.
Qed.
Lemma inner_annihilate l p (f g : state) : (p < l)%nat -> proper f -> proper g ->
  inner l (annihilate p f) (annihilate p g) = total (K := CC) l (fun o => if o p then (Cconj (f o) * g o)%C else RtoC 0) (fun _ => false).
Proof.
  intros H Pf Pg. rewrite (adjoint' CC l p f _ H Pf (annihilate_proper CC p g Pg)). unfold InnerSpec.inner. apply total_ext. intros o _.
  rewrite (number_at CC p g o Pg). destruct (o p); [reflexivity | apply Cmult_0_r].
Qed.
Lemma number_sum l (o : occupation) (z : C) : S_ l (fun p => if o p then z else RtoC 0) = (RtoC (INR (particles l o)) * z)%C.
Proof.
  induction l as [|l IH]; cbn [sumn particles]; [symmetry; apply Cmult_0_l|]. etransitivity; [apply (f_equal2 Cplus); [exact IH | reflexivity]|].
  rewrite plus_INR, RtoC_plus. destruct (o l); cbn [INR]; cx; ring.
Qed.
Lemma number_inner l N (f g : state) : particle_state l N f -> proper g ->
  S_ l (fun p => inner l (annihilate p f) (annihilate p g)) = (RtoC (INR N) * inner l f g)%C.
Proof.
  intros [Pf Hf] Pg. rewrite (csum_ext l _ (fun p => total (K := CC) l (fun o => if o p then (Cconj (f o) * g o)%C else RtoC 0) (fun _ => false))) by (intros p Hp; apply inner_annihilate; assumption).
  etransitivity; [symmetry; exact (total_sum CC l l (fun p o => if o p then (Cconj (f o) * g o)%C else RtoC 0) (fun _ => false))|].
  unfold InnerSpec.inner. etransitivity; [|exact (total_scal CC l (RtoC (INR N)) (fun o => (Cconj (f o) * g o)%C) (fun _ => false))].
  apply (total_ext CC). intros o Ho. etransitivity; [exact (number_sum l o _)|].
  destruct (Nat.eq_dec (particles l o) N) as [->|Ne]; [reflexivity|]. rewrite (Hf o); [|intros p Hp; rewrite Ho by exact Hp; reflexivity | exact Ne].
  assert (Z : (Cconj (RtoC 0) * g o)%C = RtoC 0) by (replace (Cconj (RtoC 0)) with (RtoC 0) by cring; apply Cmult_0_l).
  etransitivity; [apply (f_equal (Cmult _)), Z|]. rewrite Cmult_0_r. symmetry. etransitivity; [apply (f_equal (Cmult _)), Z|]. apply Cmult_0_r.
Qed.

Lemma particles_empty n (o : occupation) : particles n o = 0%nat -> among n o -> forall p, o p = false.
Proof.
  intros Z A p. destruct (le_lt_dec n p) as [L|L]; [apply A, L|]. clear A. induction n as [|n IH]; [lia|]. cbn [particles] in Z. destruct (Nat.eq_dec p n) as [->|]; [destruct (o n); [lia|reflexivity]|]. apply IH; lia.
Qed.
Lemma vacuum_inner n (h g : state) : particle_state n 0 h -> proper g -> inner n h g = (Cconj (h (fun _ => false)) * g (fun _ => false))%C.
Proof.
  intros [Ph Hh] Pg. set (v := fun _ : nat => false).
  rewrite (GroundTheorems.inner_ext_l n h (fun o => (h v * determinant (K := CC) n v o)%C) g).
  - etransitivity; [exact (OrbitalMap.inner_scal_l CC n (h v) (determinant (K := CC) n v) g)|]. apply (f_equal (Cmult (Cconj (h v)))). apply (inner_det CC); [intros p _; reflexivity | exact Pg].
  - intros o A. destruct (Nat.eq_dec (particles n o) 0) as [Z|Z].
    + pose proof (particles_empty n o Z A) as Eo. rewrite (Ph o v Eo). rewrite (proj1 (det_particles CC n v) o v Eo). rewrite (det_self CC). symmetry. apply Cmult_1_r.
    + rewrite (Hh o A Z). rewrite (proj2 (det_particles CC n v) o A); [symmetry; apply Cmult_0_r|]. unfold v. rewrite particles_none. exact Z.
Qed.

Lemma cancel (n x y : C) : n <> RtoC 0 -> (n * x)%C = (n * y)%C -> x = y.
Proof. intros Nz Q. transitivity (/ n * (n * x))%C; [field; exact Nz|]. rewrite Q. field. exact Nz. Qed.
Lemma shuffle1 (h a b g : C) : (h * (a * b * g))%C = (a * h * b * g)%C.
Proof. ring. Qed.
Lemma shuffle2 (h a b c d g : C) : (h * (a * b * (c * d) * g))%C = (a * b * h * c * d * g)%C.
Proof. ring. Qed.
Lemma sum8_swap l k (F : nat -> nat -> nat -> nat -> nat -> nat -> nat -> nat -> C) :
  S_ l (fun a => S_ l (fun b => S_ l (fun c => S_ l (fun d => S_ k (fun p => S_ k (fun q => S_ k (fun r => S_ k (fun s => F a b c d p q r s)))))))) =
  S_ k (fun p => S_ k (fun q => S_ k (fun r => S_ k (fun s => S_ l (fun a => S_ l (fun b => S_ l (fun c => S_ l (fun d => F a b c d p q r s)))))))).
Proof.
  assert (A : forall (G : nat -> nat -> nat -> nat -> nat -> C), S_ l (fun a => S_ k (fun p => S_ k (fun q => S_ k (fun r => S_ k (fun s => G a p q r s))))) =
     S_ k (fun p => S_ k (fun q => S_ k (fun r => S_ k (fun s => S_ l (fun a => G a p q r s)))))).
  { intros G. etransitivity; [exact (sumn_swap CC l k (fun a p => S_ k (fun q => S_ k (fun r => S_ k (fun s => G a p q r s)))))|]. apply csum_ext. intros p _.
    etransitivity; [exact (sumn_swap CC l k (fun a q => S_ k (fun r => S_ k (fun s => G a p q r s))))|]. apply csum_ext. intros q _.
    etransitivity; [exact (sumn_swap CC l k (fun a r => S_ k (fun s => G a p q r s)))|]. apply csum_ext. intros r _. exact (sumn_swap CC l k (fun a s => G a p q r s)). }
  etransitivity; [apply csum_ext; intros a _; apply csum_ext; intros b _; apply csum_ext; intros c _; apply (A (fun d => F a b c d))|].
  etransitivity; [apply csum_ext; intros a _; apply csum_ext; intros b _; apply (A (fun c p q r s => S_ l (fun d => F a b c d p q r s)))|].
  etransitivity; [apply csum_ext; intros a _; apply (A (fun b p q r s => S_ l (fun c => S_ l (fun d => F a b c d p q r s))))|].
  apply (A (fun a p q r s => S_ l (fun b => S_ l (fun c => S_ l (fun d => F a b c d p q r s))))).
Qed.
(** No particle to take away *)
Definition gone (k : nat) (f : state) : Prop := forall o, among k o -> f o = RtoC 0.
Lemma gone_0 k p f : (p < k)%nat -> particle_state k 0 f -> gone k (annihilate p f).
Proof. intros Hp [_ H] o A. apply (sector_annihilate k (fun n => n = 0%nat) p f Hp H o A). lia. Qed.
Lemma gone_more k p f : (p < k)%nat -> gone k f -> gone k (annihilate p f).
Proof. intros Hp H o A. apply (sector_annihilate k (fun _ => False) p f Hp); [intros o' A' _; apply H, A' | exact A | auto]. Qed.
Lemma gone_inner k f g : gone k f -> inner k f g = RtoC 0.
Proof.
  intros H. rewrite (GroundTheorems.inner_ext_l k f (fun o => (RtoC 0 * f o)%C) g) by (intros o A; rewrite (H o A); symmetry; apply Cmult_0_l).
  etransitivity; [exact (OrbitalMap.inner_scal_l CC k (RtoC 0) f g)|]. replace (@sconj CC (RtoC 0)) with (RtoC 0) by (cbn; cring). apply Cmult_0_l.
Qed.
Lemma gone_embed l k C0 f : gone k f -> gone l (embed (K := CC) k C0 l f).
Proof. intros H o _. apply (lift_sector k C0 l 0 (fun _ => False)); [intros o' A' _; apply H, A' | auto]. Qed.
Lemma gone_iso l k C0 f g : gone k f -> gone k g -> inner l (embed (K := CC) k C0 l f) (embed (K := CC) k C0 l g) = inner k f g.
Proof. intros Hf _. rewrite (gone_inner k f g Hf). apply gone_inner, gone_embed, Hf. Qed.
(** ** Orthonormal new orbitals *)
Section Isometry.
  Variables (l k : nat) (C0 : nat -> nat -> C).
  Hypothesis Orth : forall p q, (p < k)%nat -> (q < k)%nat -> mmul (K := CC) l (adj (K := CC) C0) C0 p q = delta (K := CC) p q.
  Local Notation W := (embed (K := CC) k C0 l).
  Lemma sum3_swap (F : nat -> nat -> nat -> C) : S_ l (fun b => S_ k (fun p => S_ k (fun q => F b p q))) = S_ k (fun p => S_ k (fun q => S_ l (fun b => F b p q))).
  Proof. etransitivity; [exact (sumn_swap CC l k (fun b p => S_ k (fun q => F b p q)))|]. apply csum_ext. intros p _. exact (sumn_swap CC l k (fun b q => F b p q)). Qed.
  Lemma isometry N : forall f g, particle_state k N f -> particle_state k N g -> inner l (W f) (W g) = inner k f g.
  Proof.
    induction N as [|N IH]; intros f g Hf Hg.
    - assert (V : forall n (h : state), particle_state n 0 h -> forall g, proper g -> inner n h g = (Cconj (h (fun _ => false)) * g (fun _ => false))%C).
      { intros n h Hh g' Pg. apply vacuum_inner; assumption. }
      assert (W0 : forall n i (h : state), lift (K := CC) k C0 n i h (fun _ => false) = h (fun _ => false)) by (induction n as [|n IHn]; intros; cbn [lift]; [reflexivity | apply IHn]).
      rewrite (V l (W f) (embed_particles k C0 l 0 f Hf) (W g) (embed_proper CC k C0 l g)), (V k f Hf g (proj1 Hg)). unfold embed. rewrite !W0. reflexivity.
    - pose proof (number_inner l (S N) (W f) (W g) (embed_particles k C0 l _ f Hf) (embed_proper CC k C0 l g)) as Q1.
      pose proof (number_inner k (S N) f g Hf (proj1 Hg)) as Q2.
      assert (Q : S_ l (fun b => inner l (annihilate b (W f)) (annihilate b (W g))) = S_ k (fun p => inner k (annihilate p f) (annihilate p g))).
      { rewrite (csum_ext l _ (fun b => S_ k (fun p => S_ k (fun q => (Cconj (C0 b p) * C0 b q * inner l (W (annihilate p f)) (W (annihilate q g)))%C)))).
        2:{ intros b Hb. exact (lower_inner CC k C0 l b b f g Hb Hb (proj1 Hf) (proj1 Hg)). }
        rewrite sum3_swap. apply csum_ext. intros p Hp. rewrite (csum_ext k _ (fun q => (delta (K := CC) p q * inner k (annihilate p f) (annihilate q g))%C)).
        2:{ intros q Hq. rewrite <- (IH (annihilate p f) (annihilate q g)) by (apply annihilate_particles; assumption). rewrite <- Orth by assumption. unfold mmul, adj. symmetry. exact (sumn_mul_r CC l _ _). }
        etransitivity; [apply (csum_pick k p _ Hp); intros q Hq Nq; unfold delta; destruct (Nat.eqb_spec p q); [lia|]; apply Cmult_0_l|].
        unfold delta. rewrite Nat.eqb_refl. apply Cmult_1_l. }
      rewrite Q1, Q2 in Q. assert (Nz : RtoC (INR (S N)) <> RtoC 0) by (intros Z; apply RtoC_inj in Z; revert Z; apply not_0_INR; lia).
      exact (cancel _ _ _ Nz Q).
  Qed.
  (** ** Matrix elements *)
  Lemma conj_tilde p a : adj (K := CC) C0 p a = Cconj (C0 a p).
  Proof. reflexivity. Qed.
  Lemma one_form h N f g : particle_state k N f -> particle_state k N g ->
    inner l (W f) (one_body (K := CC) l h (W g)) = inner k f (one_body (K := CC) k (T1 (K := CC) l h C0 (adj (K := CC) C0)) g).
  Proof.
    intros Hf Hg. rewrite (inner_one CC l h (W f) (W g) (embed_proper CC k C0 l f) (embed_proper CC k C0 l g)), (inner_one CC k _ f g (proj1 Hf) (proj1 Hg)).
    assert (Iso : forall p q, (p < k)%nat -> (q < k)%nat -> inner l (W (annihilate p f)) (W (annihilate q g)) = inner k (annihilate p f) (annihilate q g)).
    { intros p q Hp Hq. destruct N as [|N]; [|apply (isometry N); apply annihilate_particles; assumption]. apply gone_iso; apply gone_0; assumption. }
    transitivity (S_ l (fun a => S_ l (fun b => S_ k (fun p => S_ k (fun q => (Cconj (C0 a p) * h a b * C0 b q * inner k (annihilate p f) (annihilate q g))%C))))).
    { apply csum_ext. intros a Ha. apply csum_ext. intros b Hb. etransitivity; [apply (f_equal (Cmult (h a b))); exact (lower_inner CC k C0 l a b f g Ha Hb (proj1 Hf) (proj1 Hg))|].
      etransitivity; [exact (sumn_mul_l CC k (h a b) _)|]. apply csum_ext. intros p Hp. etransitivity; [exact (sumn_mul_l CC k (h a b) _)|]. apply csum_ext. intros q Hq. rewrite (Iso p q Hp Hq). apply shuffle1. }
    rewrite (csum_ext l _ (fun a => S_ k (fun p => S_ k (fun q => S_ l (fun b => (Cconj (C0 a p) * h a b * C0 b q * inner k (annihilate p f) (annihilate q g))%C))))) by (intros a _; apply sum3_swap).
    rewrite sum3_swap. apply csum_ext. intros p _. apply csum_ext. intros q _. unfold T1. symmetry. etransitivity; [exact (sumn_mul_r CC l _ _)|]. apply csum_ext. intros a _. exact (sumn_mul_r CC l _ _).
  Qed.
  Lemma two_form u N f g : particle_state k N f -> particle_state k N g ->
    inner l (W f) (two_body (K := CC) l u (W g)) = inner k f (two_body (K := CC) k (T2 (K := CC) l u C0 (adj (K := CC) C0)) g).
  Proof.
    intros Hf Hg. rewrite (inner_two CC l u (W f) (W g) (embed_proper CC k C0 l f) (embed_proper CC k C0 l g)), (inner_two CC k _ f g (proj1 Hf) (proj1 Hg)).
    assert (Iso : forall p q r s, (p < k)%nat -> (q < k)%nat -> (r < k)%nat -> (s < k)%nat ->
      inner l (W (annihilate q (annihilate p f))) (W (annihilate s (annihilate r g))) = inner k (annihilate q (annihilate p f)) (annihilate s (annihilate r g))).
    { intros p q r s Hp Hq Hr Hs. destruct N as [|[|N]]; [| |apply (isometry N); apply annihilate_particles; try apply annihilate_particles; assumption].
      - apply gone_iso; [exact (gone_more k q _ Hq (gone_0 k p f Hp Hf)) | exact (gone_more k s _ Hs (gone_0 k r g Hr Hg))].
      - apply gone_iso; [exact (gone_0 k q _ Hq (annihilate_particles k 0 p f Hp Hf)) | exact (gone_0 k s _ Hs (annihilate_particles k 0 r g Hr Hg))]. }
    set (G := fun p q r s => inner k (annihilate q (annihilate p f)) (annihilate s (annihilate r g))) in *.
    transitivity (S_ l (fun a => S_ l (fun b => S_ l (fun c => S_ l (fun d => S_ k (fun p => S_ k (fun q => S_ k (fun r => S_ k (fun s =>
      (Cconj (C0 a p) * Cconj (C0 b q) * u a b c d * C0 c r * C0 d s * G p q r s)%C))))))))).
    { apply csum_ext. intros a Ha. apply csum_ext. intros b Hb. apply csum_ext. intros c Hc. apply csum_ext. intros d Hd.
      etransitivity; [apply (f_equal (Cmult (u a b c d))); exact (lower_inner2 CC k C0 l a b c d f g Ha Hb Hc Hd (proj1 Hf) (proj1 Hg))|].
      etransitivity; [exact (sumn_mul_l CC k (u a b c d) _)|]. apply csum_ext. intros p Hp. etransitivity; [exact (sumn_mul_l CC k (u a b c d) _)|]. apply csum_ext. intros q Hq.
      etransitivity; [exact (sumn_mul_l CC k (u a b c d) _)|]. apply csum_ext. intros r Hr. etransitivity; [exact (sumn_mul_l CC k (u a b c d) _)|]. apply csum_ext. intros s Hs.
      rewrite (Iso p q r s Hp Hq Hr Hs). apply shuffle2. }
    etransitivity; [apply (sum8_swap l k (fun a b c d p q r s => (Cconj (C0 a p) * Cconj (C0 b q) * u a b c d * C0 c r * C0 d s * G p q r s)%C))|].
    apply csum_ext. intros p _. apply csum_ext. intros q _. apply csum_ext. intros r _. apply csum_ext. intros s _. unfold T2. symmetry.
    etransitivity; [exact (sumn_mul_r CC l _ _)|]. apply csum_ext. intros a _. etransitivity; [exact (sumn_mul_r CC l _ _)|]. apply csum_ext. intros b _.
    etransitivity; [exact (sumn_mul_r CC l _ _)|]. apply csum_ext. intros c _. exact (sumn_mul_r CC l _ _).
  Qed.
  Lemma hamiltonian_form x h u N f g : particle_state k N f -> particle_state k N g ->
    inner l (W f) (hamiltonian (K := CC) l x h u (W g)) =
    inner k f (hamiltonian (K := CC) k x (T1 (K := CC) l h C0 (adj (K := CC) C0)) (T2 (K := CC) l u C0 (adj (K := CC) C0)) g).
  Proof.
    intros Hf Hg. unfold hamiltonian. etransitivity; [exact (inner_add CC l (W f) (one_body l h (W g)) (fun o => smul x (two_body l u (W g) o)))|].
    etransitivity; [|symmetry; exact (inner_add CC k f (one_body k _ g) (fun o => smul x (two_body k _ g o)))].
    apply (f_equal2 Cplus); [exact (one_form h N f g Hf Hg)|]. etransitivity; [exact (inner_scal CC l (W f) x _)|]. etransitivity; [|symmetry; exact (inner_scal CC k f x _)].
    apply (f_equal (Cmult x)). exact (two_form u N f g Hf Hg).
  Qed.
End Isometry.

(** ** More unknowns than equations *)
Lemma cnull m d (A : nat -> nat -> C) : (m < d)%nat -> exists x : nat -> C, (exists q, (q < d)%nat /\ x q <> RtoC 0) /\ forall j, (j < m)%nat -> S_ d (fun q => (A j q * x q)%C) = RtoC 0.
Proof.
  intros H. set (re := fun j i => if Nat.even i then Re (A j (Nat.div2 i)) else - Im (A j (Nat.div2 i))). set (im := fun j i => if Nat.even i then Im (A j (Nat.div2 i)) else Re (A j (Nat.div2 i))).
  destruct (null_vector (2 * d) (map re (seq 0 m) ++ map im (seq 0 m))) as (r & (q & Hq & Nq) & Z); [rewrite app_length, !map_length, seq_length; lia|].
  exists (zof r). split.
  - exists (Nat.div2 q). split; [pose proof (Nat.div2_odd q); destruct (Nat.odd q); cbn in *; lia|]. intros E. apply Nq. pose proof (f_equal fst E) as E1. change (r (2 * Nat.div2 q)%nat = 0) in E1. pose proof (f_equal snd E) as E2. change (r (2 * Nat.div2 q + 1)%nat = 0) in E2. clear E.
    pose proof (Nat.div2_odd q) as Q. destruct (Nat.odd q); cbn [Nat.b2n] in Q; [rewrite <- Q in E2; exact E2 | rewrite Nat.add_0_r in Q; rewrite <- Q in E1; exact E1].
  - intros j Hj.
    pose proof (Z (re j) ltac:(apply in_or_app; left; apply in_map, in_seq; lia)) as Z1. pose proof (Z (im j) ltac:(apply in_or_app; right; apply in_map, in_seq; lia)) as Z2.
    rewrite rsum_double in Z1, Z2.
    assert (Ev : forall i, Nat.even (2 * i) = true) by (intros i; apply Nat.even_spec; exists i; reflexivity).
    assert (Od : forall i, Nat.even (2 * i + 1) = false) by (intros i; rewrite <- Nat.negb_odd; replace (Nat.odd (2 * i + 1)) with true; [reflexivity|]; symmetry; apply Nat.odd_spec; exists i; reflexivity).
    assert (D1 : forall i, Nat.div2 (2 * i + 1) = i) by (intros i; replace (2 * i + 1)%nat with (S (2 * i)) by lia; apply Nat.div2_succ_double).
    assert (E : S_ d (fun q => (A j q * zof r q)%C) = (RtoC 0)); [|exact E].
    assert (P : forall z : C, Re z = 0 -> Im z = 0 -> z = RtoC 0) by (intros [a b] Ha Hb; cbn in *; subst; reflexivity).
    apply P; [rewrite (re_sum d); rewrite <- Z1 | rewrite (im_sum d); rewrite <- Z2]; apply rsum_ext; intros i _; unfold re, im; rewrite Ev, Od, D1, Nat.div2_double; unfold zof, Re, Im, Cmult; cbn [fst snd]; ring.
Qed.

(** ** Energies in a subspace *)
Section Subspace.
  Variables (l k N d d' : nat) (X X' : state -> state) (E E' : nat -> R) (Psi Psi' : nat -> state) (W : state -> state) (c : R).
  Hypothesis XS : symmetric_operator l X.
  Hypothesis XS' : symmetric_operator k X'.
  Hypothesis Sp : spectrum l X N d E Psi.
  Hypothesis Sp' : spectrum k X' N d' E' Psi'.
  Hypothesis WP : forall f, particle_state k N f -> particle_state l N (W f).
  Hypothesis WL : forall n (c : nat -> C) (F : nat -> state) o, W (fun o => S_ n (fun j => (c j * F j o)%C)) o = S_ n (fun j => (c j * W (F j) o)%C).
  Hypothesis WI : forall f g, particle_state k N f -> particle_state k N g -> inner l (W f) (W g) = inner k f g.
  Hypothesis WX : forall f, particle_state k N f -> Re (inner l (W f) (X (W f))) <= Re (inner k f (X' f)) + c * Re (inner k f f).
  Lemma sum_particles n (x : nat -> C) (F : nat -> state) : (forall j, (j < n)%nat -> particle_state k N (F j)) -> particle_state k N (fun o => S_ n (fun j => (x j * F j o)%C)).
  Proof.
    intros H. split.
    - intros o o' Eo. apply csum_ext. intros j Hj. f_equal. apply (proj1 (H j Hj)), Eo.
    - intros o A Ne. apply csum_zero. intros j Hj. rewrite (proj2 (H j Hj) o A Ne). apply Cmult_0_r.
  Qed.
  Lemma inner_combination n m (g : state) (x : nat -> C) (F : nat -> state) : inner n g (fun o => S_ m (fun j => (x j * F j o)%C)) = S_ m (fun j => (x j * inner n g (F j))%C).
  Proof. etransitivity; [exact (inner_sum CC n g m (fun j o => (x j * F j o)%C))|]. apply csum_ext. intros j _. exact (inner_scal CC n g (x j) (F j)). Qed.
  Lemma levels_rise p : (p < d')%nat -> (p < d)%nat /\ E p <= E' p + c.
  Proof.
    intros Hp. set (m := Nat.min p d).
    destruct (cnull m (S p) (fun j q => inner l (Psi j) (W (Psi' q)))) as (x & (q0 & Hq0 & Nq0) & Z); [unfold m; lia|].
    set (phi := fun o => S_ (S p) (fun q => (x q * Psi' q o)%C)).
    assert (Ps : forall q, (q < S p)%nat -> particle_state k N (Psi' q)) by (intros q Hq; apply (sp_state _ _ _ _ _ _ Sp'); lia).
    assert (Pp : particle_state k N phi) by (apply sum_particles; exact Ps).
    assert (Zc : forall j, (j < m)%nat -> inner l (Psi j) (W phi) = RtoC 0).
    { intros j Hj. rewrite <- (Z j Hj). rewrite (inner_ext CC l (Psi j) (W phi) (fun o => S_ (S p) (fun q => (x q * W (Psi' q) o)%C))) by (intros o; exact (WL (S p) x Psi' o)).
      rewrite inner_combination. apply csum_ext. intros q _. apply Cmult_comm. }
    assert (Cq : forall q, (q < d')%nat -> inner k (Psi' q) phi = if (q <? S p)%nat then x q else RtoC 0).
    { intros q Hq. unfold phi. rewrite inner_combination. destruct (Nat.ltb_spec q (S p)) as [L|L].
      - etransitivity; [apply (csum_pick (S p) q _ L)|].
        + intros j Hj Nj. rewrite (sp_orthonormal _ _ _ _ _ _ Sp' q j Hq ltac:(lia)). unfold kronecker. destruct (Nat.eqb_spec q j); [lia|]. apply Cmult_0_r.
        + rewrite (sp_orthonormal _ _ _ _ _ _ Sp' q q Hq Hq). unfold kronecker. rewrite Nat.eqb_refl. apply Cmult_1_r.
      - apply csum_zero. intros j Hj. rewrite (sp_orthonormal _ _ _ _ _ _ Sp' q j Hq ltac:(lia)). unfold kronecker. destruct (Nat.eqb_spec q j); [lia|]. apply Cmult_0_r. }
    pose proof (expand_norm l N d X E Psi Sp (W phi) (WP phi Pp)) as N1. pose proof (expand_energy l N d X E Psi XS Sp (W phi) (WP phi Pp)) as M1.
    pose proof (expand_norm k N d' X' E' Psi' Sp' phi Pp) as N2. pose proof (expand_energy k N d' X' E' Psi' XS' Sp' phi Pp) as M2.
    pose proof (WX phi Pp) as M3. rewrite M1, M2, N2 in M3. cbn [Re RtoC fst] in M3. rewrite (WI phi phi Pp Pp), N2 in N1. apply RtoC_inj in N1.
    set (T := rsum d' (fun q => Cmod (inner k (Psi' q) phi) ^ 2)) in *.
    assert (Tp : 0 < T).
    { assert (T0 : 0 <= T) by (apply rsum_nonneg; intros; apply pow2_ge_0). destruct (Req_dec T 0) as [T1|T1]; [|lra]. exfalso.
      pose proof (rsum_null d' _ (fun q _ => pow2_ge_0 _) T1 q0 ltac:(lia)) as Q. cbv beta in Q. rewrite Cq in Q by lia. destruct (Nat.ltb_spec q0 (S p)); [|lia].
      apply Nq0. apply Cmod_eq_0. destruct (Req_dec (Cmod (x q0)) 0) as [Y|Y]; [exact Y|]. exfalso. apply (pow_nonzero _ 2) in Y. contradiction. }
    assert (Up : rsum d' (fun q => E' q * Cmod (inner k (Psi' q) phi) ^ 2) <= E' p * T).
    { unfold T. rewrite <- rsum_scal. apply rsum_le. intros q Hq. rewrite Cq by exact Hq. destruct (Nat.ltb_spec q (S p)) as [L|L].
      - apply Rmult_le_compat_r; [apply pow2_ge_0|]. apply (sp_ascending _ _ _ _ _ _ Sp'); lia.
      - rewrite Cmod_0. lra. }
    assert (Hd : (p < d)%nat).
    { destruct (le_lt_dec d p) as [L|L]; [exfalso|exact L]. assert (Z0 : rsum d (fun j => Cmod (inner l (Psi j) (W phi)) ^ 2) = 0); [|lra].
      apply rsum_zero. intros j Hj. rewrite Zc by (unfold m; lia). rewrite Cmod_0. ring. }
    split; [exact Hd|].
    assert (Lo : E p * rsum d (fun j => Cmod (inner l (Psi j) (W phi)) ^ 2) <= rsum d (fun j => E j * Cmod (inner l (Psi j) (W phi)) ^ 2)).
    { rewrite <- rsum_scal. apply rsum_le. intros j Hj. destruct (le_lt_dec p j) as [L|L].
      - apply Rmult_le_compat_r; [apply pow2_ge_0|]. apply (sp_ascending _ _ _ _ _ _ Sp); lia.
      - rewrite Zc by (unfold m; lia). rewrite Cmod_0. lra. }
    rewrite <- N1 in Lo. apply Rmult_le_reg_r with T; lra.
  Qed.
End Subspace.
