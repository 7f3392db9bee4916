(** One electron missing: an annihilator passes the Hamiltonian. *)
From Coq Require Import List Arith Lia Bool Setoid Ring.
From Verif Require Import Scalar Spec FockSpec FockProofs.
Import ListNotations.

Section HoleAlgebra.
  Variable K : scalar.
  Local Open Scope K_scope.
  Add Ring KringHole : (s_ring K).
  Notation state := (state K).
  Implicit Types (f g : state) (o c : occupation) (h : nat -> nat -> K) (u U : nat -> nat -> nat -> nat -> K).
  Local Infix "==" := (same K) (at level 70).

  Definition sum4 l (F : nat -> nat -> nat -> nat -> K) : K :=
    sumn l (fun p => sumn l (fun q => sumn l (fun r => sumn l (fun s => F p q r s)))).
  Lemma sum4_add l F G : sum4 l F + sum4 l G = sum4 l (fun p q r s => F p q r s + G p q r s).
  Proof.
    unfold sum4. rewrite <- sumn_add. apply sumn_ext. intros p _. rewrite <- sumn_add. apply sumn_ext. intros q _.
    rewrite <- sumn_add. apply sumn_ext. intros r _. rewrite <- sumn_add. reflexivity.
  Qed.
  Lemma sum4_ext l F G : (forall p q r s, (p < l)%nat -> (q < l)%nat -> (r < l)%nat -> (s < l)%nat -> F p q r s = G p q r s) -> sum4 l F = sum4 l G.
  Proof. intros H. unfold sum4. do 4 (apply sumn_ext; intros ? ?). apply H; assumption. Qed.
  Lemma sum4_first l k F : (k < l)%nat ->
    sumn l (fun q => sumn l (fun r => sumn l (fun s => F k q r s))) = sum4 l (fun p q r s => F p q r s * delta k p).
  Proof.
    intros H. rewrite <- (sum_delta_r K l k (fun p => sumn l (fun q => sumn l (fun r => sumn l (fun s => F p q r s)))) H).
    unfold sum4. apply sumn_ext. intros p _. rewrite sumn_mul_r. apply sumn_ext. intros q _. rewrite sumn_mul_r. apply sumn_ext. intros r _.
    apply sumn_mul_r.
  Qed.
  Lemma sum4_second l k F : (k < l)%nat ->
    sumn l (fun p => sumn l (fun r => sumn l (fun s => F p k r s))) = sum4 l (fun p q r s => F p q r s * delta k q).
  Proof.
    intros H. unfold sum4. apply sumn_ext. intros p _.
    rewrite <- (sum_delta_r K l k (fun q => sumn l (fun r => sumn l (fun s => F p q r s))) H).
    apply sumn_ext. intros q _. rewrite sumn_mul_r. apply sumn_ext. intros r _. apply sumn_mul_r.
  Qed.

  Lemma pass_two k p q r s f : proper f -> forall o,
    annihilate k (create p (create q (annihilate s (annihilate r f)))) o + create p (annihilate s (annihilate r f)) o * delta k q =
    create q (annihilate s (annihilate r f)) o * delta k p + create p (create q (annihilate s (annihilate r (annihilate k f)))) o.
  Proof.
    intros E o. set (g := annihilate s (annihilate r f)). assert (Eg : proper g) by (unfold g; repeat apply annihilate_proper; exact E).
    assert (X : annihilate k g == annihilate s (annihilate r (annihilate k f))).
    { intros o'. unfold g. rewrite (anti_aa K k s _ (annihilate_proper K r f E) o').
      rewrite (annihilate_ext K s _ _ (anti_aa K k r f E) o'), (annihilate_opp K s _ o'). ring. }
    rewrite (anti_ac K k p _ (create_proper K q g Eg) o).
    rewrite (create_ext K p _ _ (anti_ac K k q g Eg) o), (create_sub K p (fun o => delta k q * g o) _ o), (create_scal K p _ g o).
    rewrite (create_ext K p _ _ (create_ext K q _ _ X) o). ring.
  Qed.
  Lemma annihilate_two l U k f : proper f -> (k < l)%nat -> forall o,
    annihilate k (two_body l U f) o + sumn l (fun p => sumn l (fun r => sumn l (fun s => U p k r s * create p (annihilate s (annihilate r f)) o))) =
    sumn l (fun q => sumn l (fun r => sumn l (fun s => U k q r s * create q (annihilate s (annihilate r f)) o))) + two_body l U (annihilate k f) o.
  Proof.
    intros E Hk o. rewrite (lin_two K (annihilate k) l U f (annihilate_linear K k) o). unfold two_body.
    rewrite (sum4_second l k (fun p q r s => U p q r s * create p (annihilate s (annihilate r f)) o) Hk).
    rewrite (sum4_first l k (fun p q r s => U p q r s * create q (annihilate s (annihilate r f)) o) Hk).
    change (sum4 l (fun p q r s => U p q r s * annihilate k (create p (create q (annihilate s (annihilate r f)))) o)
      + sum4 l (fun p q r s => U p q r s * create p (annihilate s (annihilate r f)) o * delta k q)
      = sum4 l (fun p q r s => U p q r s * create q (annihilate s (annihilate r f)) o * delta k p)
      + sum4 l (fun p q r s => U p q r s * create p (create q (annihilate s (annihilate r (annihilate k f)))) o)).
    rewrite !sum4_add. apply sum4_ext. intros p q r s _ _ _ _.
    transitivity (U p q r s * (annihilate k (create p (create q (annihilate s (annihilate r f)))) o + create p (annihilate s (annihilate r f)) o * delta k q)); [ring|].
    rewrite (pass_two k p q r s f E o). ring.
  Qed.

  (** All spin-orbitals occupied *)
  Lemma full_pair l q r s : (q < l)%nat -> let D : state := determinant l (lowest l) in forall o,
    create q (annihilate s (annihilate r D)) o = delta s q * annihilate r D o - delta r q * annihilate s D o.
  Proof.
    intros Hq D o. rewrite (move_create K q r s D (det_proper K l _) o).
    assert (Z : create q D == (fun _ => 0)) by (apply det_create; [exact Hq | apply Nat.ltb_lt, Hq]).
    rewrite (annihilate_zero K s _ (annihilate_zero K r _ Z) o). ring.
  Qed.
  Lemma full_triple l (W : nat -> nat -> nat -> K) o : let D : state := determinant l (lowest l) in
    sumn l (fun q => sumn l (fun r => sumn l (fun s => W q r s * create q (annihilate s (annihilate r D)) o))) =
    sumn l (fun v => sumn l (fun q => W q v q - W q q v) * annihilate v D o).
  Proof.
    intros D.
    transitivity (sumn l (fun q => sumn l (fun v => (W q v q - W q q v) * annihilate v D o))).
    - apply sumn_ext. intros q Hq.
      transitivity (sumn l (fun r => W q r q * annihilate r D o) - sumn l (fun s => W q q s * annihilate s D o)).
      + rewrite <- (sum_delta_r K l q (fun r => sumn l (fun s => W q r s * annihilate s D o)) Hq).
        rewrite <- sumn_sub. apply sumn_ext. intros r Hr.
        rewrite <- (sum_delta_r K l q (fun s => W q r s * annihilate r D o) Hq), sumn_mul_r, <- sumn_sub.
        apply sumn_ext. intros s Hs. pose proof (full_pair l q r s Hq o) as Z. cbv zeta in Z. fold D in Z. rewrite Z. unfold delta. rewrite (Nat.eqb_sym s q), (Nat.eqb_sym r q). ring.
      + rewrite <- sumn_sub. apply sumn_ext. intros v _. ring.
    - rewrite sumn_swap. apply sumn_ext. intros v _. rewrite sumn_mul_r. reflexivity.
  Qed.
  (** h_pv + x sum_q (u_pqvq - u_pqqv - u_qpvq + u_qpqv) *)
  Definition hole_matrix l (x : K) h u (p v : nat) : K :=
    h p v + x * (sumn l (fun q => u p q v q - u p q q v) - sumn l (fun q => u q p v q - u q p q v)).
  Lemma hole_algebra l x h u k : (k < l)%nat -> let D : state := determinant l (lowest l) in forall o,
    hamiltonian l x h u (annihilate k D) o =
    annihilate k (hamiltonian l x h u D) o - sumn l (fun v => hole_matrix l x h u k v * annihilate v D o).
  Proof.
    intros Hk D o. assert (P : proper D) by apply det_proper.
    assert (S1 : annihilate k (hamiltonian l x h u D) o = annihilate k (one_body l h D) o + x * annihilate k (two_body l u D) o).
    { unfold hamiltonian. unfold annihilate at 1 2 3. destruct (o k); ring. }
    rewrite S1. unfold hamiltonian. rewrite (annihilate_one K l h k D P Hk o).
    pose proof (annihilate_two l u k D P Hk o) as T.
    pose proof (full_triple l (fun q r s => u k q r s) o) as T1. pose proof (full_triple l (fun p r s => u p k r s) o) as T2.
    cbv zeta in T1, T2. fold D in T1, T2. rewrite T1, T2 in T.
    set (a := sumn l (fun v => sumn l (fun q => u k q v q - u k q q v) * annihilate v D o)) in *.
    set (b := sumn l (fun v => sumn l (fun q => u q k v q - u q k q v) * annihilate v D o)) in *.
    assert (M : sumn l (fun v => hole_matrix l x h u k v * annihilate v D o) = sumn l (fun v => h k v * annihilate v D o) + x * (a - b)).
    { unfold a, b. rewrite <- sumn_sub, sumn_mul_l, <- sumn_add. apply sumn_ext. intros v _. unfold hole_matrix. ring. }
    rewrite M. assert (T' : annihilate k (two_body l u D) o = a + two_body l u (annihilate k D) o - b) by (rewrite <- T; ring).
    rewrite T'. ring.
  Qed.
End HoleAlgebra.
