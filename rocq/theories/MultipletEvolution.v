(** Under time-dependent elements the spin is conserved. *)
From Coq Require Import List Arith ZArith Reals Lra Lia Bool.
From Coquelicot Require Import Coquelicot.
From Verif Require Import Scalar ScalarC Py Numpy BasisSet Spec OneDimSpec SpectralProofs Systems SystemFacts SystemProofs Worlds OperatorSpec OperatorProofs.
From Verif Require Import FockSpec FockProofs InnerSpec InnerProofs RaiseSpec RaiseProofs RaiseFock RaiseTheorems FockSpectrumSpec FockSpectrum GroundTheorems EvolutionSpec EvolutionCalculus EvolutionProofs EvolutionTheorems MultipletSpec MultipletProofs.
Import ListNotations.
Open Scope R_scope.
Local Notation S_ := (sumn (K := CC)).
Local Notation state := (FockSpec.state CC).
Local Notation inner := (InnerSpec.inner (K := CC)).

Lemma moving_spin l m F t f : moving (2 * l) F t f -> moving (2 * l) (fun x => spin_op l m (F x)) t (spin_op l m f).
Proof.
  intros Mv o A. unfold spin_op. set (h := fun P Q => if (P / 2 =? Q / 2)%nat then m (P mod 2)%nat (Q mod 2)%nat else RtoC 0).
  pose proof (moving_one (2 * l) (fun _ => h) (fun _ _ => RtoC 0) F t f (fun p q _ _ => d_const (h p q) t) Mv o A) as D. cbv beta in D.
  assert (Z : one_body (K := CC) (2 * l) (fun _ _ => RtoC 0) (F t) o = RtoC 0).
  { unfold one_body. etransitivity; [|apply (sumn_zero CC (2 * l))]. apply sumn_ext. intros p _. etransitivity; [|apply (sumn_zero CC (2 * l))]. apply sumn_ext. intros q _. apply Cmult_0_l. }
  rewrite Z in D. rewrite Cplus_0_l in D. exact D.
Qed.
Lemma three_terms (a b c : C) : (RtoC 1 * (RtoC 1 * a + RtoC 1 * b) + RtoC 1 * c)%C = (a + b + c)%C.
Proof. ring. Qed.
Lemma one_term (a c : C) : (c * a + RtoC 0 * a)%C = (c * a)%C.
Proof. ring. Qed.
Section Spin.
  Variables (l : nat) (h : R -> nat -> nat -> C) (u : R -> nat -> nat -> nat -> nat -> C).
  Let n := (2 * l)%nat.
  Let H t := many_body Spatial l (h t) (u t).
  Lemma evolution_spin m psi : evolution n H psi -> evolution n H (fun t => spin_op l m (psi t)).
  Proof.
    intros E. split; [intros t; apply so_proper, E|]. intros t o A.
    pose proof (moving_spin l m psi t _ (evolution_moving n H psi t E) o A) as D. cbv beta in D.
    rewrite so_scal in D. unfold H in D. rewrite so_commutes in D by apply E. exact D.
  Qed.
  Lemma evolution_congr psi phi : (forall t o, psi t o = phi t o) -> evolution n H psi -> evolution n H phi.
  Proof.
    intros Eq [P D]. split; [intros t o o' Eo; rewrite <- !Eq; apply P, Eo|]. intros t o A.
    rewrite <- (lin_ext CC _ (many_linear Spatial l (h t) (u t)) _ _ (Eq t) o : H t (psi t) o = H t (phi t) o). apply (d_ext (fun x => psi x o)); [intros x; apply Eq | apply D, A].
  Qed.
  Lemma evolution_squared psi : evolution n H psi -> evolution n H (fun t => S_squared l (psi t)).
  Proof.
    intros E. assert (L : forall t, linear CC (H t)) by (intros; apply many_linear).
    pose proof (evolution_spin (fun i j => (RtoC (1 / 2) * pauli_x (K := CC) i j)%C) _ (evolution_spin (fun i j => (RtoC (1 / 2) * pauli_x (K := CC) i j)%C) psi E)) as Ex.
    pose proof (evolution_spin (fun i j => (RtoC (1 / 2) * pauli_y (K := CC) i j)%C) _ (evolution_spin (fun i j => (RtoC (1 / 2) * pauli_y (K := CC) i j)%C) psi E)) as Ey.
    pose proof (evolution_spin (fun i j => (RtoC (1 / 2) * pauli_z (K := CC) i j)%C) _ (evolution_spin (fun i j => (RtoC (1 / 2) * pauli_z (K := CC) i j)%C) psi E)) as Ez.
    refine (evolution_congr _ _ _ (evolution_combination n H _ _ (RtoC 1) (RtoC 1) L (evolution_combination n H _ _ (RtoC 1) (RtoC 1) L Ex Ey) Ez)).
    intros t o. unfold S_squared, S_x, S_y, S_z. apply three_terms.
  Qed.
  Hypothesis Sy : forall t, symmetric_operator n (H t).
  Lemma value_kept (X : state -> state) psi (c : C) a : evolution n H psi -> evolution n H (fun t => X (psi t)) ->
    (forall o, among n o -> X (psi a) o = (c * psi a o)%C) -> forall b o, among n o -> X (psi b) o = (c * psi b o)%C.
  Proof.
    intros E Ex V b o A. assert (L : forall t, linear CC (H t)) by (intros; apply many_linear).
    assert (Ec : evolution n H (fun t o => (c * psi t o)%C)) by (refine (evolution_congr _ _ _ (evolution_combination n H psi psi c (RtoC 0) L E E)); intros t o'; apply one_term).
    exact (evolution_unique n H (fun t => X (psi t)) (fun t o => (c * psi t o)%C) a Sy L Ex Ec V b o A).
  Qed.
End Spin.
Lemma spin_conserved (w : world CC) s l x (h u : arr CC) d M : evolving w s l x h u d M -> sy_kind x = Spatial -> hermitian l (mat h) -> hermitian2 l (ten u) -> hermitian_drive l d M ->
  forall ops, List.Forall reads ops -> let w' := wrun_any ops w in let n := (2 * l)%nat in let H y := many_body Spatial l (h_at s w' y) (u_at s w' y) in
  forall psi, evolution n H psi ->
  (forall y z, inner n (psi y) (S_x l (psi y)) = inner n (psi z) (S_x l (psi z)) /\ inner n (psi y) (S_y l (psi y)) = inner n (psi z) (S_y l (psi z)) /\
    inner n (psi y) (S_z l (psi y)) = inner n (psi z) (S_z l (psi z)) /\ inner n (psi y) (S_squared l (psi y)) = inner n (psi z) (S_squared l (psi z))) /\
  (forall y z S, total_spin l S (psi y) -> total_spin l S (psi z)) /\ (forall y z P, projection l P (psi y) -> projection l P (psi z)).
Proof.
  intros Ev0 _ Hh Hu Hd ops Hr w' n H psi E. pose proof (evolving_reads CC ops w s l x h u d M Hr Ev0) as Ev. fold w' in Ev.
  assert (Sy : forall t, symmetric_operator n (H t)).
  { intros t. apply (many_body_symmetric Spatial); [apply (h_at_hermitian w' s l x h u d M Ev Hh Hd) | apply (u_at_hermitian w' s l x h u d M Ev Hu Hd)]. }
  pose proof (evolution_spin l (h_at s w') (u_at s w')) as So. pose proof (evolution_squared l (h_at s w') (u_at s w') psi E) as Sq.
  split; [|split].
  - intros y z. split; [|split; [|split]].
    + apply (overlap_kept n H psi (fun t => S_x l (psi t)) Sy E). exact (So _ psi E).
    + apply (overlap_kept n H psi (fun t => S_y l (psi t)) Sy E). exact (So _ psi E).
    + apply (overlap_kept n H psi (fun t => S_z l (psi t)) Sy E). exact (So _ psi E).
    + exact (overlap_kept n H psi (fun t => S_squared l (psi t)) Sy E Sq y z).
  - intros y z S V. exact (value_kept l (h_at s w') (u_at s w') Sy (S_squared l) psi _ y E Sq V z).
  - intros y z P V. exact (value_kept l (h_at s w') (u_at s w') Sy (S_z l) psi _ y E (So _ psi E) V z).
Qed.
