(** Conservation laws of the Schroedinger equation on Fock space. *)
From Coq Require Import List Arith ZArith Reals Lra Lia Bool.
From Coquelicot Require Import Coquelicot.
From Verif Require Import Scalar ScalarC Py Numpy BasisSet Spec OneDimSpec OneDimProofs DotProofs GridSpec GridProofs PositiveForms SpectralProofs Systems SystemFacts.
From Verif Require Import RaiseTheorems FockSpec FockProofs InnerSpec InnerProofs RaiseSpec RaiseProofs RaiseFock FockSpectrumSpec FockSpectrum GroundTheorems EvolutionSpec EvolutionCalculus.
Import ListNotations.
Open Scope R_scope.
Local Notation S_ := (sumn (K := CC)).
Local Notation state := (FockSpec.state CC).
Local Notation inner := (InnerSpec.inner (K := CC)).

Lemma evolution_moving n H psi t : evolution n H psi -> moving n psi t (fun o => (- Ci * H t (psi t) o)%C).
Proof. intros [_ E] o A. apply E, A. Qed.
Lemma inner_scal_l n (c : C) (f g : state) : inner n (fun o => (c * f o)%C) g = (Cconj c * inner n f g)%C.
Proof.
  rewrite <- (inner_conj CC n g (fun o => (c * f o)%C)). etransitivity; [apply (f_equal Cconj), (inner_scal CC n g c f)|].
  change (@smul CC) with Cmult. etransitivity; [apply C_conj_mul|]. f_equal. apply (inner_conj CC).
Qed.
Lemma overlap_kept n H psi phi : (forall t, symmetric_operator n (H t)) -> evolution n H psi -> evolution n H phi ->
  forall a b, inner n (psi a) (phi a) = inner n (psi b) (phi b).
Proof.
  intros Sy E1 E2 a b. apply (d_zero (fun t => inner n (psi t) (phi t))). intros t.
  pose proof (d_inner n psi phi t _ _ (evolution_moving n H psi t E1) (evolution_moving n H phi t E2)) as D. cbv beta in D.
  assert (Z : (inner n (fun o => (- Ci * H t (psi t) o)%C) (phi t) + inner n (psi t) (fun o => (- Ci * H t (phi t) o)%C))%C = RtoC 0); [|rewrite Z in D; exact D].
  rewrite inner_scal_l. rewrite (inner_scal CC n (psi t) (- Ci)%C (H t (phi t)) : inner n (psi t) (fun o => (- Ci * H t (phi t) o)%C) = (- Ci * inner n (psi t) (H t (phi t)))%C).
  rewrite (Sy t (psi t) (phi t) (proj1 E1 t) (proj1 E2 t)). set (z := inner n (H t (psi t)) (phi t)). destruct z as [z1 z2]. cx. unfold Cconj, Ci, Copp, Cmult, Cplus, RtoC. cbn. f_equal; ring.
Qed.
(** Linear combinations of evolutions are evolutions. *)
Lemma two_terms (a b : C) (f g : state) : forall o, (a * f o + b * g o)%C = S_ 2 (fun k => ((match k with O => a | _ => b end) * (match k with O => f | _ => g end) o)%C).
Proof. intros o. change ((a * f o + b * g o)%C = (RtoC 0 + a * f o + b * g o)%C). ring. Qed.
Lemma linear_combination X (a b : C) (f g : state) : linear CC X -> forall o, X (fun o => (a * f o + b * g o)%C) o = (a * X f o + b * X g o)%C.
Proof.
  intros L o. rewrite (lin_ext CC _ L _ _ (two_terms a b f g) o).
  etransitivity; [apply (lin_sum CC _ L 2 (fun k o => ((match k with O => a | _ => b end) * (match k with O => f | _ => g end) o)%C) o)|].
  change ((RtoC 0 + X (fun o => (a * f o)%C) o + X (fun o => (b * g o)%C) o)%C = (a * X f o + b * X g o)%C).
  rewrite (lin_scal CC _ L a f o : X (fun o => (a * f o)%C) o = (a * X f o)%C), (lin_scal CC _ L b g o : X (fun o => (b * g o)%C) o = (b * X g o)%C). ring.
Qed.
Lemma evolution_combination n H psi phi a b : (forall t, linear CC (H t)) -> evolution n H psi -> evolution n H phi ->
  evolution n H (fun t o => (a * psi t o + b * phi t o)%C).
Proof.
  intros L [P1 D1] [P2 D2]. split; [intros t o o' E; rewrite (P1 t o o' E), (P2 t o o' E); reflexivity|].
  intros t o A. rewrite linear_combination by apply L.
  replace (- Ci * (a * H t (psi t) o + b * H t (phi t) o))%C with (a * (- Ci * H t (psi t) o) + b * (- Ci * H t (phi t) o))%C by (cx; ring).
  refine (d_add (fun x => (a * psi x o)%C) (fun x => (b * phi x o)%C) t _ _ _ _); [apply (d_scal a (fun x => psi x o)), D1, A | apply (d_scal b (fun x => phi x o)), D2, A].
Qed.
Lemma evolution_zero n H psi t0 : (forall t, symmetric_operator n (H t)) -> evolution n H psi ->
  (forall o, among n o -> psi t0 o = RtoC 0) -> forall t o, among n o -> psi t o = RtoC 0.
Proof.
  intros Sy E Z t o A. apply (inner_null n (psi t) (proj1 E t)); [|exact A]. rewrite (overlap_kept n H psi psi Sy E E t t0).
  rewrite (inner_ext_among CC n (psi t0) (psi t0) (fun _ => RtoC 0) Z).
  assert (E0 : inner n (psi t0) (fun _ => RtoC 0) = RtoC 0); [|rewrite E0; cbn; lra].
  unfold inner. etransitivity; [|exact (total_zero CC n (fun _ => false))]. apply (total_ext CC). intros o' _. apply Cmult_0_r.
Qed.
Lemma minus_self (a : C) : (RtoC 1 * a + - RtoC 1 * a)%C = RtoC 0.
Proof. ring. Qed.
Lemma minus_zero (a b : C) : (RtoC 1 * a + - RtoC 1 * b)%C = RtoC 0 -> a = b.
Proof. intros E. replace a with ((RtoC 1 * a + - RtoC 1 * b) + b)%C by ring. rewrite E. ring. Qed.
Lemma evolution_unique n H psi phi t0 : (forall t, symmetric_operator n (H t)) -> (forall t, linear CC (H t)) -> evolution n H psi -> evolution n H phi ->
  same_state n (psi t0) (phi t0) -> forall t, same_state n (psi t) (phi t).
Proof.
  intros Sy L E1 E2 Z t o A. pose proof (evolution_combination n H psi phi (RtoC 1) (- RtoC 1)%C L E1 E2) as E.
  assert (W : (RtoC 1 * psi t o + - RtoC 1 * phi t o)%C = RtoC 0).
  { pose proof (evolution_zero n H _ t0 Sy E) as Wz. cbv beta in Wz. apply Wz; [|exact A]. intros o' A'. rewrite (Z o' A'). apply minus_self. }
  exact (minus_zero _ _ W).
Qed.
(** Number of particles *)
Definition keeps (n : nat) (X : state -> state) : Prop := forall (P : nat -> Prop) f, sector n P f -> sector n P (X f).
Definition part (n : nat) (S : nat -> bool) (f : state) : state := fun o => if S (particles n o) then f o else RtoC 0.
Lemma part_proper n S f : proper f -> proper (part n S f).
Proof. intros P o o' E. unfold part. rewrite (particles_ext n o o') by (intros; apply E). destruct (S _); [apply P, E | reflexivity]. Qed.
Lemma part_sector n S f : sector n (fun m => S m = true) (part n S f).
Proof. intros o A N. unfold part. destruct (S (particles n o)); [exfalso; apply N; reflexivity | reflexivity]. Qed.
Lemma keep_left (a : C) : a = (RtoC 1 * a + RtoC 1 * RtoC 0)%C.
Proof. ring. Qed.
Lemma keep_right (a : C) : a = (RtoC 1 * RtoC 0 + RtoC 1 * a)%C.
Proof. ring. Qed.
Lemma part_operator n S X f : linear CC X -> keeps n X -> forall o, among n o -> X (part n S f) o = part n S (X f) o.
Proof.
  intros L Kp o A. pose (T := fun m => negb (S m)).
  assert (E : X f o = (RtoC 1 * X (part n S f) o + RtoC 1 * X (part n T f) o)%C).
  { rewrite <- linear_combination by exact L. apply (lin_ext CC _ L). intros o'. unfold part, T. destruct (S (particles n o')); cbn [negb]; [apply keep_left | apply keep_right]. }
  unfold part at 2. destruct (S (particles n o)) eqn:B.
  - rewrite E. rewrite (Kp _ _ (part_sector n T f) o A); [apply keep_left|]. unfold T. rewrite B. discriminate.
  - apply (Kp _ _ (part_sector n S f) o A). rewrite B. discriminate.
Qed.
Lemma part_evolution n H S psi : (forall t, linear CC (H t)) -> (forall t, keeps n (H t)) -> evolution n H psi -> evolution n H (fun t => part n S (psi t)).
Proof.
  intros L Kp [P D]. split; [intros t; apply part_proper, P|]. intros t o A. rewrite (part_operator n S (H t) (psi t) (L t) (Kp t) o A).
  unfold part. destruct (S (particles n o)); [apply D, A|]. replace (- Ci * RtoC 0)%C with (RtoC 0) by ring. apply d_const.
Qed.
Lemma particles_kept n H psi N t0 : (forall t, symmetric_operator n (H t)) -> (forall t, linear CC (H t)) -> (forall t, keeps n (H t)) -> evolution n H psi ->
  particle_state n N (psi t0) -> forall t, particle_state n N (psi t).
Proof.
  intros Sy L Kp E [_ Z] t. split; [apply E|]. intros o A Ne. set (T := fun m => negb (m =? N)%nat).
  assert (W : part n T (psi t) o = RtoC 0).
  { apply (evolution_zero n H (fun t => part n T (psi t)) t0 Sy (part_evolution n H T psi L Kp E)); [|exact A].
    intros o' A'. unfold part, T. destruct (Nat.eqb_spec (particles n o') N) as [?|F]; cbn [negb]; [reflexivity | apply Z; assumption]. }
  unfold part, T in W. destruct (Nat.eqb_spec (particles n o) N) as [?|_]; [contradiction | exact W].
Qed.
Lemma sector_weight_kept n H psi S : (forall t, symmetric_operator n (H t)) -> (forall t, linear CC (H t)) -> (forall t, keeps n (H t)) -> evolution n H psi ->
  forall a b, inner n (part n S (psi a)) (part n S (psi a)) = inner n (part n S (psi b)) (part n S (psi b)).
Proof. intros Sy L Kp E. apply (overlap_kept n H _ _ Sy); apply part_evolution; assumption. Qed.
Lemma many_keeps k l h u : keeps (spin_orbitals k l) (many_body k l h u).
Proof.
  assert (G : forall n c h u, keeps n (hamiltonian (K := CC) n c h u)).
  { intros n c h0 u0 P f H o A N. unfold hamiltonian. rewrite (sector_one n P h0 f H o A N), (sector_two n P u0 f H o A N). cx. cbn. ring. }
  destruct k; apply G.
Qed.
Lemma many_linear k l h u : linear CC (many_body k l h u).
Proof. destruct k; apply hamiltonian_linear. Qed.
(** The energy changes with the elements only. *)
Lemma energy_rate k l (h : R -> nat -> nat -> C) (u : R -> nat -> nat -> nat -> nat -> C) psi t h' u' :
  (forall t, hermitian (K := CC) l (h t)) -> (forall t, hermitian2 (K := CC) l (u t)) ->
  (forall p q, (p < l)%nat -> (q < l)%nat -> derivative (fun x => h x p q) t (h' p q)) ->
  (forall p q r s, (p < l)%nat -> (q < l)%nat -> (r < l)%nat -> (s < l)%nat -> derivative (fun x => u x p q r s) t (u' p q r s)) ->
  let n := spin_orbitals k l in let H x := many_body k l (h x) (u x) in
  evolution n H psi -> derivative (fun x => inner n (psi x) (H x (psi x))) t (inner n (psi t) (many_body k l h' u' (psi t))).
Proof.
  intros Hh Hu Dh Du n H E. pose proof (many_body_symmetric k l (h t) (u t) (Hh t) (Hu t)) as Sy. fold n in Sy. change (many_body k l (h t) (u t)) with (H t) in Sy.
  pose proof (evolution_moving n H psi t E) as Mv. pose proof (moving_many k l h h' u u' psi t _ Dh Du Mv) as Mh.
  pose proof (d_inner n psi _ t _ _ Mv Mh) as D. cbv beta in D. fold n in D. change (many_body k l (h t) (u t)) with (H t) in D.
  assert (Pp : proper (psi t)) by apply E. assert (PH : proper (H t (psi t))) by (apply many_body_proper, Pp).
  assert (PG : proper (K := CC) (fun o => (- Ci * H t (psi t) o)%C)) by (intros o o' Eo; rewrite (PH o o' Eo); reflexivity).
  match type of D with derivative _ _ ?z => replace (inner n (psi t) (many_body k l h' u' (psi t))) with z; [exact D|] end.
  rewrite (inner_add CC n (psi t) (many_body k l h' u' (psi t)) (H t (fun o => (- Ci * H t (psi t) o)%C)) :
    inner n (psi t) (fun o => (many_body k l h' u' (psi t) o + H t (fun o => (- Ci * H t (psi t) o)%C) o)%C) = (inner n (psi t) (many_body k l h' u' (psi t)) + inner n (psi t) (H t (fun o => (- Ci * H t (psi t) o)%C)))%C).
  rewrite (Sy (psi t) _ Pp PG), inner_scal_l.
  rewrite (inner_scal CC n (H t (psi t)) (- Ci)%C (H t (psi t)) : inner n (H t (psi t)) (fun o => (- Ci * H t (psi t) o)%C) = (- Ci * inner n (H t (psi t)) (H t (psi t)))%C).
  set (z := inner n (H t (psi t)) (H t (psi t))). set (y := inner n (psi t) (many_body k l h' u' (psi t))). destruct z as [z1 z2], y as [y1 y2]. cx. unfold Cconj, Ci, Copp, Cmult, Cplus, RtoC. cbn. f_equal; ring.
Qed.
