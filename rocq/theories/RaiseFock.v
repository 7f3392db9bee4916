(** Lower bounds on the energies of many-particle states. *)
From Coq Require Import List Arith ZArith Reals Lra Lia Bool.
From Coquelicot Require Import Coquelicot.
From Verif Require Import Scalar ScalarC Spec OneDim OneDimProofs DotProofs GridSpec GridProofs DvrSpec PositiveForms KineticSpec RaiseSpec RaiseProofs.
From Verif Require Import FockSpec FockProofs InnerSpec InnerProofs EnergyProofs.
Open Scope R_scope.
Local Notation S_ := (sumn (K := CC)).
Local Notation T_ := (total (K := CC)).

Lemma total_nonneg_at l : forall (F : occupation -> C) o, (forall o', (forall p, (l <= p)%nat -> o' p = o p) -> nonneg (F o')) -> nonneg (T_ l F o).
Proof.
  induction l as [|l IH]; intros F o H; cbn [total]; [apply H; reflexivity|].
  apply nonneg_add; apply IH; intros o' Ho; apply H; intros p Hp; rewrite Ho by lia; apply put_other; lia.
Qed.

(** ** Two-body operators *)
Lemma two_body_pairs l u (f : state CC) : proper f ->
  inner l f (two_body (K := CC) l u f) = T_ l (fun o => pair_energy l u (fun p q => annihilate q (annihilate p f) o)) (fun _ => false).
Proof.
  intros Pf. rewrite (inner_two CC l u f f Pf Pf). symmetry. unfold pair_energy.
  etransitivity; [apply (total_sum CC l l)|]. apply csum_ext; intros p _. etransitivity; [apply (total_sum CC l l)|]. apply csum_ext; intros q _.
  etransitivity; [apply (total_sum CC l l)|]. apply csum_ext; intros r _. etransitivity; [apply (total_sum CC l l)|]. apply csum_ext; intros s _.
  unfold inner. etransitivity; [|apply (total_scal CC l (u p q r s))]. apply (total_ext CC). intros o _. change (@smul CC) with Cmult. change (@sconj CC) with Cconj. cx. ring.
Qed.
Lemma two_raises l u (f : state CC) : raising l u -> proper f -> nonneg (inner l f (two_body (K := CC) l u f)).
Proof. intros H Pf. rewrite two_body_pairs by exact Pf. apply total_nonneg_at. intros o _. apply H. Qed.

(** ** One-body operators *)
Lemma one_body_levels l h (f : state CC) : proper f ->
  inner l f (one_body (K := CC) l h f) = T_ l (fun o => expectation l h (fun p => annihilate p f o)) (fun _ => false).
Proof.
  intros Pf. rewrite (inner_one CC l h f f Pf Pf). symmetry. unfold expectation.
  etransitivity; [apply (total_sum CC l l)|]. apply csum_ext; intros p _. etransitivity; [apply (total_sum CC l l)|]. apply csum_ext; intros q _.
  unfold inner. etransitivity; [|apply (total_scal CC l (h p q))]. apply (total_ext CC). intros o _. change (@smul CC) with Cmult. change (@sconj CC) with Cconj. cx. ring.
Qed.
Section Number.
  Variable K : scalar.
  Add Ring KringRF : (s_ring K).
  Local Open Scope K_scope.
  Lemma number_at p (f : state K) o : proper f -> create p (annihilate p f) o = if o p then f o else 0.
  Proof.
    intros Pf. unfold create. destruct (o p) eqn:E; [|reflexivity]. unfold annihilate. rewrite put_same, parity_above by lia.
    rewrite (Pf (put p true (put p false o)) o).
    - transitivity ((parity p o * parity p o) * f o); [ring|]. rewrite parity_square. ring.
    - intros q. unfold put. destruct (Nat.eqb_spec q p) as [->|]; [symmetry; exact E | reflexivity].
  Qed.
  Lemma inner_number l p (f : state K) : (p < l)%nat -> proper f ->
    inner l (annihilate p f) (annihilate p f) = total l (fun o => if o p then sconj (f o) * f o else 0) (fun _ => false).
  Proof.
    intros H Pf. rewrite (adjoint' K l p f _ H Pf (annihilate_proper K p f Pf)). unfold inner. apply total_ext. intros o _.
    rewrite number_at by exact Pf. destruct (o p); [reflexivity | ring].
  Qed.
End Number.
(** Energies of the occupied orbitals *)
Definition occupied (l : nat) (e : nat -> R) (o : occupation) : R := rsum l (fun p => if o p then e p else 0).
Lemma particles_le l o : (particles l o <= l)%nat.
Proof. induction l as [|l IH]; cbn [particles]; [lia|]. destruct (o l); lia. Qed.
Lemma occupied_above l (e : nat -> R) o : (forall p q, (p <= q)%nat -> (q < l)%nat -> e p <= e q) -> rsum (particles l o) e <= occupied l e o.
Proof.
  unfold occupied. induction l as [|l IH]; intros H; cbn [particles rsum]; [lra|].
  assert (IH' : rsum (particles l o) e <= rsum l (fun p => if o p then e p else 0)) by (apply IH; intros; apply H; lia).
  destruct (o l); [|rewrite Nat.add_0_r; lra]. rewrite Nat.add_1_r. cbn [rsum]. pose proof (H (particles l o) l (particles_le l o) ltac:(lia)). lra.
Qed.
Lemma occupied_const l o m : occupied l (fun _ => m) o = INR (particles l o) * m.
Proof.
  unfold occupied. induction l as [|l IH]; cbn [particles rsum]; [cbn; ring|]. rewrite IH, plus_INR. destruct (o l); cbn [INR]; ring.
Qed.
Lemma sum_numbers l (e : nat -> R) (f : state CC) : proper f ->
  S_ l (fun p => (RtoC (e p) * inner l (annihilate p f) (annihilate p f))%C) = T_ l (fun o => (RtoC (occupied l e o) * (Cconj (f o) * f o))%C) (fun _ => false).
Proof.
  intros Pf. transitivity (S_ l (fun p => T_ l (fun o => (RtoC (if o p then e p else 0) * (Cconj (f o) * f o))%C) (fun _ => false))).
  - apply csum_ext; intros p Hp. rewrite (inner_number CC l p f Hp Pf). etransitivity; [symmetry; apply (total_scal CC l (RtoC (e p)))|]. apply (total_ext CC). intros o _.
    destruct (o p); [reflexivity|]. change (@s0 CC) with (RtoC 0). change (@smul CC) with Cmult. cx. ring.
  - etransitivity; [symmetry; apply (total_sum CC l l (fun p o => (RtoC (if o p then e p else 0) * (Cconj (f o) * f o))%C))|]. apply (total_ext CC). intros o _.
    unfold occupied. rewrite <- csum_rsum. exact (eq_sym (sumn_mul_r CC l (Cconj (f o) * f o)%C (fun p => RtoC (if o p then e p else 0)))).
Qed.
Lemma occupied_state l N (e : nat -> R) E0 (f : state CC) : particle_state l N f ->
  (forall o, particles l o = N -> E0 <= occupied l e o) ->
  nonneg (T_ l (fun o => (RtoC (occupied l e o) * (Cconj (f o) * f o))%C) (fun _ => false) - RtoC E0 * inner l f f)%C.
Proof.
  intros [Pf Hf] H. match goal with |- nonneg (?a - RtoC E0 * ?b)%C => replace (a - RtoC E0 * b)%C with (T_ l (fun o => (RtoC (occupied l e o - E0) * (Cconj (f o) * f o))%C) (fun _ => false)) end.
  - apply total_nonneg_at. intros o A. destruct (Nat.eq_dec (particles l o) N) as [E|E].
    + apply nonneg_scal; [pose proof (H o E); lra | apply nonneg_square].
    + rewrite (Hf o A E). change (@s0 CC) with (RtoC 0). split; cbn; [ring | right; ring].
  - set (a := T_ l (fun o => (RtoC (occupied l e o) * (Cconj (f o) * f o))%C) (fun _ => false)).
    transitivity (a + RtoC (- E0) * inner l f f)%C; [|rewrite RtoC_opp; cx; ring].
    unfold inner. pose proof (total_scal CC l (RtoC (- E0)) (fun o => (Cconj (f o) * f o)%C) (fun _ => false)) as Z. change (@smul CC) with Cmult in *. change (@sconj CC) with Cconj. rewrite <- Z. unfold a.
    pose proof (total_add CC l (fun o => (RtoC (occupied l e o) * (Cconj (f o) * f o))%C) (fun o => (RtoC (- E0) * (Cconj (f o) * f o))%C) (fun _ => false)) as Y. change (@sadd CC) with Cplus in Y. rewrite <- Y.
    apply (total_ext CC). intros o _. unfold Rminus. rewrite RtoC_plus. change (@sadd CC) with Cplus. cx. ring.
Qed.
Lemma nonneg_sub (a b : C) (t : R) : nonneg (a - RtoC t * b)%C -> Im b = 0 -> Im a = 0 /\ t * Re b <= Re a.
Proof. destruct a as [x y], b as [z w]. unfold nonneg. cbn. intros [A B] ->. split; lra. Qed.
Lemma levels_above l h e N : diagonal_levels l h e -> energies_above l (one_body (K := CC) l h) N (rsum N e).
Proof.
  intros [D A] f Hf. pose proof (proj1 Hf) as Pf. apply nonneg_sub; [|apply inner_nonneg].
  replace (inner l f (one_body (K := CC) l h f)) with (T_ l (fun o => (RtoC (occupied l e o) * (Cconj (f o) * f o))%C) (fun _ => false)).
  - apply (occupied_state l N e _ f Hf). intros o <-. apply occupied_above. exact A.
  - rewrite <- sum_numbers by exact Pf. rewrite (inner_one CC l h f f Pf Pf). apply csum_ext; intros p Hp. symmetry. rewrite (sumn_pick CC l p); [|exact Hp|].
    + rewrite (D p p Hp Hp), Nat.eqb_refl. reflexivity.
    + intros k Hk Nk. rewrite (D p k Hp Hk). rewrite (proj2 (Nat.eqb_neq p k)) by congruence. change (@smul CC) with Cmult. change (@s0 CC) with (RtoC 0). cx. ring.
Qed.
Lemma sq_real (z : C) : (Cconj z * z)%C = RtoC (Cmod z ^ 2).
Proof.
  destruct z as [x y]. unfold Cmod. cbn [fst snd]. rewrite <- Rsqr_pow2, Rsqr_sqrt by (pose proof (pow2_ge_0 x); pose proof (pow2_ge_0 y); lra).
  unfold Cmult, Cconj, RtoC. cbn. f_equal; ring.
Qed.
Lemma least_above l h m N : at_least l h m -> energies_above l (one_body (K := CC) l h) N (INR N * m).
Proof.
  intros H f Hf. pose proof (proj1 Hf) as Pf. apply nonneg_sub; [|apply inner_nonneg]. rewrite one_body_levels by exact Pf.
  set (A := T_ l (fun o => expectation l h (fun p => annihilate p f o)) (fun _ => false)).
  set (B := T_ l (fun o => RtoC (m * sqnorm l (fun p => annihilate p f o))) (fun _ => false)).
  assert (EB : B = T_ l (fun o => (RtoC (occupied l (fun _ => m) o) * (Cconj (f o) * f o))%C) (fun _ => false)).
  { rewrite <- sum_numbers by exact Pf. unfold B. transitivity (T_ l (fun o => S_ l (fun p => (RtoC m * (Cconj (annihilate p f o) * annihilate p f o))%C)) (fun _ => false)).
    - apply (total_ext CC). intros o _. unfold sqnorm. rewrite <- rsum_scal, <- csum_rsum. apply csum_ext; intros p _. rewrite sq_real, RtoC_mult. reflexivity.
    - etransitivity; [apply (total_sum CC l l)|]. apply csum_ext; intros p _. exact (total_scal CC l (RtoC m) (fun o => (Cconj (annihilate p f o) * annihilate p f o)%C) (fun _ => false)). }
  assert (P1 : nonneg (B - RtoC (INR N * m) * inner l f f)%C).
  { rewrite EB. apply (occupied_state l N (fun _ => m) _ f Hf). intros o <-. rewrite occupied_const. apply Rle_refl. }
  assert (P2 : nonneg (A - B)%C).
  { replace (A - B)%C with (T_ l (fun o => (expectation l h (fun p => annihilate p f o) + RtoC (-1) * RtoC (m * sqnorm l (fun p => annihilate p f o)))%C) (fun _ => false)).
    - apply total_nonneg_at. intros o _. destruct (H (fun p => annihilate p f o)) as [I L]. split.
      + destruct (expectation _ _ _) as [x y]. cbn in *. rewrite I. ring.
      + destruct (expectation _ _ _) as [x y]. cbn in *. lra.
    - pose proof (total_add CC l (fun o => expectation l h (fun p => annihilate p f o)) (fun o => (RtoC (-1) * RtoC (m * sqnorm l (fun p => annihilate p f o)))%C) (fun _ => false)) as Y. change (@sadd CC) with Cplus in Y. rewrite Y.
      pose proof (total_scal CC l (RtoC (-1)) (fun o => RtoC (m * sqnorm l (fun p => annihilate p f o))) (fun _ => false)) as Z. change (@smul CC) with Cmult in Z. rewrite Z. fold A B.
      replace (RtoC (-1)) with (- RtoC 1)%C by (rewrite <- RtoC_opp; reflexivity). cx. ring. }
  replace (A - RtoC (INR N * m) * inner l f f)%C with ((A - B) + (B - RtoC (INR N * m) * inner l f f))%C by ring. apply nonneg_add; assumption.
Qed.
(** Adding a repulsion *)
Lemma ham_above l x h u N E0 : 0 <= x -> raising l u -> energies_above l (one_body (K := CC) l h) N E0 -> energies_above l (hamiltonian (K := CC) l (RtoC x) h u) N E0.
Proof.
  intros Hx Hu H f Hf. destruct (H f Hf) as [I L]. unfold hamiltonian. rewrite (inner_add CC), (inner_scal CC).
  pose proof (nonneg_scal x _ Hx (two_raises l u f Hu (proj1 Hf))) as [I' L']. change (@sadd CC) with Cplus. change (@smul CC) with Cmult.
  set (a := inner l f (one_body (K := CC) l h f)) in *. set (b := (RtoC x * inner l f (two_body (K := CC) l u f))%C) in *. change (Im (a + b)%C) with (Im a + Im b). change (Re (a + b)%C) with (Re a + Re b). lra.
Qed.
(** Spin *)
Lemma doubled_levels l h e : diagonal_levels l h e -> diagonal_levels (2 * l) (dbl1 (K := CC) h) (fun P => e (P / 2)%nat).
Proof.
  intros [D A]. split.
  - intros P Q HP HQ. unfold dbl1, same_parity. assert (P / 2 < l)%nat by (apply Nat.div_lt_upper_bound; lia). assert (Q / 2 < l)%nat by (apply Nat.div_lt_upper_bound; lia).
    change (@s0 CC) with (RtoC 0). rewrite D by assumption. pose proof (Nat.div2_odd P) as EP. pose proof (Nat.div2_odd Q) as EQ. rewrite <- Nat.negb_even in EP, EQ. rewrite Nat.div2_div in EP, EQ.
    destruct (Nat.eqb_spec P Q) as [->|N].
    + rewrite Bool.eqb_reflx, Nat.eqb_refl. reflexivity.
    + destruct (Bool.eqb (Nat.even P) (Nat.even Q)) eqn:E; [|reflexivity]. apply Bool.eqb_prop in E. rewrite E in EP. destruct (Nat.eqb_spec (P / 2) (Q / 2)) as [F|F]; [|reflexivity].
      exfalso. apply N. rewrite F in EP. etransitivity; [exact EP | symmetry; exact EQ].
  - intros P Q H HQ. apply A; [apply Nat.div_le_mono; lia | apply Nat.div_lt_upper_bound; lia].
Qed.
Lemma doubled_sum N (e : nat -> R) : rsum (2 * N) (fun P => e (P / 2)%nat) = 2 * rsum N e.
Proof.
  induction N as [|N IH]; [cbn; ring|]. replace (2 * S N)%nat with (S (S (2 * N))) by lia. cbn [rsum]. rewrite IH.
  replace (S (2 * N) / 2)%nat with N by (replace (S (2 * N)) with (2 * N + 1)%nat by lia; symmetry; apply div_2k1). rewrite div_2k. ring.
Qed.
Lemma rsum_double n (f : nat -> R) : rsum (2 * n) f = rsum n (fun p => f (2 * p)%nat + f (2 * p + 1)%nat).
Proof.
  induction n as [|n IH]; [reflexivity|]. replace (2 * S n)%nat with (S (S (2 * n))) by lia. cbn [rsum]. rewrite IH. replace (2 * n + 1)%nat with (S (2 * n)) by lia. ring.
Qed.
Lemma doubled_least l h m : at_least l h m -> at_least (2 * l) (dbl1 (K := CC) h) m.
Proof.
  intros H x.
  assert (E : expectation (2 * l) (dbl1 (K := CC) h) x = (expectation l h (fun p => x (2 * p)%nat) + expectation l h (fun p => x (2 * p + 1)%nat))%C).
  { transitivity (S_ l (fun p => S_ l (fun q => (Cconj (x (2 * p)%nat) * h p q * x (2 * q)%nat + Cconj (x (2 * p + 1)%nat) * h p q * x (2 * q + 1)%nat)%C))).
    - unfold expectation. rewrite (sumn_double CC). apply csum_ext; intros p _. rewrite !(sumn_double CC), <- (sumn_add CC). apply csum_ext; intros q _.
      unfold dbl1, same_parity. rewrite ?(even_2k), ?(even_2k1), ?(div_2k), ?(div_2k1). cbn [Bool.eqb]. change (@s0 CC) with (RtoC 0). change (@sadd CC) with Cplus. cx. ring.
    - unfold expectation. rewrite <- csum_add. apply csum_ext; intros p _. rewrite <- csum_add. reflexivity. }
  assert (Q : sqnorm (2 * l) x = sqnorm l (fun p => x (2 * p)%nat) + sqnorm l (fun p => x (2 * p + 1)%nat)) by (unfold sqnorm; rewrite rsum_double, rsum_add; reflexivity).
  rewrite E, Q. destruct (H (fun p => x (2 * p)%nat)) as [I1 L1]. destruct (H (fun p => x (2 * p + 1)%nat)) as [I2 L2].
  set (a := expectation l h (fun p => x (2 * p)%nat)) in *. set (b := expectation l h (fun p => x (2 * p + 1)%nat)) in *. change (Im (a + b)%C) with (Im a + Im b). change (Re (a + b)%C) with (Re a + Re b). lra.
Qed.

(** ** Determinants *)
Section Determinant.
  Variable K : scalar.
  Add Ring KringRD : (s_ring K).
  Local Open Scope K_scope.
  Lemma total_single l : forall (F : state K) o c, proper F -> (forall p, (l <= p)%nat -> c p = o p) ->
    (forall o', (exists p, (p < l)%nat /\ o' p <> c p) -> F o' = 0) -> total l F o = F c.
  Proof.
    induction l as [|l IH]; intros F o c PF A H; cbn [total]; [apply PF; intros p; symmetry; apply A; lia|].
    assert (Z : forall b, b <> c l -> total l F (put l b o) = 0).
    { intros b N. rewrite (total_ext K l F (fun _ => 0)); [apply total_zero|]. intros o' Ho. apply H. exists l. split; [lia|]. rewrite (Ho l), put_same by lia. exact N. }
    assert (I : total l F (put l (c l) o) = F c).
    { apply IH; [exact PF | | intros o' (p & Hp & N); apply H; exists p; split; [lia | exact N]].
      intros p Hp. unfold put. destruct (Nat.eqb_spec p l) as [->|N]; [reflexivity | apply A; lia]. }
    destruct (c l); [rewrite (Z false) by discriminate | rewrite (Z true) by discriminate]; rewrite I; ring.
  Qed.
  Lemma inner_det l c (g : state K) : among l c -> proper g -> inner l (determinant l c) g = g c.
  Proof.
    intros A Pg. unfold inner. rewrite (total_single l _ _ c).
    - rewrite det_self, conj_1. ring.
    - apply prod_proper; [apply det_proper | exact Pg].
    - exact A.
    - intros o (p & Hp & N). rewrite (det_other K l c o p Hp N), conj_0. ring.
  Qed.
  Lemma particles_ext l o o' : (forall p, (p < l)%nat -> o p = o' p) -> particles l o = particles l o'.
  Proof. induction l as [|l IH]; intros H; cbn [particles]; [reflexivity|]. rewrite IH, (H l) by (intros; try apply H; lia). reflexivity. Qed.
  Lemma det_particles l c : particle_state l (particles l c) (determinant (K := K) l c).
  Proof.
    split; [apply det_proper|]. intros o _ N. unfold determinant. destruct (forallb _ _) eqn:E; [|reflexivity]. exfalso. apply N, particles_ext.
    intros p Hp. rewrite forallb_forall in E. apply Bool.eqb_prop, (E p). apply in_seq. lia.
  Qed.
  Lemma lowest_particles l N : (N <= l)%nat -> particles l (lowest N) = N.
  Proof.
    revert N. induction l as [|l IH]; intros N H; cbn [particles]; [lia|]. unfold lowest at 2. destruct (Nat.ltb_spec l N) as [L|L].
    - assert (N = S l) as -> by lia. assert (Q : particles l (lowest (S l)) = particles l (lowest l)).
      { apply particles_ext. intros p Hp. unfold lowest. destruct (Nat.ltb_spec p (S l)), (Nat.ltb_spec p l); lia || reflexivity. }
      rewrite Q, IH; lia.
    - rewrite IH by lia. lia.
  Qed.
  Lemma lowest_among l N : (N <= l)%nat -> among l (lowest N).
  Proof. intros H p Hp. unfold lowest. destruct (Nat.ltb_spec p N); [lia | reflexivity]. Qed.
  Lemma reference_state l N (X : state K -> state K) : (N <= l)%nat -> (forall f, proper f -> proper (X f)) ->
    let D := determinant l (lowest N) in particle_state l N D /\ inner l D D = 1 /\ inner l D (X D) = expect l X (lowest N).
  Proof.
    intros H PX D. split; [|split].
    - unfold D. pose proof (det_particles l (lowest N)) as P. rewrite lowest_particles in P by exact H. exact P.
    - unfold D. rewrite inner_det; [apply det_self | apply lowest_among, H | apply det_proper].
    - unfold D. rewrite inner_det; [reflexivity | apply lowest_among, H | apply PX, det_proper].
  Qed.
End Determinant.
Lemma above_eigen l X N E0 (E : C) (f : state CC) : energies_above l X N E0 -> particle_state l N f -> eigenstate (K := CC) l X E f -> Im E = 0 /\ E0 <= Re E.
Proof.
  intros H Hf He. destruct (H f Hf) as [I L]. pose proof (eigen_norm l X E f He) as P. rewrite (eigen_value l X E f He) in I, L. set (n := Re (inner l f f)) in *. destruct E as [x y]. cbn in I, L |- *.
  split.
  - assert (Z : y * n = 0) by lra. apply Rmult_integral in Z. destruct Z; lra.
  - apply Rmult_le_reg_r with n; lra.
Qed.
