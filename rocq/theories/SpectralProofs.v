(** Every Hermitian matrix has an orthonormal basis of eigenvectors, a real one when it is real. *)
From Coq Require Import List Arith ZArith Reals Lra Lia Bool Classical.
From Coquelicot Require Import Coquelicot.
From Verif Require Import Scalar ScalarC Spec OneDimSpec OneDimProofs DotProofs GridSpec GridProofs PositiveForms KineticSpec SpectralSpec Compactness.
Open Scope R_scope.

Local Notation S_ := (sumn (K := CC)).
Ltac cring := cx; unfold Cminus, Cconj, Cmult, Cplus, Copp, RtoC; apply injective_projections; cbn [fst snd]; ring.
Lemma im_scal (t : R) (z : C) : Im (RtoC t * z)%C = t * Im z.
Proof. unfold Im, Cmult, RtoC. cbn [fst snd]. ring. Qed.
Lemma im_add (y z : C) : Im (y + z)%C = Im y + Im z.
Proof. reflexivity. Qed.
(** ** Continuous complex functions of a real vector *)
Definition csteady (n : nat) (F : (nat -> R) -> C) : Prop := steady n (fun x => Re (F x)) /\ steady n (fun x => Im (F x)).
Lemma csteady_const n c : csteady n (fun _ => c).
Proof. split; apply steady_const. Qed.
Lemma csteady_add n F G : csteady n F -> csteady n G -> csteady n (fun x => (F x + G x)%C).
Proof. intros [A B] [A' B']. split; [exact (steady_add n _ _ A A') | exact (steady_add n _ _ B B')]. Qed.
Lemma csteady_mul n F G : csteady n F -> csteady n G -> csteady n (fun x => (F x * G x)%C).
Proof.
  intros [A B] [A' B']. split.
  - apply (steady_ext n (fun x => Re (F x) * Re (G x) + - (Im (F x) * Im (G x)))); [intros; unfold Re, Im, Cmult; cbn [fst snd]; ring|]. apply (steady_add n (fun x => Re (F x) * Re (G x))); [|apply (steady_opp n (fun x => Im (F x) * Im (G x)))]; apply steady_mul; assumption.
  - apply (steady_ext n (fun x => Re (F x) * Im (G x) + Im (F x) * Re (G x))); [intros; unfold Re, Im, Cmult; cbn [fst snd]; ring|]. apply (steady_add n (fun x => Re (F x) * Im (G x))); apply steady_mul; assumption.
Qed.
Lemma csteady_conj n F : csteady n F -> csteady n (fun x => Cconj (F x)).
Proof. intros [A B]. split; [exact A | exact (steady_opp n _ B)]. Qed.
Lemma csteady_sum n m (F : nat -> (nat -> R) -> C) : (forall k, (k < m)%nat -> csteady n (F k)) -> csteady n (fun x => S_ m (fun k => F k x)).
Proof.
  induction m as [|m IH]; intros H; [exact (csteady_const n (RtoC 0))|]. cbn [sumn]. apply (csteady_add n (fun x => S_ m (fun k => F k x))); [apply IH; intros; apply H; lia | apply H; lia].
Qed.
Lemma csteady_closed n F x c : csteady n F -> (forall e, 0 < e -> exists y, F y = c /\ near n e x y) -> F x = c.
Proof.
  intros [A B] H. destruct (F x) as [a b] eqn:E. destruct c as [c d].
  assert (Re (F x) = c). { apply (closed_zero n (fun x => Re (F x)) x c A). intros e He. destruct (H e He) as (y & Ey & Nr). exists y. rewrite Ey. split; [reflexivity | exact Nr]. }
  assert (Im (F x) = d). { apply (closed_zero n (fun x => Im (F x)) x d B). intros e He. destruct (H e He) as (y & Ey & Nr). exists y. rewrite Ey. split; [reflexivity | exact Nr]. }
  rewrite E in *. cbn in *. congruence.
Qed.
(** Complex vectors as real vectors of twice the size *)
Definition zof (r : nat -> R) (i : nat) : C := (r (2 * i)%nat, r (2 * i + 1)%nat).
Definition rof (z : nat -> C) (m : nat) : R := if Nat.even m then Re (z (Nat.div2 m)) else Im (z (Nat.div2 m)).
Lemma zof_rof z i : zof (rof z) i = z i.
Proof.
  unfold zof, rof. replace (Nat.even (2 * i)) with true by (symmetry; apply Nat.even_spec; exists i; reflexivity).
  replace (Nat.even (2 * i + 1)) with false. 2:{ symmetry. rewrite <- Nat.negb_odd. replace (Nat.odd (2 * i + 1)) with true; [reflexivity|]. symmetry. apply Nat.odd_spec. exists i. reflexivity. }
  rewrite Nat.div2_double. replace (2 * i + 1)%nat with (S (2 * i)) by lia. rewrite Nat.div2_succ_double. destruct (z i); reflexivity.
Qed.
Lemma csteady_zof n i : (i < n)%nat -> csteady (2 * n) (fun r => zof r i).
Proof. intros Hi. split; cbn; apply steady_coord; lia. Qed.

(** ** Vectors *)
Section Dot.
  Variable d : nat.
  Definition dot (x y : nat -> C) : C := S_ d (fun i => (Cconj (x i) * y i)%C).
  Definition ap (A : nat -> nat -> C) (x : nat -> C) (i : nat) : C := S_ d (fun j => (A i j * x j)%C).
  Lemma dot_ext x x' y y' : (forall i, (i < d)%nat -> x i = x' i) -> (forall i, (i < d)%nat -> y i = y' i) -> dot x y = dot x' y'.
  Proof. intros E E'. apply csum_ext. intros i Hi. rewrite E, E' by exact Hi. reflexivity. Qed.
  Lemma dot_add x y z : dot x (fun i => (y i + z i)%C) = (dot x y + dot x z)%C.
  Proof. unfold dot. rewrite <- csum_add. apply csum_ext. intros i _. ring. Qed.
  Lemma dot_scal x c y : dot x (fun i => (c * y i)%C) = (c * dot x y)%C.
  Proof. unfold dot. rewrite csum_scal. apply csum_ext. intros i _. ring. Qed.
  Lemma dot_conj x y : Cconj (dot x y) = dot y x.
  Proof. unfold dot. rewrite csum_conj. apply csum_ext. intros i _. rewrite C_conj_mul, C_conj_invol. ring. Qed.
  Lemma dot_add_l x y z : dot (fun i => (y i + z i)%C) x = (dot y x + dot z x)%C.
  Proof. unfold dot. rewrite <- csum_add. apply csum_ext. intros i _. rewrite C_conj_add. ring. Qed.
  Lemma dot_scal_l x (c : C) y : dot (fun i => (c * y i)%C) x = (Cconj c * dot y x)%C.
  Proof. unfold dot. rewrite csum_scal. apply csum_ext. intros i _. rewrite C_conj_mul. ring. Qed.
  Lemma dot_sum x n (y : nat -> nat -> C) : dot x (fun i => S_ n (fun j => y j i)) = S_ n (fun j => dot x (y j)).
  Proof. unfold dot. transitivity (S_ d (fun i => S_ n (fun j => (Cconj (x i) * y j i)%C))); [apply csum_ext; intros i _; apply csum_scal|]. exact (sumn_swap CC d n (fun i j => (Cconj (x i) * y j i)%C)). Qed.
  Lemma dot_self x : dot x x = RtoC (rsum d (fun i => (Re (x i)) ^ 2 + (Im (x i)) ^ 2)).
  Proof. unfold dot. rewrite <- csum_rsum. apply csum_ext. intros i _. unfold Cconj, Cmult, RtoC, Re, Im. cbn. f_equal; ring. Qed.
  Definition size (x : nat -> C) : R := rsum d (fun i => (Re (x i)) ^ 2 + (Im (x i)) ^ 2).
  Lemma size_nonneg x : 0 <= size x.
  Proof. apply rsum_nonneg. intros. apply Rplus_le_le_0_compat; apply pow2_ge_0. Qed.
  Lemma size_part x i : (i < d)%nat -> (Re (x i)) ^ 2 + (Im (x i)) ^ 2 <= size x.
  Proof.
    intros Hi. set (g := fun k => if (k =? i)%nat then (Re (x i)) ^ 2 + (Im (x i)) ^ 2 else 0). replace ((Re (x i)) ^ 2 + (Im (x i)) ^ 2) with (rsum d g).
    - apply rsum_le. intros k _. unfold g. destruct (Nat.eqb_spec k i) as [->|_]; [lra|]. apply Rplus_le_le_0_compat; apply pow2_ge_0.
    - rewrite (rsum_pick d i); [unfold g; rewrite Nat.eqb_refl; reflexivity | exact Hi|]. intros k _ N. unfold g. apply Nat.eqb_neq in N. rewrite N. reflexivity.
  Qed.
  Lemma size_zero x : size x = 0 -> forall i, (i < d)%nat -> x i = RtoC 0.
  Proof.
    intros H i Hi. pose proof (size_part x i Hi) as L. rewrite H in L. destruct (x i) as [a b]. cbn in L.
    assert (0 <= a * a) by (pose proof (pow2_ge_0 a); lra). assert (0 <= b * b) by (pose proof (pow2_ge_0 b); lra).
    assert (a * a = 0) by lra. assert (b * b = 0) by lra. apply Rsqr_0_uniq in H2. apply Rsqr_0_uniq in H3. subst. reflexivity.
  Qed.
  Lemma ap_add A x y i : ap A (fun i => (x i + y i)%C) i = (ap A x i + ap A y i)%C.
  Proof. unfold ap. rewrite <- csum_add. apply csum_ext. intros j _. ring. Qed.
  Lemma ap_scal A c x i : ap A (fun i => (c * x i)%C) i = (c * ap A x i)%C.
  Proof. unfold ap. rewrite csum_scal. apply csum_ext. intros j _. ring. Qed.
  Lemma ap_ext A x y i : (forall j, (j < d)%nat -> x j = y j) -> ap A x i = ap A y i.
  Proof. intros E. apply csum_ext. intros j Hj. rewrite E by exact Hj. reflexivity. Qed.
  Lemma ap_adjoint A x y : hermitian (K := CC) d A -> dot x (ap A y) = dot (ap A x) y.
  Proof.
    intros H. unfold dot, ap. transitivity (S_ d (fun i => S_ d (fun j => (Cconj (x i) * A i j * y j)%C))).
    - apply csum_ext. intros i _. rewrite csum_scal. apply csum_ext. intros j _. ring.
    - rewrite (sumn_swap CC). apply csum_ext. intros j Hj. rewrite csum_conj, Cmult_comm, csum_scal. apply csum_ext. intros i Hi.
      rewrite (H i j Hi Hj). cbn. rewrite C_conj_mul. ring.
  Qed.
End Dot.
Lemma parabola a b : (forall t, 0 <= 2 * t * a + t ^ 2 * b) -> a = 0.
Proof.
  intros H. set (k := Rabs b + 1). assert (K1 : 1 <= k) by (unfold k; pose proof (Rabs_pos b); lra). specialize (H (- a / k)).
  replace (2 * (- a / k) * a + (- a / k) ^ 2 * b) with (- (a * a) * / (k * k) * (2 * k - b)) in H by (field; lra).
  pose proof (Rle_abs b). assert (P : 0 < / (k * k)) by (apply Rinv_0_lt_compat, Rmult_lt_0_compat; lra). assert (Q : 1 <= 2 * k - b) by (unfold k in *; lra).
  destruct (Req_dec a 0) as [E|N]; [exact E|]. exfalso. assert (0 < a * a) by (apply Rsqr_pos_lt, N).
  assert (0 < a * a * / (k * k)) by (apply Rmult_lt_0_compat; lra). assert (0 < a * a * / (k * k) * (2 * k - b)) by (apply Rmult_lt_0_compat; lra). lra.
Qed.

Section Spectral.
  Variables (d : nat) (A : nat -> nat -> C) (fl : bool).
  Hypothesis HA : hermitian (K := CC) d A.
  Hypothesis RA : fl = true -> forall i j, (i < d)%nat -> (j < d)%nat -> Im (A i j) = 0.
  Notation vec := (nat -> C).
  Definition good (x : vec) : Prop := fl = true -> forall i, (i < d)%nat -> Im (x i) = 0.
  Definition family (k : nat) (v : nat -> vec) : Prop :=
    (forall j, (j < k)%nat -> good (v j)) /\ forall j j', (j < k)%nat -> (j' < k)%nat -> dot d (v j) (v j') = kronecker j j'.
  Definition apart (k : nat) (v : nat -> vec) (x : vec) : Prop := good x /\ forall j, (j < k)%nat -> dot d (v j) x = RtoC 0.
  Definition res (k : nat) (v : nat -> vec) (a i : nat) : C := ((if (i =? a)%nat then RtoC 1 else RtoC 0) + RtoC (-1) * S_ k (fun j => Cconj (v j a) * v j i))%C.
  Lemma res_apart k v a : family k v -> (a < d)%nat -> apart k v (res k v a).
  Proof.
    intros [Gv Ov] Ha. split.
    - intros F i Hi. unfold res.
      assert (Z : Im (S_ k (fun j => (Cconj (v j a) * v j i)%C)) = 0). { rewrite Im_csum. apply rsum_zero. intros j Hj. pose proof (Gv j Hj F i Hi). pose proof (Gv j Hj F a Ha). unfold Im in *. cbn. rewrite H, H0. ring. }
      destruct (i =? a)%nat; unfold Im in *; cbn; rewrite Z; ring.
    - intros j Hj. unfold res. rewrite (dot_add d (v j) (fun i => if (i =? a)%nat then RtoC 1 else RtoC 0)). rewrite dot_scal. rewrite (dot_sum d (v j) k (fun j' i => (Cconj (v j' a) * v j' i)%C)).
      rewrite (csum_pick k j); [|exact Hj|].
      + rewrite dot_scal, Ov by exact Hj. unfold kronecker. rewrite Nat.eqb_refl.
        unfold dot. rewrite (csum_pick d a); [|exact Ha|]; [rewrite Nat.eqb_refl; cring|]. intros i _ N. apply Nat.eqb_neq in N. rewrite N. cring.
      + intros j' Hj' N. rewrite dot_scal, Ov by assumption. unfold kronecker. destruct (Nat.eqb_spec j j') as [E|_]; [congruence|]. cring.
  Qed.
  Lemma res_size k v a : family k v -> (a < d)%nat -> dot d (res k v a) (res k v a) = res k v a a.
  Proof.
    intros Fv Ha. pose proof (res_apart k v a Fv Ha) as Ap. unfold res at 1. rewrite (dot_add_l d (res k v a) (fun i => if (i =? a)%nat then RtoC 1 else RtoC 0)). rewrite dot_scal_l.
    rewrite <- (dot_conj d (res k v a) (fun i => S_ k (fun j => (Cconj (v j a) * v j i)%C))). rewrite (dot_sum d (res k v a) k (fun j i => (Cconj (v j a) * v j i)%C)). rewrite csum_zero.
    - unfold dot. rewrite (csum_pick d a); [|exact Ha|].
      + rewrite Nat.eqb_refl. unfold Cconj, RtoC. cbn [fst snd]. destruct (res k v a a). cring.
      + intros i _ N. apply Nat.eqb_neq in N. rewrite N. cring.
    - intros j Hj. rewrite dot_scal, <- (dot_conj d (v j)). rewrite (proj2 Ap j Hj). cring.
  Qed.
  Lemma res_total k v : family k v -> S_ d (fun a => res k v a a) = (RtoC (INR d) - RtoC (INR k))%C.
  Proof.
    intros [Gv Ov]. unfold res. rewrite csum_add.
    transitivity (RtoC (INR d * 1) + RtoC (-1) * RtoC (INR k * 1))%C; [|cring]. f_equal.
    - rewrite (csum_ext d _ (fun _ => RtoC 1)); [|intros a _; rewrite Nat.eqb_refl; reflexivity]. rewrite (csum_rsum d (fun _ => 1)), rsum_const. reflexivity.
    - rewrite <- csum_scal, (sumn_swap CC). f_equal. rewrite (csum_ext k _ (fun _ => RtoC 1)); [rewrite (csum_rsum k (fun _ => 1)), rsum_const; reflexivity|].
      intros j Hj. specialize (Ov j j Hj Hj). unfold kronecker in Ov. rewrite Nat.eqb_refl in Ov. exact Ov.
  Qed.
  Lemma res_null k v a : family k v -> (a < d)%nat -> size d (res k v a) = 0 <-> res k v a a = RtoC 0.
  Proof.
    intros Fv Ha. pose proof (res_size k v a Fv Ha) as E. rewrite dot_self in E. fold (size d (res k v a)) in E. rewrite <- E. split; [intros ->; reflexivity | intros Z; apply RtoC_inj in Z; exact Z].
  Qed.
  (** An orthonormal family of full size is complete. *)
  Lemma family_complete v i j : family d v -> (i < d)%nat -> (j < d)%nat -> S_ d (fun p => (v p i * Cconj (v p j))%C) = kronecker i j.
  Proof.
    intros Fv Hi Hj. pose proof (res_total d v Fv) as T. assert (Z : size d (res d v j) = 0).
    { assert (T' : rsum d (fun a => size d (res d v a)) = 0).
      { apply RtoC_inj. rewrite <- csum_rsum. rewrite (csum_ext d _ (fun a => res d v a a)); [rewrite T; cring|]. intros a Ha. rewrite <- (res_size d v a Fv Ha), dot_self. reflexivity. }
      apply (rsum_null d (fun a => size d (res d v a))); [intros; apply size_nonneg | exact T' | exact Hj]. }
    pose proof (size_zero d _ Z i Hi) as E. unfold res in E. unfold kronecker.
    rewrite (csum_ext d (fun p => (v p i * Cconj (v p j))%C) (fun p => (Cconj (v p j) * v p i)%C)) by (intros; apply Cmult_comm). set (s := S_ d (fun p => (Cconj (v p j) * v p i)%C)) in *.
    replace s with ((if (i =? j)%nat then RtoC 1 else RtoC 0) - ((if (i =? j)%nat then RtoC 1 else RtoC 0) + RtoC (-1) * s))%C by cring. rewrite E. destruct (i =? j)%nat; cring.
  Qed.
  Lemma room k v : (k < d)%nat -> family k v -> exists x, apart k v x /\ dot d x x = RtoC 1.
  Proof.
    intros Hk Fv.
    assert (exists a, (a < d)%nat /\ size d (res k v a) <> 0) as (a & Ha & Na).
    { apply NNPP. intros No. pose proof (res_total k v Fv) as T. rewrite csum_zero in T.
      - assert (Q : INR k = INR d). { apply RtoC_inj. replace (RtoC (INR k)) with (RtoC (INR d) - (RtoC (INR d) - RtoC (INR k)))%C by cring. rewrite <- T. cring. } apply INR_eq in Q. lia.
      - intros a Ha. apply res_null; [exact Fv | exact Ha|]. apply NNPP. intros N. apply No. exists a. split; assumption. }
    pose proof (res_apart k v a Fv Ha) as Ap.
    assert (P : 0 < size d (res k v a)) by (pose proof (size_nonneg d (res k v a)); lra). set (s := / sqrt (size d (res k v a))).
    exists (fun i => (RtoC s * res k v a i)%C). split; [split|].
    - intros F i Hi. pose proof (proj1 Ap F i Hi) as Z. rewrite im_scal, Z. ring.
    - intros j Hj. rewrite dot_scal, (proj2 Ap j Hj). unfold Cmult, RtoC. cbn. f_equal; ring.
    - rewrite dot_scal, dot_scal_l, dot_self. fold (size d (res k v a)). unfold Cconj, Cmult, RtoC. cbn. f_equal; [|ring].
      assert (E : s * (s * size d (res k v a)) = 1). { unfold s. rewrite <- (sqrt_sqrt (size d (res k v a))) at 3 by lra. field. apply Rgt_not_eq, sqrt_lt_R0, P. }
      rewrite <- E. ring.
  Qed.
  Definition energy (x : vec) : R := Re (dot d x (ap d A x)).
  Lemma lowest_vector k v : (k < d)%nat -> family k v -> exists x, apart k v x /\ dot d x x = RtoC 1 /\ forall y, apart k v y -> energy x * size d y <= energy y.
  Proof.
    intros Hk Hv.
    destruct (attains (2 * d) 1 (fun r => dot d (zof r) (zof r) = RtoC 1 /\ (forall j, (j < k)%nat -> dot d (v j) (zof r) = RtoC 0) /\ good (zof r)) (fun r => energy (zof r))) as (r & (U & O & G) & Min).
    - intros r (U & _) m Hm. rewrite dot_self in U. apply RtoC_inj in U. fold (size d (zof r)) in U.
      assert (Rabs (r m) <= sqrt 1) as L; [|rewrite sqrt_1 in L; exact L]. rewrite <- sqrt_Rsqr_abs. apply sqrt_le_1_alt.
      destruct (Nat.Even_or_Odd m) as [[i ->]|[i ->]].
      + pose proof (size_part d (zof r) i ltac:(lia)) as L. rewrite U in L. cbn [zof Re Im fst snd] in L. pose proof (pow2_ge_0 (r (2 * i + 1)%nat)). unfold Rsqr. lra.
      + pose proof (size_part d (zof r) i ltac:(lia)) as L. rewrite U in L. cbn [zof Re Im fst snd] in L. pose proof (pow2_ge_0 (r (2 * i)%nat)). unfold Rsqr. lra.
    - destruct (room k v Hk Hv) as (x & [Gx Ox] & Ux). exists (rof x). split; [|split].
      + rewrite (dot_ext d _ x _ x); [exact Ux | |]; intros i _; apply zof_rof.
      + intros j Hj. rewrite (dot_ext d _ (v j) _ x); [apply Ox, Hj | reflexivity |]; intros i _; apply zof_rof.
      + intros F i Hi. rewrite zof_rof. apply Gx; assumption.
    - intros r H. split; [|split].
      + apply (csteady_closed (2 * d) (fun r => dot d (zof r) (zof r))).
        * unfold dot. apply (csteady_sum (2 * d) d (fun i r => (Cconj (zof r i) * zof r i)%C)). intros i Hi. apply (csteady_mul (2 * d) (fun r => Cconj (zof r i))); [apply (csteady_conj (2 * d) (fun r => zof r i))|]; apply csteady_zof, Hi.
        * intros e He. destruct (H e He) as (y & (U & _) & Nr). exists y. split; assumption.
      + intros j Hj. apply (csteady_closed (2 * d) (fun r => dot d (v j) (zof r))).
        * unfold dot. apply (csteady_sum (2 * d) d (fun i r => (Cconj (v j i) * zof r i)%C)). intros i Hi. apply (csteady_mul (2 * d) (fun r => Cconj (v j i))); [apply csteady_const|]. apply csteady_zof, Hi.
        * intros e He. destruct (H e He) as (y & (_ & O & _) & Nr). exists y. split; [apply O, Hj | assumption].
      + intros F i Hi. cbn. apply (closed_zero (2 * d) (fun r => r (2 * i + 1)%nat)); [apply steady_coord; lia|].
        intros e He. destruct (H e He) as (y & (_ & _ & G) & Nr). exists y. split; [apply (G F i Hi) | assumption].
    - assert (csteady (2 * d) (fun r => dot d (zof r) (ap d A (zof r)))) as [Q _]; [|exact Q].
      unfold dot, ap. apply (csteady_sum (2 * d) d (fun i r => (Cconj (zof r i) * S_ d (fun j => A i j * zof r j))%C)). intros i Hi. apply (csteady_mul (2 * d) (fun r => Cconj (zof r i))).
      + apply (csteady_conj (2 * d) (fun r => zof r i)). apply csteady_zof, Hi.
      + apply (csteady_sum (2 * d) d (fun j r => (A i j * zof r j)%C)). intros j Hj. apply (csteady_mul (2 * d) (fun _ => A i j)); [apply csteady_const | apply csteady_zof, Hj].
    - exists (zof r). split; [split; assumption|]. split; [exact U|]. intros y [Gy Oy]. pose proof (size_nonneg d y) as P. destruct (Req_dec (size d y) 0) as [Z|N].
      + rewrite Z. unfold energy at 2. rewrite (dot_ext d y (fun _ => (RtoC 0 * RtoC 0)%C) (ap d A y) (ap d A y)); [|intros i Hi; rewrite (size_zero d y Z i Hi); unfold Cmult, RtoC; cbn; f_equal; ring | reflexivity].
        rewrite (dot_scal_l d _ (RtoC 0) (fun _ => RtoC 0)). cbn. lra.
      + set (s := / sqrt (size d y)). assert (Ss : s * s * size d y = 1). { unfold s. rewrite <- (sqrt_sqrt (size d y)) at 3 by exact P. field. apply Rgt_not_eq, sqrt_lt_R0. lra. }
        set (z := fun i => (RtoC s * y i)%C). specialize (Min (rof z)).
        assert (Ez : forall x, dot d x (zof (rof z)) = dot d x z) by (intros x; apply dot_ext; [reflexivity | intros i _; apply zof_rof]).
        assert (Ez' : dot d (zof (rof z)) (zof (rof z)) = dot d z z) by (apply dot_ext; intros i _; apply zof_rof).
        assert (En : energy (zof (rof z)) = s * s * energy y).
        { unfold energy. rewrite (dot_ext d _ z _ (fun i => (RtoC s * ap d A y i)%C)); [|intros i _; apply zof_rof|].
          - unfold z. rewrite dot_scal, dot_scal_l. unfold Cconj, Cmult, RtoC, Re. cbn. ring.
          - intros i _. rewrite <- ap_scal. apply ap_ext. intros j _. apply zof_rof. }
        rewrite En in Min. assert (L : energy (zof r) <= s * s * energy y).
        { apply Min. split; [|split].
          - rewrite Ez'. unfold z. rewrite dot_scal, dot_scal_l, dot_self. fold (size d y). unfold Cconj, Cmult, RtoC. cbn. f_equal; [|ring]. rewrite <- Ss. ring.
          - intros j Hj. rewrite Ez. unfold z. rewrite dot_scal, Oy by exact Hj. unfold Cmult, RtoC. cbn. f_equal; ring.
          - intros F i Hi. rewrite zof_rof. unfold z. pose proof (Gy F i Hi) as Z. rewrite im_scal, Z. ring. }
        apply (Rmult_le_compat_r (size d y)) in L; [|exact P]. replace (s * s * energy y * size d y) with (energy y * (s * s * size d y)) in L by ring. rewrite Ss in L. lra.
  Qed.
  Lemma self_real x : dot d x (ap d A x) = RtoC (energy x).
  Proof.
    assert (E : Cconj (dot d x (ap d A x)) = dot d x (ap d A x)) by (rewrite dot_conj; symmetry; apply ap_adjoint, HA).
    unfold energy. destruct (dot d x (ap d A x)) as [a b]. unfold Cconj in E. cbn in E. injection E as E. unfold RtoC. cbn. f_equal. lra.
  Qed.
  Lemma lowest_eigen k v (w : nat -> R) x : family k v -> (forall j i, (j < k)%nat -> (i < d)%nat -> ap d A (v j) i = (RtoC (w j) * v j i)%C) ->
    apart k v x -> dot d x x = RtoC 1 -> (forall y, apart k v y -> energy x * size d y <= energy y) ->
    forall i, (i < d)%nat -> ap d A x i = (RtoC (energy x) * x i)%C.
  Proof.
    intros [Gv Ov] Ev [Gx Ox] Ux Min. set (m := energy x) in *.
    set (r := fun i => (ap d A x i + RtoC (- m) * x i)%C).
    assert (Sx : forall y, dot d y r = (dot d y (ap d A x) + RtoC (- m) * dot d y x)%C) by (intros y; unfold r; rewrite dot_add, dot_scal; reflexivity).
    assert (Xr : dot d x r = RtoC 0). { rewrite Sx, Ux, self_real. fold m. unfold Cplus, Cmult, RtoC. cbn. f_equal; ring. }
    assert (Rx : dot d r x = RtoC 0). { rewrite <- (dot_conj d x). rewrite Xr. unfold Cconj, RtoC. cbn. f_equal. ring. }
    assert (Or : forall j, (j < k)%nat -> dot d (v j) r = RtoC 0).
    { intros j Hj. rewrite Sx, (Ox j Hj), ap_adjoint by exact HA. rewrite (dot_ext d _ (fun i => (RtoC (w j) * v j i)%C) x x); [|intros i Hi; apply Ev; assumption | reflexivity].
      rewrite dot_scal_l, (Ox j Hj). unfold Cplus, Cmult, RtoC. cbn. f_equal; ring. }
    assert (Gr : good r). { intros F i Hi. unfold r. assert (Z : Im (ap d A x i) = 0). { unfold ap. rewrite Im_csum. apply rsum_zero. intros j Hj. pose proof (RA F i j Hi Hj) as Z1. pose proof (Gx F j Hj) as Z2. unfold Im in *. cbn. rewrite Z1, Z2. ring. }
      pose proof (Gx F i Hi) as Z2. rewrite im_add, im_scal, Z, Z2. ring. }
    assert (Ax : forall i, ap d A x i = (r i + RtoC m * x i)%C). { intros i. unfold r. unfold RtoC, Cplus, Cmult. cbn. apply injective_projections; cbn; ring. }
    assert (Xar : dot d x (ap d A r) = dot d r r).
    { rewrite ap_adjoint by exact HA. rewrite (dot_ext d _ (fun i => (r i + RtoC m * x i)%C) r r); [|intros i _; apply Ax | reflexivity]. rewrite dot_add_l, dot_scal_l, Xr. unfold Cmult, Cplus, RtoC. cbn. apply injective_projections; cbn; ring. }
    assert (Zr : size d r = 0).
    { apply (parabola _ (energy r - m * size d r)). intros t. set (y := fun i => (x i + RtoC t * r i)%C).
      assert (Ay : apart k v y). { split.
        - intros F i Hi. pose proof (Gx F i Hi) as Z1. pose proof (Gr F i Hi) as Z2. unfold y. rewrite im_add, im_scal, Z1, Z2. ring.
        - intros j Hj. unfold y. rewrite dot_add, dot_scal, (Ox j Hj), (Or j Hj). unfold Cplus, Cmult, RtoC. cbn. f_equal; ring. }
      specialize (Min y Ay).
      assert (Ey : size d y = 1 + t ^ 2 * size d r).
      { apply RtoC_inj. unfold size at 1. rewrite <- dot_self. unfold y. rewrite (dot_add d _ x), (dot_scal d _ (RtoC t) r), !(dot_add_l d _ x), !(dot_scal_l d _ (RtoC t) r), Ux, Xr, Rx, dot_self. fold (size d r). unfold Cplus, Cmult, Cconj, RtoC. cbn. f_equal; ring. }
      assert (Ee : energy y = m + 2 * t * size d r + t ^ 2 * energy r).
      { unfold energy at 1. rewrite (dot_ext d y y _ (fun i => (ap d A x i + RtoC t * ap d A r i)%C)); [|reflexivity|].
        - unfold y. rewrite (dot_add d _ (ap d A x)), (dot_scal d _ (RtoC t) (ap d A r)), !(dot_add_l d _ x), !(dot_scal_l d _ (RtoC t) r), Xar, !self_real. replace (dot d r (ap d A x)) with (dot d r r).
          + rewrite dot_self. fold (size d r). fold m. unfold Cplus, Cmult, Cconj, RtoC, Re. cbn. ring.
          + rewrite (dot_ext d r r (ap d A x) (fun i => (r i + RtoC m * x i)%C)); [|reflexivity | intros i _; apply Ax]. rewrite dot_add, dot_scal, Rx. unfold Cmult, Cplus, RtoC. cbn. apply injective_projections; cbn; ring.
        - intros i _. unfold y. rewrite ap_add, ap_scal. reflexivity. }
      rewrite Ey, Ee in Min. lra. }
    intros i Hi. rewrite Ax, (size_zero d r Zr i Hi). unfold Cplus, Cmult, RtoC. cbn. apply injective_projections; cbn; ring.
  Qed.
  Lemma eigenvectors k : (k <= d)%nat -> exists (w : nat -> R) (v : nat -> vec), family k v /\
    (forall j i, (j < k)%nat -> (i < d)%nat -> ap d A (v j) i = (RtoC (w j) * v j i)%C) /\
    (forall p q, (p <= q)%nat -> (q < k)%nat -> w p <= w q) /\
    (forall j y, (j < k)%nat -> apart k v y -> w j * size d y <= energy y) /\ (forall y, (0 < k)%nat -> good y -> w 0%nat * size d y <= energy y).
  Proof.
    induction k as [|k IH]; intros Hk.
    - exists (fun _ => 0), (fun _ _ => RtoC 0). split; [split; intros; lia|]. split; [intros; lia|]. split; [intros; lia|]. split; intros; lia.
    - destruct (IH ltac:(lia)) as (w & v & Fv & Ev & Sv & Lv & L0). destruct (lowest_vector k v ltac:(lia) Fv) as (x & Ax & Ux & Min).
      pose proof (lowest_eigen k v w x Fv Ev Ax Ux Min) as Ex. destruct Fv as [Gv Ov].
      set (v' := fun j => if (j =? k)%nat then x else v j). set (w' := fun j => if (j =? k)%nat then energy x else w j).
      assert (V1 : forall j, (j < k)%nat -> v' j = v j) by (intros j Hj; unfold v'; destruct (Nat.eqb_spec j k); [lia | reflexivity]).
      assert (V2 : v' k = x) by (unfold v'; rewrite Nat.eqb_refl; reflexivity).
      assert (W1 : forall j, (j < k)%nat -> w' j = w j) by (intros j Hj; unfold w'; destruct (Nat.eqb_spec j k); [lia | reflexivity]).
      assert (W2 : w' k = energy x) by (unfold w'; rewrite Nat.eqb_refl; reflexivity).
      exists w', v'. split; [split|split; [|split; [|split]]].
      + intros j Hj. destruct (Nat.eq_dec j k) as [->|N]; [rewrite V2; apply Ax | rewrite V1 by lia; apply Gv; lia].
      + intros j j' Hj Hj'. unfold kronecker. destruct (Nat.eq_dec j k) as [->|N], (Nat.eq_dec j' k) as [->|N'].
        * rewrite V2, Nat.eqb_refl. exact Ux.
        * rewrite V2, V1 by lia. rewrite <- dot_conj, (proj2 Ax) by lia. destruct (Nat.eqb_spec k j'); [lia|]. unfold Cconj, RtoC. cbn. f_equal. ring.
        * rewrite V2, V1 by lia. rewrite (proj2 Ax) by lia. destruct (Nat.eqb_spec j k); [lia|]. reflexivity.
        * rewrite !V1 by lia. apply Ov; lia.
      + intros j i Hj Hi. destruct (Nat.eq_dec j k) as [->|N]; [rewrite V2, W2; apply Ex, Hi | rewrite V1, W1 by lia; apply Ev; lia].
      + intros p q Hpq Hq. destruct (Nat.eq_dec q k) as [->|N].
        * destruct (Nat.eq_dec p k) as [->|N]; [apply Rle_refl|]. rewrite W1, W2 by lia. pose proof (Lv p x ltac:(lia) Ax) as L.
          assert (size d x = 1) as E1 by (rewrite dot_self in Ux; apply RtoC_inj in Ux; exact Ux). rewrite E1 in L. lra.
        * rewrite !W1 by lia. apply Sv; lia.
      + intros j y Hj [Gy Oy]. assert (Ay : apart k v y). { split; [exact Gy|]. intros j' Hj'. rewrite <- V1 by exact Hj'. apply Oy. lia. }
        destruct (Nat.eq_dec j k) as [->|N]; [rewrite W2; apply Min, Ay | rewrite W1 by lia; apply Lv; [lia | exact Ay]].
      + intros y _ Gy. destruct k as [|k'].
        * change (w' 0%nat) with (energy x). apply Min. split; [exact Gy | intros; lia].
        * rewrite W1 by lia. apply L0; [lia | exact Gy].
  Qed.
End Spectral.
(** The spectral theorem *)
Lemma spectral n (h : nat -> nat -> C) : hermitian (K := CC) n h -> exists w v, eigensystem n h w v.
Proof.
  intros H. destruct (eigenvectors n h false H ltac:(discriminate) n (Nat.le_refl n)) as (w & v & [_ O] & E & A & _).
  exists w, (fun i p => v p i). split.
  - intros p q Hp Hq. apply O; assumption.
  - intros i p Hi Hp. apply (E p i Hp Hi).
  - exact A.
Qed.
Lemma spectral_real n (h : nat -> nat -> R) : (forall i j, (i < n)%nat -> (j < n)%nat -> h i j = h j i) -> exists w v, eigenbasis n h w v.
Proof.
  intros H. destruct (eigenvectors n (fun i j => RtoC (h i j)) true) with (k := n) as (w & v & [G O] & E & A & _); [|reflexivity | apply Nat.le_refl|].
  - intros p q Hp Hq. rewrite (H p q Hp Hq). cbn. unfold Cconj, RtoC. cbn. f_equal. ring.
  - assert (V : forall p i, (p < n)%nat -> (i < n)%nat -> RtoC (Re (v p i)) = v p i). { intros p i Hp Hi. pose proof (G p Hp eq_refl i Hi) as Z. destruct (v p i) as [a b]. cbn in *. subst b. reflexivity. }
    exists w, (fun i p => Re (v p i)). split.
    + intros p q Hp Hq. rewrite <- (O p q Hp Hq). apply csum_ext. intros i Hi. rewrite !V by assumption. f_equal. rewrite <- (V p i Hp Hi). unfold Cconj, RtoC. cbn. f_equal. ring.
    + intros i p Hi Hp. rewrite V by assumption. rewrite <- (E p i Hp Hi). apply csum_ext. intros j Hj. rewrite V by assumption. reflexivity.
    + exact A.
Qed.
