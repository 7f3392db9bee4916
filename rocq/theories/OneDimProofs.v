(** One-dimensional quantum dots. *)
From Coq Require Import List Arith ZArith Reals Lra Lia Bool.
From Coquelicot Require Import Coquelicot.
From Verif Require Import Scalar ScalarC Py Numpy BasisSet Spec BasisSpec BasisFacts OneDim OneDimSpec.
Import ListNotations.
Open Scope R_scope.
Notation csum := (sumn (K := CC)).

Ltac cr := match goal with |- @eq _ ?a ?b => change (@eq C a b) end; ring.
Ltac cring := repeat match goal with |- @eq (car CC) ?a ?b => change (@eq C a b) end; unfold RtoC, Cplus, Cminus, Cmult, Copp, Cconj; cbn; f_equal; ring.

Lemma fold_left_sum (f : nat -> C) n k (z : C) : fold_left (fun val i => (val + f i)%C) (seq k n) z = (z + csum n (fun i => f (k + i)%nat))%C.
Proof.
  revert z. induction n as [|n IH]; intros z.
  - cbn. symmetry. apply Cplus_0_r.
  - rewrite seq_S, fold_left_app, IH. cbn [fold_left sumn]. change (@sadd CC) with Cplus. rewrite Cplus_assoc. reflexivity.
Qed.
Lemma trapz_sum n f x : trapz n f x = (RtoC ((x 1%nat - x 0%nat) / 2) * csum (n - 1) (fun i => (f i + f (S i))%C))%C.
Proof.
  unfold trapz. rewrite (fold_left_sum (fun i => (f (i - 1)%nat + f i)%C)). rewrite Cplus_0_l.
  rewrite (sumn_ext CC (n - 1) (fun i => (f (1 + i - 1)%nat + f (1 + i)%nat)%C) (fun i => (f i + f (S i))%C)) by (intros i _; replace (1 + i - 1)%nat with i by lia; reflexivity).
  set (s := csum _ _). replace (RtoC ((x 1%nat - x 0%nat) / 2)) with (RtoC (1 / 2) * RtoC (x 1%nat - x 0%nat))%C by (rewrite <- RtoC_mult; f_equal; field). ring.
Qed.
(** Weights *)
Definition wt (n i : nat) : R := (if (i =? 0)%nat then 0 else 1 / 2) + (if (i =? n - 1)%nat then 0 else 1 / 2).
Lemma pair_sum (f : nat -> C) n : csum n (fun i => (f i + f (S i))%C) = csum (S n) (fun i => (RtoC (2 * wt (S n) i) * f i)%C).
Proof.
  destruct n as [|n]; [unfold wt; cbn; cring|].
  assert (A : forall k, csum k (fun i => (f i + f (S i))%C) = (csum k f + csum k (fun i => f (S i)))%C) by (intros k; apply (sumn_add CC)).
  rewrite A.
  assert (B : forall k, (f 0%nat + csum k (fun i => f (S i)))%C = csum (S k) f).
  { induction k as [|k IH]; [cbn; cring|]. cbn [sumn]. change (@sadd CC) with Cplus. rewrite Cplus_assoc, IH. reflexivity. }
  assert (D : csum (S (S n)) (fun i => (RtoC (2 * wt (S (S n)) i) * f i)%C) = (csum (S (S n)) (fun i => (f i + f i)%C) - (f 0%nat + f (S n)))%C).
  {     assert (E : forall k, (k <= S n)%nat -> csum (S k) (fun i => (RtoC (2 * wt (S (S n)) i) * f i)%C) = (csum (S k) (fun i => (f i + f i)%C) - (f 0%nat + if (k =? S n)%nat then f (S n) else RtoC 0))%C).
    { induction k as [|k IH]; intros Hk.
      - cbn [sumn]. change (@sadd CC) with Cplus. change (@s0 CC) with (RtoC 0). unfold wt. cbn [Nat.eqb]. replace (S (S n) - 1)%nat with (S n) by lia. cbn [Nat.eqb]. replace (2 * (0 + 1 / 2)) with 1 by field. cr.
      - cbn [sumn] in *. change (@sadd CC) with Cplus in *. rewrite IH by lia. destruct (Nat.eqb_spec k (S n)) as [Hn|Hn]; [exfalso; lia|].
        unfold wt. replace (S (S n) - 1)%nat with (S n) by lia. destruct (Nat.eqb_spec (S k) 0) as [?|_]; [lia|]. destruct (Nat.eqb_spec (S k) (S n)) as [E|E].
        + rewrite E. replace (2 * (1 / 2 + 0)) with 1 by field. cr.
        + replace (2 * (1 / 2 + 1 / 2)) with 2 by field. replace (RtoC 2) with (RtoC 1 + RtoC 1)%C by (rewrite <- RtoC_plus; f_equal; ring). cr. }
    specialize (E (S n) (le_n _)). rewrite Nat.eqb_refl in E. exact E. }
  rewrite D. pose proof (sumn_add CC (S (S n)) f f) as F. cbn [sadd CC] in F. rewrite F. rewrite <- (B (S n)) at 2. cbn [sumn]. change (@sadd CC) with Cplus. cr.
Qed.
Lemma trapz_weights n f x : trapz n f x = csum n (fun i => (RtoC ((x 1%nat - x 0%nat) * wt n i) * f i)%C).
Proof.
  destruct n as [|n]; [unfold trapz; cbn; cring|].
  rewrite trapz_sum, pair_sum. replace (S (S n - 1)) with (S n) by lia. pose proof (sumn_mul_l CC (S n) (RtoC ((x 1%nat - x 0%nat) / 2)) (fun i => (RtoC (2 * wt (S n) i) * f i)%C)) as E. cbn [smul CC] in E. rewrite E.
  apply (sumn_ext CC). intros i _. change (@smul CC) with Cmult. rewrite Cmult_assoc, <- RtoC_mult. f_equal. f_equal. field.
Qed.
Lemma RtoC_conj (r : R) : Cconj (RtoC r) = RtoC r.
Proof. unfold Cconj, RtoC. cbn. f_equal. ring. Qed.

(** ** Symmetries of the two-body elements, for any orbitals *)
Section Sym.
  Variables (spf : nat -> nat -> C) (N : nat) (grid : nat -> R) (alpha a : R).
  Notation u := (orbital_integral spf N grid alpha a).
  Let w i := RtoC ((grid 1%nat - grid 0%nat) * wt N i).
  Let v i j := RtoC (shielded_coulomb (grid i) (grid j) alpha a).
  Lemma v_sym i j : v i j = v j i.
  Proof. unfold v, shielded_coulomb. replace ((grid i - grid j) ^ 2) with ((grid j - grid i) ^ 2) by ring. reflexivity. Qed.
  Lemma u_sums p q r s : u p q r s = csum N (fun i => csum N (fun j => (w i * w j * Cconj (spf p i) * Cconj (spf q j) * v i j * spf r i * spf s j)%C)).
  Proof.
    unfold orbital_integral. rewrite trapz_weights. apply (sumn_ext CC). intros i _. unfold inner_integral. rewrite trapz_weights. fold (w i).
    pose proof (sumn_mul_l CC N (w i * Cconj (spf p i) * spf r i)%C (fun j => (w j * (Cconj (spf q j) * v i j * spf s j))%C)) as E. cbn [smul CC] in E.
    transitivity ((w i * Cconj (spf p i) * spf r i) * csum N (fun j => (w j * (Cconj (spf q j) * v i j * spf s j))%C))%C.
    - change (fun i0 => _) with (fun j => (w j * (Cconj (spf q j) * v i j * spf s j))%C). set (z := csum _ _). cr.
    - rewrite E. apply (sumn_ext CC). intros j _. cr.
  Qed.
  Lemma u_swap p q r s : u p q r s = u q p s r.
  Proof.
    rewrite !u_sums. rewrite (sumn_swap CC). apply (sumn_ext CC). intros i _. apply (sumn_ext CC). intros j _. rewrite (v_sym j i). cr.
  Qed.
  Lemma u_conj p q r s : u p q r s = Cconj (u r s p q).
  Proof.
    rewrite !u_sums. change Cconj with (@sconj CC) at 3. rewrite (sumn_conj CC). apply (sumn_ext CC). intros i _. rewrite (sumn_conj CC). apply (sumn_ext CC). intros j _.
    cbn [sconj CC]. rewrite !C_conj_mul, !C_conj_invol. unfold w, v. rewrite !RtoC_conj. cr.
  Qed.
  Lemma u_particle_sym n : particle_sym (K := CC) n u.
  Proof. intros p q r s _ _ _ _. apply u_swap. Qed.
  Lemma u_hermitian n : hermitian2 (K := CC) n u.
  Proof. intros p q r s _ _ _ _. apply u_conj. Qed.
End Sym.

(** ** The trapezoidal rule *)
Lemma trapz_linear n x c d f g : trapz n (fun i => (c * f i + d * g i)%C) x = (c * trapz n f x + d * trapz n g x)%C.
Proof.
  rewrite !trapz_weights. pose proof (sumn_mul_l CC n c) as Ec. pose proof (sumn_mul_l CC n d) as Ed. cbn [smul CC] in Ec, Ed. rewrite Ec, Ed.
  pose proof (sumn_add CC n) as Ea. cbn [sadd CC] in Ea. rewrite <- Ea. apply (sumn_ext CC). intros i _. cr.
Qed.
Lemma trapezoid_sum n f x : trapezoid n f x = csum (n - 1) (fun i => (RtoC ((x (S i) - x i) / 2) * (f i + f (S i)))%C).
Proof.
  induction n as [|[|n] IH]; [reflexivity|reflexivity|]. change (trapezoid (S (S n)) f x) with (trapezoid (S n) f x + RtoC ((x (S n) - x n) / 2) * (f n + f (S n)))%C.
  rewrite IH. replace (S (S n) - 1)%nat with (S n) by lia. replace (S n - 1)%nat with n by lia. reflexivity.
Qed.
Definition uniform (n : nat) (x : nat -> R) : Prop := forall i, (S i < n)%nat -> x (S i) - x i = x 1%nat - x 0%nat.
Lemma trapz_uniform n f x : uniform n x -> trapz n f x = trapezoid n f x.
Proof.
  intros U. rewrite trapz_sum, trapezoid_sum. pose proof (sumn_mul_l CC (n - 1) (RtoC ((x 1%nat - x 0%nat) / 2))) as E. cbn [smul CC] in E. rewrite E.
  apply (sumn_ext CC). intros i Hi. rewrite (U i) by lia. reflexivity.
Qed.
Lemma np_trapz_right n f x : np_trapz n f x = trapezoid n f x.
Proof.
  unfold np_trapz. rewrite trapezoid_sum. apply (sumn_ext CC). intros i Hi. replace ((x (S i) - x i) / 2) with ((x (S i) - x i) * (1 / 2)) by field. rewrite RtoC_mult. cr.
Qed.
Lemma linspace_step L N i : linspace L N (S i) - linspace L N i = 2 * L / INR (N - 1).
Proof. unfold linspace. rewrite S_INR. ring. Qed.
Lemma linspace_uniform L N : uniform N (linspace L N).
Proof. intros i _. rewrite linspace_step. change 1%nat with (S 0). rewrite linspace_step. reflexivity. Qed.
Lemma trapezoid_affine (n : nat) (c d : C) (x : nat -> R) : (1 <= n)%nat ->
  trapezoid n (fun i => (c + d * RtoC (x i))%C) x = (c * RtoC (x (n - 1)%nat - x 0%nat) + d * RtoC ((x (n - 1)%nat ^ 2 - x 0%nat ^ 2) / 2))%C.
Proof.
  induction n as [|[|n] IH]; intros H; [lia| |].
  - cbn [trapezoid Nat.sub]. destruct c, d. unfold RtoC, Cplus, Cmult. cbn -[pow]. f_equal; field.
  - change (trapezoid (S (S n)) ?f x) with (trapezoid (S n) f x + RtoC ((x (S n) - x n) / 2) * (f n + f (S n)))%C.
    rewrite IH by lia. replace (S (S n) - 1)%nat with (S n) by lia. replace (S n - 1)%nat with n by lia. destruct c, d. unfold RtoC, Cplus, Cmult. cbn -[pow]. f_equal; field.
Qed.
Lemma affine_integral (c d s t : R) : is_RInt (fun z => c + d * z) s t (c * (t - s) + d * ((t ^ 2 - s ^ 2) / 2)).
Proof.
  set (F := fun z : R => c * z + d * z ^ 2 / 2).
  replace (c * (t - s) + d * ((t ^ 2 - s ^ 2) / 2)) with (minus (F t) (F s)) by (unfold minus, plus, opp, F; cbn; field).
  apply (is_RInt_derive F).
  - intros z _. unfold F. auto_derive; [exact I|]. field.
  - intros z _. apply (ex_derive_continuous (fun z => c + d * z)). auto_derive. exact I.
Qed.
Lemma trapz_affine (n : nat) (c d : C) (x : nat -> R) : (1 <= n)%nat -> uniform n x ->
  is_RInt (fun z => Re (c + d * RtoC z)%C) (x 0%nat) (x (n - 1)%nat) (Re (trapz n (fun i => (c + d * RtoC (x i))%C) x)) /\
  is_RInt (fun z => Im (c + d * RtoC z)%C) (x 0%nat) (x (n - 1)%nat) (Im (trapz n (fun i => (c + d * RtoC (x i))%C) x)).
Proof.
  intros H U. rewrite trapz_uniform by exact U. rewrite trapezoid_affine by exact H. destruct c as [c c'], d as [d d'].
  split; [set (e := c); set (f := d) | set (e := c'); set (f := d')].
  - replace (Re _) with (e * (x (n - 1)%nat - x 0%nat) + f * ((x (n - 1)%nat ^ 2 - x 0%nat ^ 2) / 2)) by (cbn -[pow]; unfold e, f; ring).
    eapply is_RInt_ext; [|apply affine_integral]. intros z _. cbn. unfold e, f. ring.
  - replace (Im _) with (e * (x (n - 1)%nat - x 0%nat) + f * ((x (n - 1)%nat ^ 2 - x 0%nat ^ 2) / 2)) by (cbn -[pow]; unfold e, f; ring).
    eapply is_RInt_ext; [|apply affine_integral]. intros z _. cbn. unfold e, f. ring.
Qed.
