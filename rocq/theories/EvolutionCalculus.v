(** Derivatives of states that depend on time. *)
From Coq Require Import List Arith ZArith Reals Lra Lia Bool.
From Coquelicot Require Import Coquelicot.
From Verif Require Import Scalar ScalarC Py Numpy BasisSet Spec OneDimSpec OneDimProofs DotProofs GridSpec GridProofs PositiveForms SpectralProofs Systems SystemFacts.
From Verif Require Import RaiseTheorems FockSpec FockProofs InnerSpec InnerProofs RaiseSpec RaiseProofs RaiseFock FockSpectrumSpec FockSpectrum GroundTheorems EvolutionSpec.
Import ListNotations.
Open Scope R_scope.
Local Notation S_ := (sumn (K := CC)).
Local Notation state := (FockSpec.state CC).

(** ** Derivatives of complex functions *)
Lemma d_const z t : derivative (fun _ => z) t (RtoC 0).
Proof. split; cbn; apply is_derive_Reals; apply derivable_pt_lim_const. Qed.
Lemma d_ext f g t z : (forall x, f x = g x) -> derivative f t z -> derivative g t z.
Proof. intros E [A B]. split; (eapply is_derive_ext; [|eassumption]); intros x; cbv beta; rewrite E; reflexivity. Qed.
Lemma d_add f g t a b : derivative f t a -> derivative g t b -> derivative (fun x => (f x + g x)%C) t (a + b)%C.
Proof. intros [A1 A2] [B1 B2]. split; cbn; apply (is_derive_plus (K := R_AbsRing) (V := R_NormedModule)); assumption. Qed.
Lemma d_mul f g t a b : derivative f t a -> derivative g t b -> derivative (fun x => (f x * g x)%C) t (a * g t + f t * b)%C.
Proof.
  intros [A1 A2] [B1 B2]. apply is_derive_Reals in A1, A2, B1, B2. split; apply is_derive_Reals; cbn.
  - replace (fst a * fst (g t) - snd a * snd (g t) + (fst (f t) * fst b - snd (f t) * snd b)) with
      ((Re a * Re (g t) + Re (f t) * Re b) - (Im a * Im (g t) + Im (f t) * Im b)) by (unfold Re, Im; ring).
    exact (derivable_pt_lim_minus _ _ t _ _ (derivable_pt_lim_mult _ _ t _ _ A1 B1) (derivable_pt_lim_mult _ _ t _ _ A2 B2)).
  - replace (fst a * snd (g t) + snd a * fst (g t) + (fst (f t) * snd b + snd (f t) * fst b)) with
      ((Re a * Im (g t) + Re (f t) * Im b) + (Im a * Re (g t) + Im (f t) * Re b)) by (unfold Re, Im; ring).
    exact (derivable_pt_lim_plus _ _ t _ _ (derivable_pt_lim_mult _ _ t _ _ A1 B2) (derivable_pt_lim_mult _ _ t _ _ A2 B1)).
Qed.
Lemma d_conj f t a : derivative f t a -> derivative (fun x => Cconj (f x)) t (Cconj a).
Proof. intros [A B]. split; cbn; [exact A|]. apply (is_derive_opp (K := R_AbsRing) (V := R_NormedModule)), B. Qed.
Lemma d_scal c f t a : derivative f t a -> derivative (fun x => (c * f x)%C) t (c * a)%C.
Proof. intros H. pose proof (d_mul (fun _ => c) f t _ a (d_const c t) H) as E. cbv beta in E. replace (c * a)%C with (RtoC 0 * f t + c * a)%C by ring. exact E. Qed.
Lemma d_sum m (f : nat -> R -> C) t a : (forall k, (k < m)%nat -> derivative (f k) t (a k)) -> derivative (fun x => S_ m (fun k => f k x)) t (S_ m a).
Proof.
  intros H. induction m as [|m IH]; [exact (d_const (RtoC 0) t)|]. refine (d_add (fun x => S_ m (fun k => f k x)) (f m) t (S_ m a) (a m) _ _); [apply IH; intros k Hk; apply H; lia | apply H; lia].
Qed.
Lemma d_zero f : (forall t, derivative f t (RtoC 0)) -> forall a b, f a = f b.
Proof.
  intros H a b.
  assert (G : forall g : R -> R, (forall t, is_derive g t 0) -> g a = g b).
  { intros g D. destruct (Rtotal_order a b) as [L|[->|L]]; [|reflexivity|].
    - apply (eq_is_derive (V := R_NormedModule) g a b); [intros t _; apply D | exact L].
    - symmetry. apply (eq_is_derive (V := R_NormedModule) g b a); [intros t _; apply D | exact L]. }
  rewrite (surjective_pairing (f a)), (surjective_pairing (f b)). f_equal; [apply (G (fun t => Re (f t))) | apply (G (fun t => Im (f t)))]; intros t; apply (H t).
Qed.
Lemma d_unique f t a b : derivative f t a -> derivative f t b -> a = b.
Proof. intros [A1 A2] [B1 B2]. rewrite (surjective_pairing a), (surjective_pairing b). f_equal; [apply is_derive_unique in A1, B1 | apply is_derive_unique in A2, B2]; unfold Re, Im in *; congruence. Qed.

(** ** States that depend on time *)
Definition moving (n : nat) (F : R -> state) (t : R) (G : state) : Prop := forall o, among n o -> derivative (fun x => F x o) t (G o).
Lemma d_total l : forall (F : R -> occupation -> C) (G : occupation -> C) t o, (forall o', (forall p, (l <= p)%nat -> o' p = o p) -> derivative (fun x => F x o') t (G o')) ->
  derivative (fun x => total (K := CC) l (F x) o) t (total (K := CC) l G o).
Proof.
  induction l as [|l IH]; intros F G t o H; cbn [total]; [apply H; reflexivity|].
  refine (d_add (fun x => total (K := CC) l (F x) (put l false o)) (fun x => total (K := CC) l (F x) (put l true o)) t _ _ _ _); apply IH; intros o' Ho; apply H; intros p Hp; rewrite Ho by lia; apply put_other; lia.
Qed.
Lemma d_inner n F G t f g : moving n F t f -> moving n G t g -> derivative (fun x => inner n (F x) (G x)) t (inner n f (G t) + inner n (F t) g)%C.
Proof.
  intros HF HG. unfold inner.
  assert (E : forall a b : occupation -> C, (total (K := CC) n a (fun _ => false) + total (K := CC) n b (fun _ => false))%C = total (K := CC) n (fun o => (a o + b o)%C) (fun _ => false)).
  { intros a b. symmetry. apply (total_add CC). }
  rewrite E. apply d_total. intros o Ho. assert (A : among n o) by (intros p Hp; apply Ho, Hp).
  apply (d_mul (fun x => Cconj (F x o)) (fun x => G x o) t (Cconj (f o)) (g o)); [apply d_conj, HF, A | apply HG, A].
Qed.
Lemma moving_create n p F t f : (p < n)%nat -> moving n F t f -> moving n (fun x => create p (F x)) t (create p f).
Proof.
  intros Hp H o A. unfold create. destruct (o p); [|apply d_const]. apply (d_scal (parity (K := CC) p o) (fun x => F x (put p false o))), H, among_put; assumption.
Qed.
Lemma moving_annihilate n p F t f : (p < n)%nat -> moving n F t f -> moving n (fun x => annihilate p (F x)) t (annihilate p f).
Proof.
  intros Hp H o A. unfold annihilate. destruct (o p); [apply d_const|]. apply (d_scal (parity (K := CC) p o) (fun x => F x (put p true o))), H, among_put; assumption.
Qed.
Lemma moving_one n (h : R -> nat -> nat -> C) h' F t f : (forall p q, (p < n)%nat -> (q < n)%nat -> derivative (fun x => h x p q) t (h' p q)) ->
  moving n F t f -> moving n (fun x => one_body (K := CC) n (h x) (F x)) t (fun o => (one_body (K := CC) n h' (F t) o + one_body (K := CC) n (h t) f o)%C).
Proof.
  intros Hh HF o A. unfold one_body.
  match goal with |- derivative _ _ (?a + ?b)%C => replace (a + b)%C with (S_ n (fun p => S_ n (fun q => (h' p q * create p (annihilate q (F t)) o + h t p q * create p (annihilate q f) o)%C))) end.
  - apply d_sum. intros p Hp. apply d_sum. intros q Hq. apply (d_mul (fun x => h x p q) (fun x => create p (annihilate q (F x)) o)); [apply Hh; assumption|].
    exact (moving_create n p _ t _ Hp (moving_annihilate n q F t f Hq HF) o A).
  - etransitivity; [|apply csum_add]. apply csum_ext. intros p Hp. apply csum_add.
Qed.
Lemma moving_two n (u : R -> nat -> nat -> nat -> nat -> C) u' F t f :
  (forall p q r s, (p < n)%nat -> (q < n)%nat -> (r < n)%nat -> (s < n)%nat -> derivative (fun x => u x p q r s) t (u' p q r s)) ->
  moving n F t f -> moving n (fun x => two_body (K := CC) n (u x) (F x)) t (fun o => (two_body (K := CC) n u' (F t) o + two_body (K := CC) n (u t) f o)%C).
Proof.
  intros Hu HF o A. unfold two_body. set (X := fun p q r s (g : state) => create p (create q (annihilate s (annihilate r g)))).
  match goal with |- derivative _ _ (?a + ?b)%C => replace (a + b)%C with (S_ n (fun p => S_ n (fun q => S_ n (fun r => S_ n (fun s => (u' p q r s * X p q r s (F t) o + u t p q r s * X p q r s f o)%C))))) end.
  - apply d_sum. intros p Hp. apply d_sum. intros q Hq. apply d_sum. intros r Hr. apply d_sum. intros s Hs.
    apply (d_mul (fun x => u x p q r s) (fun x => X p q r s (F x) o)); [apply Hu; assumption|]. unfold X.
    exact (moving_create n p _ t _ Hp (moving_create n q _ t _ Hq (moving_annihilate n s _ t _ Hs (moving_annihilate n r F t f Hr HF))) o A).
  - etransitivity; [|apply csum_add]. apply csum_ext. intros p Hp. etransitivity; [|apply csum_add]. apply csum_ext. intros q Hq. etransitivity; [|apply csum_add]. apply csum_ext. intros r Hr. apply csum_add.
Qed.
Lemma moving_hamiltonian n c (h : R -> nat -> nat -> C) h' (u : R -> nat -> nat -> nat -> nat -> C) u' F t f :
  (forall p q, (p < n)%nat -> (q < n)%nat -> derivative (fun x => h x p q) t (h' p q)) ->
  (forall p q r s, (p < n)%nat -> (q < n)%nat -> (r < n)%nat -> (s < n)%nat -> derivative (fun x => u x p q r s) t (u' p q r s)) ->
  moving n F t f ->
  moving n (fun x => hamiltonian (K := CC) n c (h x) (u x) (F x)) t (fun o => (hamiltonian (K := CC) n c h' u' (F t) o + hamiltonian (K := CC) n c (h t) (u t) f o)%C).
Proof.
  intros Hh Hu HF o A. unfold hamiltonian. change (@sadd CC) with Cplus. change (@smul CC) with Cmult.
  set (a := one_body (K := CC) n h' (F t) o). set (b := two_body (K := CC) n u' (F t) o). set (a' := one_body (K := CC) n (h t) f o). set (b' := two_body (K := CC) n (u t) f o).
  replace (a + c * b + (a' + c * b'))%C with ((a + a') + c * (b + b'))%C by (cx; ring).
  refine (d_add (fun x => one_body (K := CC) n (h x) (F x) o) (fun x => (c * two_body (K := CC) n (u x) (F x) o)%C) t _ _ _ _); [apply (moving_one n h h' F t f Hh HF o A)|]. apply (d_scal c (fun x => two_body (K := CC) n (u x) (F x) o)). apply (moving_two n u u' F t f Hu HF o A).
Qed.
Lemma moving_many k l (h : R -> nat -> nat -> C) h' (u : R -> nat -> nat -> nat -> nat -> C) u' F t f :
  (forall p q, (p < l)%nat -> (q < l)%nat -> derivative (fun x => h x p q) t (h' p q)) ->
  (forall p q r s, (p < l)%nat -> (q < l)%nat -> (r < l)%nat -> (s < l)%nat -> derivative (fun x => u x p q r s) t (u' p q r s)) ->
  moving (spin_orbitals k l) F t f ->
  moving (spin_orbitals k l) (fun x => many_body k l (h x) (u x) (F x)) t (fun o => (many_body k l h' u' (F t) o + many_body k l (h t) (u t) f o)%C).
Proof.
  intros Hh Hu HF. destruct k; cbn [spin_orbitals many_body] in *; [apply moving_hamiltonian; assumption|].
  apply (moving_hamiltonian (2 * l) _ (fun x => dbl1 (K := CC) (h x)) (dbl1 (K := CC) h') (fun x => dbl2 (K := CC) (u x)) (dbl2 (K := CC) u')); [| |exact HF].
  - intros p q Hp Hq. unfold dbl1. destruct (same_parity _ _); [|apply d_const]. apply Hh; apply Nat.div_lt_upper_bound; lia.
  - intros p q r s Hp Hq Hr Hs. unfold dbl2. destruct (_ && _); [|apply d_const]. apply Hu; apply Nat.div_lt_upper_bound; lia.
Qed.
