(** Creation is the adjoint of annihilation; Hermitian operators. *)
From Coq Require Import List Arith Lia Bool Setoid Ring.
From Verif Require Import Scalar Spec FockSpec FockProofs InnerSpec.
Import ListNotations.

Section InnerProofs.
  Variable K : scalar.
  Local Open Scope K_scope.
  Add Ring KringIP : (s_ring K).
  Notation state := (state K).
  Implicit Types (f g : state) (o : occupation) (F G : occupation -> K).

  Lemma total_ext l : forall F G o, (forall o', (forall p, (l <= p)%nat -> o' p = o p) -> F o' = G o') -> total l F o = total l G o.
  Proof.
    induction l as [|l IH]; intros F G o H; cbn [total]; [apply H; reflexivity|].
    f_equal; apply IH; intros o' Ho; apply H; intros p Hp; rewrite Ho by lia; apply put_other; lia.
  Qed.
  Lemma total_base l : forall F o o', proper F -> (forall p, (l <= p)%nat -> o p = o' p) -> total l F o = total l F o'.
  Proof.
    induction l as [|l IH]; intros F o o' PF H; cbn [total]; [apply PF; intros p; apply H; lia|].
    f_equal; apply IH; try exact PF; intros p Hp; unfold put; destruct (Nat.eqb_spec p l); [reflexivity | apply H; lia | reflexivity | apply H; lia].
  Qed.
  Lemma total_add l : forall F G o, total l (fun o => F o + G o) o = total l F o + total l G o.
  Proof. induction l as [|l IH]; intros F G o; cbn [total]; [reflexivity|]. rewrite !IH. ring. Qed.
  Lemma total_scal l (c : K) : forall F o, total l (fun o => c * F o) o = c * total l F o.
  Proof. induction l as [|l IH]; intros F o; cbn [total]; [reflexivity|]. rewrite !IH. ring. Qed.
  Lemma total_zero l : forall o, total l (fun _ => 0 : K) o = 0.
  Proof. induction l as [|l IH]; intros o; cbn [total]; [reflexivity|]. rewrite !IH. ring. Qed.
  Lemma total_sum l n (F : nat -> occupation -> K) o : total l (fun o => sumn n (fun k => F k o)) o = sumn n (fun k => total l (F k) o).
  Proof. induction n as [|n IH]; cbn [sumn]; [apply total_zero|]. rewrite total_add, IH. reflexivity. Qed.
  Lemma total_conj l : forall F o, sconj (total l F o) = total l (fun o => sconj (F o)) o.
  Proof. induction l as [|l IH]; intros F o; cbn [total]; [reflexivity|]. rewrite conj_add, !IH. reflexivity. Qed.
  (** Move one spin-orbital out of the base *)
  Lemma total_shift l q x : (l <= q)%nat -> forall F o, proper F -> total l (fun o => F (put q x o)) o = total l F (put q x o).
  Proof.
    induction l as [|l IH]; intros H F o PF; cbn [total]; [reflexivity|]. rewrite !IH by (assumption || lia).
    f_equal; apply total_base; try exact PF; intros p _; apply put_swap; lia.
  Qed.
  (** Sum over one spin-orbital first *)
  Lemma total_at l p : (p < l)%nat -> forall F o, proper F -> total l F o = total l (fun o => if o p then 0 else F o + F (put p true o)) o.
  Proof.
    induction l as [|l IH]; intros H F o PF; [lia|]. cbn [total]. destruct (Nat.eq_dec p l) as [->|N].
    - set (G := fun o => if o l then 0 else F o + F (put l true o)).
      assert (E1 : total l G (put l false o) = total l (fun o => F o + F (put l true o)) (put l false o)).
      { apply total_ext. intros o' Ho. unfold G. rewrite (Ho l) by lia. rewrite put_same. reflexivity. }
      assert (E2 : total l G (put l true o) = total l (fun _ => 0) (put l true o)).
      { apply total_ext. intros o' Ho. unfold G. rewrite (Ho l) by lia. rewrite put_same. reflexivity. }
      rewrite E1, E2, total_add, total_zero, (total_shift l l true (le_n l) F _ PF).
      rewrite (total_base l F (put l true (put l false o)) (put l true o) PF); [ring|]. intros q _. apply put_put.
    - f_equal; apply IH; try exact PF; lia.
  Qed.

  Lemma conj_parity p o : sconj (parity p o : K) = parity p o.
  Proof. induction p as [|p IH]; cbn [parity]; [apply conj_1|]. destruct (o p); [rewrite conj_opp, IH|]; [reflexivity | exact IH]. Qed.
  Lemma prod_proper f g : proper f -> proper g -> proper (fun o => sconj (f o) * g o).
  Proof. intros Hf Hg o o' E. cbv beta. rewrite (Hf o o' E), (Hg o o' E). reflexivity. Qed.
  (** Creation is the adjoint of annihilation. *)
  Lemma adjoint l p f g : (p < l)%nat -> proper f -> proper g -> inner l (create p f) g = inner l f (annihilate p g).
  Proof.
    intros H Pf Pg. unfold inner.
    rewrite (total_at l p H _ _ (prod_proper _ _ (create_proper K p f Pf) Pg)).
    rewrite (total_at l p H _ _ (prod_proper _ _ Pf (annihilate_proper K p g Pg))).
    apply total_ext. intros o _. destruct (o p) eqn:Eo; [reflexivity|].
    unfold create, annihilate. rewrite Eo, !put_same, parity_above by lia.
    assert (E : f (put p false (put p true o)) = f o).
    { apply Pf. intros q. rewrite (put_put p false true o q). apply put_id, Eo. }
    rewrite E, !conj_mul, conj_parity, conj_0. ring.
  Qed.
  Lemma inner_conj l f g : sconj (inner l f g) = inner l g f.
  Proof. unfold inner. rewrite total_conj. apply total_ext. intros o _. rewrite conj_mul, conj_invol. ring. Qed.
  Lemma adjoint' l p f g : (p < l)%nat -> proper f -> proper g -> inner l (annihilate p f) g = inner l f (create p g).
  Proof. intros H Pf Pg. rewrite <- (inner_conj l g), <- (adjoint l p g f H Pg Pf), inner_conj. reflexivity. Qed.
  Lemma inner_ext l f g g' : (forall o, g o = g' o) -> inner l f g = inner l f g'.
  Proof. intros H. unfold inner. apply total_ext. intros o _. rewrite H. reflexivity. Qed.
  Lemma inner_ext_among l f g g' : (forall o, among l o -> g o = g' o) -> inner l f g = inner l f g'.
  Proof. intros H. unfold inner. apply total_ext. intros o Ho. rewrite H; [reflexivity|]. intros p Hp. apply (Ho p Hp). Qed.
  Lemma inner_scal l f (c : K) g : inner l f (fun o => c * g o) = c * inner l f g.
  Proof. unfold inner. rewrite <- total_scal. apply total_ext. intros o _. ring. Qed.
  Lemma inner_add l f g g' : inner l f (fun o => g o + g' o) = inner l f g + inner l f g'.
  Proof. unfold inner. rewrite <- total_add. apply total_ext. intros o _. ring. Qed.
  Lemma inner_sum l f n (g : nat -> state) : inner l f (fun o => sumn n (fun k => g k o)) = sumn n (fun k => inner l f (g k)).
  Proof. unfold inner. rewrite <- total_sum. apply total_ext. intros o _. rewrite sumn_mul_l. reflexivity. Qed.

  (** ** One- and two-body operators *)
  Lemma inner_one l A f g : proper f -> proper g ->
    inner l f (one_body l A g) = sumn l (fun p => sumn l (fun q => A p q * inner l (annihilate p f) (annihilate q g))).
  Proof.
    intros Pf Pg. unfold one_body. rewrite inner_sum. apply sumn_ext. intros p Hp. rewrite inner_sum. apply sumn_ext. intros q Hq. rewrite inner_scal. f_equal.
    symmetry. apply adjoint'; [exact Hp | exact Pf | apply annihilate_proper, Pg].
  Qed.
  Lemma inner_two l U f g : proper f -> proper g ->
    inner l f (two_body l U g) = sumn l (fun p => sumn l (fun q => sumn l (fun r => sumn l (fun s =>
      U p q r s * inner l (annihilate q (annihilate p f)) (annihilate s (annihilate r g)))))).
  Proof.
    intros Pf Pg. unfold two_body. rewrite inner_sum. apply sumn_ext. intros p Hp. rewrite inner_sum. apply sumn_ext. intros q Hq. rewrite inner_sum. apply sumn_ext. intros r Hr.
    rewrite inner_sum. apply sumn_ext. intros s Hs. rewrite inner_scal. f_equal.
    rewrite (adjoint' l q) by (try apply annihilate_proper; try apply annihilate_proper; assumption).
    rewrite (adjoint' l p); [reflexivity | exact Hp | exact Pf |]. apply create_proper, annihilate_proper, annihilate_proper, Pg.
  Qed.
  Lemma one_adjoint l A f g : hermitian l A -> proper f -> proper g -> inner l f (one_body l A g) = inner l (one_body l A f) g.
  Proof.
    intros HA Pf Pg. rewrite <- (inner_conj l g (one_body l A f)), !inner_one by assumption. rewrite !sumn_conj. rewrite sumn_swap. apply sumn_ext. intros p Hp. rewrite sumn_conj. apply sumn_ext. intros q Hq.
    rewrite conj_mul, inner_conj, <- (HA q p) by assumption. reflexivity.
  Qed.
  Lemma two_adjoint l U f g : hermitian2 l U -> proper f -> proper g -> inner l f (two_body l U g) = inner l (two_body l U f) g.
  Proof.
    intros HU Pf Pg. rewrite <- (inner_conj l g (two_body l U f)), !inner_two by assumption. rewrite sumn_conj.
    transitivity (sumn l (fun r => sumn l (fun s => sumn l (fun p => sumn l (fun q => U p q r s * inner l (annihilate q (annihilate p f)) (annihilate s (annihilate r g))))))).
    - transitivity (sumn l (fun p => sumn l (fun r => sumn l (fun s => sumn l (fun q => U p q r s * inner l (annihilate q (annihilate p f)) (annihilate s (annihilate r g))))))).
      + apply sumn_ext. intros p _. rewrite sumn_swap. apply sumn_ext. intros r _. apply sumn_swap.
      + rewrite sumn_swap. apply sumn_ext. intros r _. apply sumn_swap.
    - apply sumn_ext. intros r Hr. rewrite sumn_conj. apply sumn_ext. intros s Hs. rewrite sumn_conj. apply sumn_ext. intros p Hp. rewrite sumn_conj. apply sumn_ext. intros q Hq.
      rewrite conj_mul, inner_conj, <- (HU p q r s) by assumption. reflexivity.
  Qed.
  Lemma ham_adjoint l x h u f g : sconj x = x -> hermitian l h -> hermitian2 l u -> proper f -> proper g ->
    inner l f (hamiltonian l x h u g) = inner l (hamiltonian l x h u f) g.
  Proof.
    intros Hx Hh Hu Pf Pg. unfold hamiltonian. rewrite inner_add, inner_scal, one_adjoint, two_adjoint by assumption.
    rewrite <- (inner_conj l g (fun o => one_body l h f o + x * two_body l u f o)), inner_add, inner_scal, conj_add, conj_mul, !inner_conj, Hx. reflexivity.
  Qed.
  Lemma quarter_conj : sconj (quarter : K) = quarter.
  Proof. unfold quarter. rewrite conj_mul, conj_half. reflexivity. Qed.
  Lemma eqb_flip a b : Bool.eqb a b = Bool.eqb b a.
  Proof. destruct a, b; reflexivity. Qed.
  Lemma dbl1_hermitian l (h : nat -> nat -> K) : hermitian l h -> hermitian (2 * l) (dbl1 h).
  Proof.
    intros H P Q HP HQ. unfold dbl1, same_parity. rewrite (eqb_flip (Nat.even Q)). destruct (Bool.eqb _ _); [|rewrite conj_0; reflexivity]. apply H; apply Nat.div_lt_upper_bound; lia.
  Qed.
  Lemma dbl2_hermitian l (u : nat -> nat -> nat -> nat -> K) : hermitian2 l u -> hermitian2 (2 * l) (dbl2 u).
  Proof.
    intros H P Q R S HP HQ HR HS. unfold dbl2, same_parity. rewrite (eqb_flip (Nat.even R)), (eqb_flip (Nat.even S)). destruct (Bool.eqb _ _ && Bool.eqb _ _)%bool; [|rewrite conj_0; reflexivity].
    apply H; apply Nat.div_lt_upper_bound; lia.
  Qed.
  Lemma exch_hermitian l (u : nat -> nat -> nat -> nat -> K) : hermitian2 l u -> particle_sym l u -> hermitian2 l (exch u).
  Proof.
    intros H P p q r s Hp Hq Hr Hs. unfold exch. rewrite conj_sub, <- (H p q r s), (P r s q p) by assumption. rewrite <- (H p q s r) by assumption. reflexivity.
  Qed.
  (** ** Eigenstates *)
  Lemma eigen_inner l X E f g : eigenstate l X E f -> inner l g (X f) = E * inner l g f.
  Proof. intros (_ & _ & H). rewrite (inner_ext_among l g (X f) (fun o => E * f o) H). apply inner_scal. Qed.
  Lemma eigen_orthogonal l X E E' f g : (forall f g, proper f -> proper g -> inner l f (X g) = inner l (X f) g) ->
    eigenstate l X E f -> eigenstate l X E' g -> sconj E' * inner l g f = E * inner l g f.
  Proof.
    intros H Hf Hg. rewrite <- (eigen_inner l X E f g Hf), (H g f) by (apply Hf || apply Hg).
    rewrite <- (inner_conj l f (X g)), (eigen_inner l X E' g f Hg), conj_mul, inner_conj. reflexivity.
  Qed.
End InnerProofs.
