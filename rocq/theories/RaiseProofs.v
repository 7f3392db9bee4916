(** Repulsive interactions raise energies, for two particles and for any number. *)
From Coq Require Import List Arith ZArith Reals Lra Lia Bool.
From Coquelicot Require Import Coquelicot.
From Verif Require Import Scalar ScalarC Spec OneDim OneDimProofs DotProofs GridSpec GridProofs DvrSpec PositiveForms KineticSpec RaiseSpec.
From Verif Require Import FockSpec FockProofs InnerSpec InnerProofs EnergyProofs.
Open Scope R_scope.
Local Notation S_ := (sumn (K := CC)).

Section Split.
  Variable K : scalar.
  Add Ring KringRP : (s_ring K).
  Local Open Scope K_scope.
  Lemma split22 n (A B : nat -> nat -> K) :
    sumn n (fun p => sumn n (fun q => sumn n (fun r => sumn n (fun s => A p q * B r s)))) = sumn n (fun p => sumn n (fun q => A p q)) * sumn n (fun r => sumn n (fun s => B r s)).
  Proof.
    rewrite sumn_mul_r. apply sumn_ext. intros p _. rewrite sumn_mul_r. apply sumn_ext. intros q _. rewrite sumn_mul_l. apply sumn_ext. intros r _. rewrite sumn_mul_l. reflexivity.
  Qed.
End Split.
Lemma conj_sum2 l (c : nat -> nat -> C) : Cconj (S_ l (fun p => S_ l (fun q => c p q))) = S_ l (fun p => S_ l (fun q => Cconj (c p q))).
Proof. change Cconj with (@sconj CC) at 1. rewrite (sumn_conj CC). apply csum_ext; intros p _. rewrite (sumn_conj CC). reflexivity. Qed.
Lemma nonneg_add (y z : C) : nonneg y -> nonneg z -> nonneg (y + z)%C.
Proof. intros [A B] [D E]. destruct y as [a b], z as [c d]. cbn in *. split; cbn; lra. Qed.
Lemma conj_prod (a b : C) : Cconj (a * b)%C = (Cconj a * Cconj b)%C.
Proof. exact (conj_mul CC a b). Qed.

(** ** Weights and amplitudes *)
Lemma raising_gram l N (F : nat -> nat -> nat -> nat -> C) (W : nat -> nat -> R) u :
  (forall i j, 0 <= W i j) ->
  (forall p q r s, (p < l)%nat -> (q < l)%nat -> (r < l)%nat -> (s < l)%nat -> u p q r s = S_ N (fun i => S_ N (fun j => (RtoC (W i j) * (Cconj (F p q i j) * F r s i j))%C))) ->
  raising l u.
Proof.
  intros HW Hu c. unfold pair_energy.
  set (Z i j := S_ l (fun r => S_ l (fun s => (c r s * F r s i j)%C))).
  match goal with |- nonneg ?w => replace w with (S_ N (fun i => S_ N (fun j => (RtoC (W i j) * (Cconj (Z i j) * Z i j))%C))) end.
  - apply (nonneg_sum N). intros i _. apply (nonneg_sum N). intros j _. apply nonneg_scal; [apply HW | apply nonneg_square].
  - symmetry. transitivity (S_ l (fun p => S_ l (fun q => S_ l (fun r => S_ l (fun s => S_ N (fun i => S_ N (fun j => ((RtoC (W i j) * (Cconj (c p q) * Cconj (F p q i j))) * (c r s * F r s i j))%C))))))).
    + apply csum_ext; intros p Hp. apply csum_ext; intros q Hq. apply csum_ext; intros r Hr. apply csum_ext; intros s Hs. rewrite Hu by assumption.
      match goal with |- (?a * ?b * ?d)%C = _ => transitivity ((a * d) * b)%C; [cx; ring|] end.
      rewrite csum_scal. apply csum_ext; intros i _. rewrite csum_scal. apply csum_ext; intros j _. cx. ring.
    + rewrite (sum_out4 CC). apply csum_ext; intros i _. apply csum_ext; intros j _.
      pose proof (split22 CC l (fun p q => (RtoC (W i j) * (Cconj (c p q) * Cconj (F p q i j)))%C) (fun r s => (c r s * F r s i j)%C)) as E. cbn beta in E.
      etransitivity; [exact E|]. change (@smul CC) with Cmult. fold (Z i j). rewrite Cmult_assoc. f_equal.
      unfold Z. rewrite conj_sum2, csum_scal. apply csum_ext; intros p _. rewrite csum_scal. apply csum_ext; intros q _. rewrite conj_prod. reflexivity.
Qed.
Lemma raising_ext l u u' : (forall p q r s, (p < l)%nat -> (q < l)%nat -> (r < l)%nat -> (s < l)%nat -> u p q r s = u' p q r s) -> raising l u -> raising l u'.
Proof.
  intros E P c. specialize (P c). match goal with |- nonneg ?w => match type of P with nonneg ?w' => replace w with w' end end; [exact P|].
  unfold pair_energy. apply csum_ext; intros p Hp. apply csum_ext; intros q Hq. apply csum_ext; intros r Hr. apply csum_ext; intros s Hs. rewrite E by assumption. reflexivity.
Qed.
(** Between points *)
Lemma spread_energy l v c : pair_energy l (spread (K := CC) v) c = S_ l (fun p => S_ l (fun q => (v p q * (Cconj (c p q) * c p q))%C)).
Proof.
  unfold pair_energy. apply csum_ext; intros p Hp. apply csum_ext; intros q Hq. rewrite (sumn_pick CC l p); [|exact Hp|].
  - rewrite (sumn_pick CC l q); [|exact Hq|].
    + unfold spread. rewrite !Nat.eqb_refl. cbn [andb]. cx. ring.
    + intros k _ Nk. unfold spread. rewrite (proj2 (Nat.eqb_neq q k)) by congruence. rewrite andb_false_r. change (@s0 CC) with (RtoC 0). cx. ring.
  - intros k _ Nk. apply csum_zero; intros s _. unfold spread. rewrite (proj2 (Nat.eqb_neq p k)) by congruence. cbn [andb]. change (@s0 CC) with (RtoC 0). cx. ring.
Qed.
Lemma spread_raising l v : (forall p q, (p < l)%nat -> (q < l)%nat -> nonneg (v p q)) -> raising l (spread (K := CC) v).
Proof.
  intros Hv c. rewrite spread_energy. apply (nonneg_sum l). intros p Hp. apply (nonneg_sum l). intros q Hq.
  destruct (Hv p q Hp Hq) as [A B]. replace (v p q) with (RtoC (Re (v p q))); [apply nonneg_scal; [exact B | apply nonneg_square]|].
  destruct (v p q) as [x y]. cbn in *. subst y. reflexivity.
Qed.
(** On a grid *)
Lemma orbitals_raising (spf : nat -> nat -> C) N (grid : nat -> R) alpha a l : 0 <= alpha -> a <> 0 -> raising l (orbital_integral spf N grid alpha a).
Proof.
  intros Halpha Ha.
  apply (raising_gram l N (fun p q i j => (spf p i * spf q j)%C) (fun i j => (grid 1%nat - grid 0%nat) * wt N i * ((grid 1%nat - grid 0%nat) * wt N j) * shielded_coulomb (grid i) (grid j) alpha a)).
  - intros i j. replace ((grid 1%nat - grid 0%nat) * wt N i * ((grid 1%nat - grid 0%nat) * wt N j)) with ((grid 1%nat - grid 0%nat) ^ 2 * (wt N i * wt N j)) by ring.
    apply Rmult_le_pos; [apply Rmult_le_pos; [apply pow2_ge_0 | apply Rmult_le_pos; unfold wt; destruct (_ =? _)%nat, (_ =? _)%nat; lra] | apply v_nonneg; assumption].
  - intros p q r s _ _ _ _. rewrite u_sums. apply csum_ext; intros i _. apply csum_ext; intros j _. rewrite conj_prod, !RtoC_mult. cx. ring.
Qed.
(** In another basis *)
Lemma transformed_raising l k (u u' : nat -> nat -> nat -> nat -> C) (c : nat -> nat -> C) : raising l u ->
  (forall p q r s, (p < k)%nat -> (q < k)%nat -> (r < k)%nat -> (s < k)%nat -> u' p q r s =
    S_ l (fun a => S_ l (fun b => S_ l (fun d => S_ l (fun e => (Cconj (c a p) * Cconj (c b q) * u a b d e * c d r * c e s)%C))))) ->
  raising k u'.
Proof.
  intros P Hu x. unfold pair_energy.
  set (y a b := S_ k (fun p => S_ k (fun q => (x p q * (c a p * c b q))%C))).
  specialize (P y). match goal with |- nonneg ?w => replace w with (pair_energy l u y) end; [exact P|]. unfold pair_energy.
  symmetry. transitivity (S_ k (fun p => S_ k (fun q => S_ k (fun r => S_ k (fun s => S_ l (fun a => S_ l (fun b => S_ l (fun d => S_ l (fun e =>
    ((Cconj (x p q) * (Cconj (c a p) * Cconj (c b q)) * u a b d e) * (x r s * (c d r * c e s)))%C))))))))).
  - apply csum_ext; intros p Hp. apply csum_ext; intros q Hq. apply csum_ext; intros r Hr. apply csum_ext; intros s Hs. rewrite Hu by assumption.
    match goal with |- (?a * ?b * ?d)%C = _ => transitivity ((a * d) * b)%C; [cx; ring|] end.
    rewrite csum_scal. apply csum_ext; intros a _. rewrite csum_scal. apply csum_ext; intros b _. rewrite csum_scal. apply csum_ext; intros d _. rewrite csum_scal. apply csum_ext; intros e _. cx. ring.
  - rewrite (sum_out44 CC). apply csum_ext; intros a _. apply csum_ext; intros b _. apply csum_ext; intros d _. apply csum_ext; intros e _.
    pose proof (split22 CC k (fun p q => (Cconj (x p q) * (Cconj (c a p) * Cconj (c b q)) * u a b d e)%C) (fun r s => (x r s * (c d r * c e s))%C)) as E. cbn beta in E.
    etransitivity; [exact E|]. change (@smul CC) with Cmult. fold (y d e). f_equal. unfold y. rewrite conj_sum2.
    match goal with |- _ = (?m * ?w)%C => transitivity (w * m)%C; [|cx; ring] end.
    rewrite csum_scal. apply csum_ext; intros p _. rewrite csum_scal. apply csum_ext; intros q _. rewrite !conj_prod. cx. ring.
Qed.
(** With spin *)
Lemma doubled_raising l u : raising l u -> raising (2 * l) (dbl2 (K := CC) u).
Proof.
  intros P x.
  assert (E : pair_energy (2 * l) (dbl2 (K := CC) u) x =
    (pair_energy l u (fun p q => x (2 * p)%nat (2 * q)%nat) + pair_energy l u (fun p q => x (2 * p)%nat (2 * q + 1)%nat) +
     (pair_energy l u (fun p q => x (2 * p + 1)%nat (2 * q)%nat) + pair_energy l u (fun p q => x (2 * p + 1)%nat (2 * q + 1)%nat)))%C).
  { transitivity (S_ l (fun p => S_ l (fun q => S_ l (fun r => S_ l (fun s =>
      (Cconj (x (2 * p)%nat (2 * q)%nat) * u p q r s * x (2 * r)%nat (2 * s)%nat + Cconj (x (2 * p)%nat (2 * q + 1)%nat) * u p q r s * x (2 * r)%nat (2 * s + 1)%nat +
       (Cconj (x (2 * p + 1)%nat (2 * q)%nat) * u p q r s * x (2 * r + 1)%nat (2 * s)%nat + Cconj (x (2 * p + 1)%nat (2 * q + 1)%nat) * u p q r s * x (2 * r + 1)%nat (2 * s + 1)%nat))%C))))).
    - unfold pair_energy. rewrite (sumn_double CC). apply csum_ext; intros p _. rewrite !(sumn_double CC), <- (sumn_add CC). apply csum_ext; intros q _.
      rewrite !(sumn_double CC), <- !(sumn_add CC). apply csum_ext; intros r _. rewrite !(sumn_double CC), <- !(sumn_add CC). apply csum_ext; intros s _.
      unfold dbl2, same_parity. rewrite ?(even_2k), ?(even_2k1), ?(div_2k), ?(div_2k1). cbn [Bool.eqb andb]. change (@s0 CC) with (RtoC 0). change (@sadd CC) with Cplus. cx. ring.
    - unfold pair_energy. rewrite <- !csum_add. apply csum_ext; intros p _. rewrite <- !csum_add. apply csum_ext; intros q _. rewrite <- !csum_add. apply csum_ext; intros r _. rewrite <- !csum_add. reflexivity. }
  rewrite E. repeat apply nonneg_add; apply P.
Qed.

(** ** Fock space *)
Lemma total_nonneg l : forall (F : occupation -> C) o, (forall o, nonneg (F o)) -> nonneg (total (K := CC) l F o).
Proof. induction l as [|l IH]; intros F o H; cbn [total]; [apply H|]. apply nonneg_add; apply IH, H. Qed.
Lemma total_above l : forall (F : state CC) o o', proper F -> (forall o, nonneg (F o)) -> (forall p, (l <= p)%nat -> o' p = o p) -> Re (F o') <= Re (total (K := CC) l F o).
Proof.
  induction l as [|l IH]; intros F o o' PF H A; cbn [total].
  - right. f_equal. apply PF. intros p. apply A. lia.
  - set (T0 := total (K := CC) l F (put l false o)). set (T1 := total (K := CC) l F (put l true o)). change (Re (F o') <= Re T0 + Re T1).
    pose proof (total_nonneg l F (put l false o) H) as [_ N0]. pose proof (total_nonneg l F (put l true o) H) as [_ N1]. fold T0 in N0. fold T1 in N1.
    assert (Q : forall p, (l <= p)%nat -> o' p = put l (o' l) o p). { intros p Hp. unfold put. destruct (Nat.eqb_spec p l) as [->|N]; [reflexivity | apply A; lia]. }
    pose proof (IH F (put l (o' l) o) o' PF H Q) as I. destruct (o' l); [fold T1 in I | fold T0 in I]; lra.
Qed.
Lemma inner_nonneg l (f : state CC) : nonneg (inner l f f).
Proof. apply total_nonneg. intros o. apply nonneg_square. Qed.
Lemma square_null (z : C) : Re (Cconj z * z)%C <= 0 -> z = RtoC 0.
Proof.
  destruct z as [x y]. cbn. intros H. pose proof (Rle_0_sqr x) as X. pose proof (Rle_0_sqr y) as Y. unfold Rsqr in *.
  assert (x * x = 0) as X0 by lra. assert (y * y = 0) as Y0 by lra. apply Rmult_integral in X0, Y0. unfold RtoC. f_equal; tauto.
Qed.
Lemma inner_null l (f : state CC) : proper f -> Re (inner l f f) <= 0 -> forall o, among l o -> f o = RtoC 0.
Proof.
  intros Pf H o A. apply square_null. eapply Rle_trans; [|exact H].
  apply (total_above l (fun o => (Cconj (f o) * f o)%C) (fun _ => false) o); [exact (prod_proper CC f f Pf Pf) | intros; apply nonneg_square | exact A].
Qed.
Lemma eigen_norm l X (E : C) (f : state CC) : eigenstate (K := CC) l X E f -> 0 < Re (inner l f f).
Proof.
  intros (Pf & (o & A & N) & _). destruct (Rlt_le_dec 0 (Re (inner l f f))) as [H|H]; [exact H|]. exfalso. apply N, (inner_null l f Pf H o A).
Qed.
Lemma nonneg_re z : nonneg z -> z = RtoC (Re z).
Proof. destruct z as [x y]. intros [A _]. cbn in *. subst y. reflexivity. Qed.
Lemma eigen_value l X (E : C) (f : state CC) : eigenstate (K := CC) l X E f -> inner l f (X f) = (E * RtoC (Re (inner l f f)))%C.
Proof. intros H. rewrite (eigen_inner CC l X E f f H). rewrite <- (nonneg_re _ (inner_nonneg l f)). reflexivity. Qed.
Definition symmetric_operator (l : nat) (X : state CC -> state CC) : Prop := forall f g, proper f -> proper g -> inner l f (X g) = inner l (X f) g.
Lemma symmetric_real l X (f : state CC) : symmetric_operator l X -> proper f -> Im (inner l f (X f)) = 0.
Proof.
  intros H Pf. pose proof (inner_conj CC l f (X f)) as C. rewrite <- (H f f Pf Pf) in C. change (@sconj CC) with Cconj in C. destruct (inner l f (X f)) as [x y]. cbn in *. injection C as C. lra.
Qed.
Lemma eigen_real l X (E : C) f : symmetric_operator l X -> eigenstate (K := CC) l X E f -> Im E = 0.
Proof.
  intros H Hf. pose proof (symmetric_real l X f H (proj1 Hf)) as I. pose proof (eigen_norm l X E f Hf) as N. rewrite (eigen_value l X E f Hf) in I. destruct E as [x y]. cbn in *.
  set (n := fst (inner l f f)) in *. change (Re (inner l f f)) with n in *. assert (y * n = 0) as Z by lra. apply Rmult_integral in Z. destruct Z; [assumption | lra].
Qed.
Lemma eigen_apart l X (E E' : C) f g : symmetric_operator l X -> eigenstate (K := CC) l X E f -> eigenstate (K := CC) l X E' g -> E <> E' -> inner l g f = RtoC 0.
Proof.
  intros H Hf Hg N. pose proof (eigen_orthogonal CC l X E E' f g H Hf Hg) as O. pose proof (eigen_real l X E' g H Hg) as R'.
  assert (C : @sconj CC E' = E') by (destruct E' as [x y]; cbn in *; unfold Cconj; cbn; f_equal; lra). rewrite C in O. change (@smul CC) with Cmult in O.
  destruct (Ceq_dec (inner l g f) (RtoC 0)) as [Z|Z]; [exact Z|]. exfalso. apply N.
  assert (D : ((E - E') * inner l g f)%C = RtoC 0) by (transitivity (E * inner l g f - E' * inner l g f)%C; [cx; ring | rewrite O; cx; ring]).
  destruct (Ceq_dec (E - E')%C (RtoC 0)) as [W|W].
  - transitivity (E - E' + E')%C; [cx; ring | rewrite W; cx; ring].
  - exfalso. exact (Cmult_neq_0 _ _ W Z D).
Qed.
