(** Eigenstates with sharp quantum numbers. *)
From Coq Require Import List Arith ZArith Znumtheory Reals Lra Lia Bool.
From Coquelicot Require Import Coquelicot.
From Verif Require Import Scalar ScalarC Spec OneDimSpec OneDimProofs DotProofs GridSpec GridProofs PositiveForms SpectralSpec SpectralProofs.
From Verif Require Import FockSpec FockProofs InnerSpec InnerProofs RaiseSpec RaiseProofs RaiseFock FockSpectrumSpec FockSpectrum Systems SharpSpec.
Import ListNotations.
Open Scope R_scope.
Local Notation S_ := (sumn (K := CC)).
Local Notation state := (FockSpec.state CC).

(** ** A Hermitian matrix made of blocks has eigenvectors inside the blocks *)
Section Blocks.
  Variables (d m : nat) (A : nat -> nat -> C) (cl : nat -> nat).
  Hypothesis HA : hermitian (K := CC) d A.
  Hypothesis Hcl : forall i, (i < d)%nat -> (cl i < m)%nat.
  Hypothesis HB : forall i j, (i < d)%nat -> (j < d)%nat -> cl i <> cl j -> A i j = RtoC 0.
  Notation vec := (nat -> C).
  Definition part (c : nat) (x : vec) (i : nat) : C := if (cl i =? c)%nat then x i else RtoC 0.
  Definition within (x : vec) : Prop := exists c, forall i, (i < d)%nat -> cl i <> c -> x i = RtoC 0.
  Lemma part_within c x : within (part c x).
  Proof. exists c. intros i _ N. unfold part. destruct (Nat.eqb_spec (cl i) c); [contradiction | reflexivity]. Qed.
  Lemma part_sum x i : (i < d)%nat -> S_ m (fun c => part c x i) = x i.
  Proof.
    intros Hi. rewrite (csum_pick m (cl i)); [unfold part; rewrite Nat.eqb_refl; reflexivity | apply Hcl, Hi|].
    intros c _ N. unfold part. destruct (Nat.eqb_spec (cl i) c); [congruence | reflexivity].
  Qed.
  Lemma part_ap c x i : (i < d)%nat -> ap d A (part c x) i = part c (ap d A x) i.
  Proof.
    intros Hi. unfold ap, part at 2. destruct (Nat.eqb_spec (cl i) c) as [E|N].
    - apply csum_ext. intros j Hj. unfold part. destruct (Nat.eqb_spec (cl j) c) as [E'|N]; [reflexivity|]. rewrite HB by (try assumption; congruence). cring.
    - apply csum_zero. intros j Hj. unfold part. destruct (Nat.eqb_spec (cl j) c) as [E'|_]; [rewrite HB by (try assumption; congruence)|]; cring.
  Qed.
  Lemma part_dot c x y : dot d (part c x) (part c y) = dot d (part c x) y.
  Proof. apply csum_ext. intros i _. unfold part. destruct (cl i =? c)%nat; [reflexivity|]. cring. Qed.
  Lemma parts_dot x y : S_ m (fun c => dot d (part c x) y) = dot d x y.
  Proof.
    unfold dot. rewrite (sumn_swap CC). apply csum_ext. intros i Hi. rewrite (csum_ext m _ (fun c => (y i * Cconj (part c x i))%C)) by (intros; cring). rewrite <- csum_scal.
    rewrite <- (csum_conj m (fun c => part c x i)), part_sum by exact Hi. cring.
  Qed.
  Lemma parts_size x : rsum m (fun c => size d (part c x)) = size d x.
  Proof.
    apply RtoC_inj. rewrite <- csum_rsum. unfold size at 2. rewrite <- (dot_self d x). rewrite <- parts_dot. apply csum_ext. intros c _. rewrite <- part_dot, dot_self. reflexivity.
  Qed.
  Lemma parts_energy x : rsum m (fun c => energy d A (part c x)) = energy d A x.
  Proof.
    apply RtoC_inj. rewrite <- csum_rsum. rewrite <- (self_real d A HA x), <- parts_dot. apply csum_ext. intros c _. rewrite <- (self_real d A HA), <- (part_dot c x (ap d A x)). apply dot_ext; [reflexivity|]. intros i Hi. apply part_ap, Hi.
  Qed.
  Lemma part_apart k v c x : (forall j, (j < k)%nat -> within (v j)) -> apart d false k v x -> apart d false k v (part c x).
  Proof.
    intros W [_ O]. split; [discriminate|]. intros j Hj. destruct (W j Hj) as [b Wb]. destruct (Nat.eq_dec b c) as [->|N].
    - rewrite <- (O j Hj). apply csum_ext. intros i Hi. unfold part. destruct (Nat.eqb_spec (cl i) c) as [_|N]; [reflexivity|]. rewrite (Wb i Hi N). cring.
    - apply csum_zero. intros i Hi. unfold part. destruct (Nat.eqb_spec (cl i) c) as [E|_]; [rewrite (Wb i Hi) by congruence|]; cring.
  Qed.
  Lemma lowest_within k v : (k < d)%nat -> family d false k v -> (forall j, (j < k)%nat -> within (v j)) ->
    exists x, apart d false k v x /\ dot d x x = RtoC 1 /\ within x /\ forall y, apart d false k v y -> energy d A x * size d y <= energy d A y.
  Proof.
    intros Hk Fv W. destruct (lowest_vector d A false k v Hk Fv) as (x & Ax & Ux & Min).
    assert (Sx : size d x = 1) by (rewrite dot_self in Ux; apply RtoC_inj in Ux; exact Ux).
    assert (Ge : forall c, energy d A x * size d (part c x) <= energy d A (part c x)) by (intros c; apply Min, part_apart; assumption).
    assert (Eq : forall c, (c < m)%nat -> energy d A (part c x) - energy d A x * size d (part c x) = 0).
    { intros c Hc. apply (rsum_null m (fun c => energy d A (part c x) - energy d A x * size d (part c x))); [intros c' _; specialize (Ge c'); lra | | exact Hc].
      rewrite (rsum_ext m _ (fun c => energy d A (part c x) + (- energy d A x) * size d (part c x))) by (intros; ring). rewrite rsum_add, rsum_scal, parts_energy, parts_size, Sx. ring. }
    assert (exists c, (c < m)%nat /\ size d (part c x) <> 0) as (c & Hc & Nc).
    { apply Classical_Prop.NNPP. intros No. pose proof (parts_size x) as P. rewrite Sx, rsum_zero in P; [lra|]. intros c Hc. apply Classical_Prop.NNPP. intros N. apply No. exists c. split; assumption. }
    assert (Pc : 0 < size d (part c x)) by (pose proof (size_nonneg d (part c x)); lra). set (s := / sqrt (size d (part c x))).
    assert (E1 : s * s * size d (part c x) = 1). { unfold s. rewrite <- (sqrt_sqrt (size d (part c x))) at 3 by lra. field. apply Rgt_not_eq, sqrt_lt_R0, Pc. }
    assert (En : energy d A (fun i => (RtoC s * part c x i)%C) = energy d A x).
    { unfold energy at 1. rewrite (dot_ext d _ (fun i => (RtoC s * part c x i)%C) _ (fun i => (RtoC s * ap d A (part c x) i)%C)) by (try (intros i _; apply ap_scal); reflexivity).
      rewrite dot_scal, dot_scal_l, (self_real d A HA). specialize (Eq c Hc). replace (energy d A (part c x)) with (energy d A x * size d (part c x)) by lra.
      unfold Cconj, Cmult, RtoC, Re. cbn. transitivity (energy d A x * (s * s * size d (part c x))); [ring | rewrite E1; ring]. }
    exists (fun i => (RtoC s * part c x i)%C). split; [|split; [|split]].
    - pose proof (part_apart k v c x W Ax) as [_ O]. split; [discriminate|]. intros j Hj. rewrite dot_scal, (O j Hj). cring.
    - rewrite dot_scal, dot_scal_l, dot_self. fold (size d (part c x)). unfold Cconj, Cmult, RtoC. cbn. f_equal; [|ring]. rewrite <- E1. ring.
    - destruct (part_within c x) as [c' W']. exists c'. intros i Hi N. rewrite (W' i Hi N). cring.
    - intros y Ay. rewrite En. apply Min, Ay.
  Qed.
  Lemma eigen_within k : (k <= d)%nat -> exists (w : nat -> R) (v : nat -> vec), family d false k v /\ (forall j, (j < k)%nat -> within (v j)) /\
    (forall j i, (j < k)%nat -> (i < d)%nat -> ap d A (v j) i = (RtoC (w j) * v j i)%C) /\
    (forall p q, (p <= q)%nat -> (q < k)%nat -> w p <= w q) /\
    (forall j y, (j < k)%nat -> apart d false k v y -> w j * size d y <= energy d A y).
  Proof.
    induction k as [|k IH]; intros Hk.
    - exists (fun _ => 0), (fun _ _ => RtoC 0). split; [split; intros; lia|]. repeat split; intros; lia.
    - destruct (IH ltac:(lia)) as (w & v & Fv & Wv & Ev & Sv & Lv). destruct (lowest_within k v ltac:(lia) Fv Wv) as (x & Ax & Ux & Wx & Min).
      pose proof (lowest_eigen d A false HA ltac:(discriminate) k v w x Fv Ev Ax Ux Min) as Ex. destruct Fv as [Gv Ov].
      set (v' := fun j => if (j =? k)%nat then x else v j). set (w' := fun j => if (j =? k)%nat then energy d A x else w j).
      assert (V1 : forall j, (j < k)%nat -> v' j = v j) by (intros j Hj; unfold v'; destruct (Nat.eqb_spec j k); [lia | reflexivity]).
      assert (V2 : v' k = x) by (unfold v'; rewrite Nat.eqb_refl; reflexivity).
      assert (W1 : forall j, (j < k)%nat -> w' j = w j) by (intros j Hj; unfold w'; destruct (Nat.eqb_spec j k); [lia | reflexivity]).
      assert (W2 : w' k = energy d A x) by (unfold w'; rewrite Nat.eqb_refl; reflexivity).
      exists w', v'. split; [split|split; [|split; [|split]]].
      + intros j Hj. discriminate.
      + intros j j' Hj Hj'. unfold kronecker. destruct (Nat.eq_dec j k) as [->|N], (Nat.eq_dec j' k) as [->|N'].
        * rewrite V2, Nat.eqb_refl. exact Ux.
        * rewrite V2, V1 by lia. rewrite <- dot_conj, (proj2 Ax) by lia. destruct (Nat.eqb_spec k j'); [lia|]. unfold Cconj, RtoC. cbn. f_equal. ring.
        * rewrite V2, V1 by lia. rewrite (proj2 Ax) by lia. destruct (Nat.eqb_spec j k); [lia|]. reflexivity.
        * rewrite !V1 by lia. apply Ov; lia.
      + intros j Hj. destruct (Nat.eq_dec j k) as [->|N]; [rewrite V2; exact Wx | rewrite V1 by lia; apply Wv; lia].
      + intros j i Hj Hi. destruct (Nat.eq_dec j k) as [->|N]; [rewrite V2, W2; apply Ex, Hi | rewrite V1, W1 by lia; apply Ev; lia].
      + intros p q Hpq Hq. destruct (Nat.eq_dec q k) as [->|N].
        * destruct (Nat.eq_dec p k) as [->|N]; [apply Rle_refl|]. rewrite W1, W2 by lia. pose proof (Lv p x ltac:(lia) Ax) as L.
          assert (size d x = 1) as E1 by (rewrite dot_self in Ux; apply RtoC_inj in Ux; exact Ux). rewrite E1 in L. lra.
        * rewrite !W1 by lia. apply Sv; lia.
      + intros j y Hj [Gy Oy]. assert (Ay : apart d false k v y). { split; [exact Gy|]. intros j' Hj'. rewrite <- V1 by exact Hj'. apply Oy. lia. }
        destruct (Nat.eq_dec j k) as [->|N]; [rewrite W2; apply Min, Ay | rewrite W1 by lia; apply Lv; [lia | exact Ay]].
  Qed.
  Lemma block_eigensystem : exists w v, eigensystem d A w v /\ forall p, (p < d)%nat -> within (fun i => v i p).
  Proof.
    destruct (eigen_within d (Nat.le_refl d)) as (w & v & [_ O] & W & E & As & _). exists w, (fun i p => v p i). split; [split|].
    - intros p q Hp Hq. apply O; assumption.
    - intros i p Hi Hp. apply (E p i Hp Hi).
    - exact As.
    - exact W.
  Qed.
End Blocks.
(** The same for the classes of an equivalence *)
Section Classes.
  Variables (d : nat) (A : nat -> nat -> C) (R_ : nat -> nat -> Prop).
  Hypothesis Rdec : forall i j, {R_ i j} + {~ R_ i j}.
  Hypothesis Rrefl : forall i, R_ i i.
  Hypothesis Rsym : forall i j, R_ i j -> R_ j i.
  Hypothesis Rtrans : forall i j k, R_ i j -> R_ j k -> R_ i k.
  Hypothesis HA : hermitian (K := CC) d A.
  Hypothesis HB : forall i j, (i < d)%nat -> (j < d)%nat -> ~ R_ i j -> A i j = RtoC 0.
  Definition like (i j : nat) : bool := if Rdec i j then true else false.
  Definition class_of (i : nat) : nat := match find (like i) (seq 0 d) with Some j => j | None => 0%nat end.
  Lemma find_same (f g : nat -> bool) xs : (forall x, f x = g x) -> find f xs = find g xs.
  Proof. intros H. induction xs as [|x xs IH]; [reflexivity|]. cbn. rewrite <- H, IH. reflexivity. Qed.
  Lemma class_found i : (i < d)%nat -> (class_of i < d)%nat /\ R_ i (class_of i).
  Proof.
    intros Hi. unfold class_of. destruct (find (like i) (seq 0 d)) as [j|] eqn:E.
    - apply find_some in E. destruct E as [I L]. apply in_seq in I. split; [lia|]. unfold like in L. destruct (Rdec i j) as [Y|_]; [exact Y | discriminate].
    - exfalso. pose proof (find_none _ _ E i ltac:(apply in_seq; lia)) as L. unfold like in L. destruct (Rdec i i) as [_|N]; [discriminate | apply N, Rrefl].
  Qed.
  Lemma class_same i j : (i < d)%nat -> (j < d)%nat -> class_of i = class_of j <-> R_ i j.
  Proof.
    intros Hi Hj. split; intros H.
    - apply (Rtrans i (class_of i) j); [apply class_found, Hi|]. rewrite H. apply Rsym, class_found, Hj.
    - unfold class_of. rewrite (find_same (like i) (like j)); [reflexivity|]. intros x. unfold like.
      destruct (Rdec i x) as [Y|N], (Rdec j x) as [Y'|N']; try reflexivity; exfalso.
      + apply N'. apply (Rtrans j i x); [apply Rsym, H | exact Y].
      + apply N. apply (Rtrans i j x); [exact H | exact Y'].
  Qed.
  Lemma class_eigensystem : exists w v, eigensystem d A w v /\
    forall p, (p < d)%nat -> forall i j, (i < d)%nat -> (j < d)%nat -> v i p <> RtoC 0 -> v j p <> RtoC 0 -> R_ i j.
  Proof.
    destruct (block_eigensystem d d A class_of HA) as (w & v & E & W).
    - intros i Hi. apply class_found, Hi.
    - intros i j Hi Hj N. apply HB; [exact Hi | exact Hj|]. intros Y. apply N, class_same; assumption.
    - exists w, v. split; [exact E|]. intros p Hp i j Hi Hj Ni Nj. destruct (W p Hp) as [c Wc]. apply class_same; [exact Hi | exact Hj|].
      destruct (Nat.eq_dec (class_of i) c) as [Ei|Ne]; [|exfalso; apply Ni, Wc; assumption]. destruct (Nat.eq_dec (class_of j) c) as [Ej|Ne]; [|exfalso; apply Nj, Wc; assumption]. congruence.
  Qed.
End Classes.

(** ** Quantum numbers of states *)
Section Label.
  Variables (l : nat) (t : label).
  Notation g := (charge t).
  Notation tc := (total_charge l g).
  Lemma charge_ext n (c : nat -> Z) o o' : (forall p, (p < n)%nat -> o p = o' p) -> total_charge n c o = total_charge n c o'.
  Proof. induction n as [|n IH]; intros H; [reflexivity|]. cbn. rewrite IH by (intros; apply H; lia). rewrite H by lia. reflexivity. Qed.
  Lemma charge_add n (c : nat -> Z) q o : (q < n)%nat -> o q = false -> total_charge n c (put q true o) = (total_charge n c o + c q)%Z.
  Proof.
    induction n as [|n IH]; intros Hq E; [lia|]. cbn [total_charge]. destruct (Nat.eq_dec q n) as [->|N].
    - rewrite (charge_ext n c (put n true o) o). 2:{ intros p Hp. unfold put. destruct (Nat.eqb_spec p n); [lia | reflexivity]. }
      unfold put. rewrite Nat.eqb_refl, E. lia.
    - rewrite IH by (try assumption; lia). unfold put at 1. destruct (Nat.eqb_spec n q); [lia|]. lia.
  Qed.
  Lemma charge_remove n (c : nat -> Z) q o : (q < n)%nat -> o q = true -> total_charge n c (put q false o) = (total_charge n c o - c q)%Z.
  Proof.
    induction n as [|n IH]; intros Hq E; [lia|]. cbn [total_charge]. destruct (Nat.eq_dec q n) as [->|N].
    - rewrite (charge_ext n c (put n false o) o). 2:{ intros p Hp. unfold put. destruct (Nat.eqb_spec p n); [lia | reflexivity]. }
      unfold put. rewrite Nat.eqb_refl, E. lia.
    - rewrite IH by (try assumption; lia). unfold put at 1. destruct (Nat.eqb_spec n q); [lia|]. lia.
  Qed.
  Definition held (P : Z -> Prop) (f : state) : Prop := forall o, among l o -> ~ P (tc o) -> f o = RtoC 0.
  Lemma held_annihilate P q f : (q < l)%nat -> held P f -> held (fun z => P (z + g q)%Z) (annihilate q f).
  Proof.
    intros Hq H o A N. unfold annihilate. destruct (o q) eqn:E; [reflexivity|]. rewrite H; [cx; cbn; ring | apply among_put; assumption|]. rewrite charge_add by assumption. exact N.
  Qed.
  Lemma held_create P q f : (q < l)%nat -> held P f -> held (fun z => P (z - g q)%Z) (create q f).
  Proof.
    intros Hq H o A N. unfold create. destruct (o q) eqn:E; [|reflexivity]. rewrite H; [cx; cbn; ring | apply among_put; assumption|]. rewrite charge_remove by assumption. exact N.
  Qed.
  Definition closed_class (P : Z -> Prop) : Prop := forall a b, alike t a b -> P a -> P b.
  Lemma held_one P h f : closed_class P -> keeps1 l t h -> held P f -> held P (one_body (K := CC) l h f).
  Proof.
    intros HP Kh H o A N. unfold one_body. apply csum_zero. intros p Hp. apply csum_zero. intros q Hq.
    destruct (Classical_Prop.classic (h p q = RtoC 0)) as [E|E]; [rewrite E; cx; cbn; ring|].
    assert (Z : create p (annihilate q f) o = RtoC 0); [|rewrite Z; cx; cbn; ring].
    refine (held_create _ p _ Hp (held_annihilate P q f Hq H) o A _). intros Y. apply N. refine (HP _ _ _ Y).
    pose proof (Kh p q Hp Hq E) as D. unfold alike in *. replace (tc o - g p + g q - tc o)%Z with (- (g p - g q))%Z by lia. apply Z.divide_opp_r, D.
  Qed.
  Lemma held_two P u f : closed_class P -> keeps2 l t u -> held P f -> held P (two_body (K := CC) l u f).
  Proof.
    intros HP Ku H o A N. unfold two_body. apply csum_zero. intros p Hp. apply csum_zero. intros q Hq. apply csum_zero. intros r Hr. apply csum_zero. intros s Hs.
    destruct (Classical_Prop.classic (u p q r s = RtoC 0)) as [E|E]; [rewrite E; cx; cbn; ring|].
    assert (Z : create p (create q (annihilate s (annihilate r f))) o = RtoC 0); [|rewrite Z; cx; cbn; ring].
    refine (held_create _ p _ Hp (held_create _ q _ Hq (held_annihilate _ s _ Hs (held_annihilate P r f Hr H))) o A _). intros Y. apply N. refine (HP _ _ _ Y).
    pose proof (Ku p q r s Hp Hq Hr Hs E) as D. unfold alike in *. replace (tc o - g p - g q + g s + g r - tc o)%Z with (- (g p + g q - (g r + g s)))%Z by lia. apply Z.divide_opp_r, D.
  Qed.
  Lemma held_hamiltonian P x h u f : closed_class P -> keeps1 l t h -> keeps2 l t u -> held P f -> held P (hamiltonian (K := CC) l x h u f).
  Proof. intros HP Kh Ku H o A N. unfold hamiltonian. rewrite (held_one P h f HP Kh H o A N), (held_two P u f HP Ku H o A N). cx. cbn. ring. Qed.
  Lemma alike_refl a : alike t a a.
  Proof. unfold alike. rewrite Z.sub_diag. apply Z.divide_0_r. Qed.
  Lemma alike_sym a b : alike t a b -> alike t b a.
  Proof. unfold alike. intros H. replace (b - a)%Z with (- (a - b))%Z by lia. apply Z.divide_opp_r, H. Qed.
  Lemma alike_trans a b c : alike t a b -> alike t b c -> alike t a c.
  Proof. unfold alike. intros H H'. replace (a - c)%Z with ((a - b) + (b - c))%Z by lia. apply Z.divide_add_r; assumption. Qed.
  Lemma alike_dec a b : {alike t a b} + {~ alike t a b}.
  Proof. apply Zdivide_dec. Qed.
  Lemma class_closed M : closed_class (fun z => alike t z M).
  Proof. intros a b Y H. apply (alike_trans b a M); [apply alike_sym, Y | exact H]. Qed.
  Lemma det_held c : held (fun z => alike t z (tc c)) (determinant (K := CC) l c).
  Proof.
    intros o A N. unfold determinant. destruct (forallb _ _) eqn:E; [|reflexivity]. exfalso. apply N. rewrite (charge_ext l g o c); [apply alike_refl|].
    rewrite forallb_forall in E. intros p Hp. apply eqb_prop, E, in_seq. lia.
  Qed.
End Label.
