(** The algebra of the total spin. *)
From Coq Require Import List Arith ZArith Znumtheory Reals Lra Lia Bool.
From Coquelicot Require Import Coquelicot.
From Verif Require Import Scalar ScalarC Spec OneDimSpec OneDimProofs DotProofs GridSpec GridProofs PositiveForms SpectralSpec SpectralProofs SpinProofs.
From Verif Require Import FockSpec FockProofs FockSystem InnerSpec InnerProofs RaiseSpec RaiseProofs RaiseFock RaiseTheorems FockSpectrumSpec FockSpectrum GroundTheorems Systems SharpSpec SharpProofs SharpTheorems EvolutionProofs MultipletSpec.
Import ListNotations.
Open Scope R_scope.
Local Notation S_ := (sumn (K := CC)).
Local Notation state := (FockSpec.state CC).
Local Notation inner := (InnerSpec.inner (K := CC)).

(** ** Operators and the occupations of the first l spin-orbitals *)
Definition agree (n : nat) (f g : state) : Prop := forall o, among n o -> f o = g o.
Lemma annihilate_agree n q f g : (q < n)%nat -> agree n f g -> agree n (annihilate q f) (annihilate q g).
Proof. intros Hq E o A. unfold annihilate. destruct (o q); [reflexivity|]. rewrite E; [reflexivity | apply among_put; assumption]. Qed.
Lemma create_agree n q f g : (q < n)%nat -> agree n f g -> agree n (create q f) (create q g).
Proof. intros Hq E o A. unfold create. destruct (o q); [|reflexivity]. rewrite E; [reflexivity | apply among_put; assumption]. Qed.
Lemma one_agree n A f g : agree n f g -> agree n (one_body (K := CC) n A f) (one_body (K := CC) n A g).
Proof.
  intros E o Ao. unfold one_body. apply csum_ext. intros p Hp. apply csum_ext. intros q Hq. f_equal. apply (create_agree n p); [exact Hp | apply annihilate_agree; assumption | exact Ao].
Qed.
Lemma two_agree n U f g : agree n f g -> agree n (two_body (K := CC) n U f) (two_body (K := CC) n U g).
Proof.
  intros E o Ao. unfold two_body. apply csum_ext. intros p Hp. apply csum_ext. intros q Hq. apply csum_ext. intros r Hr. apply csum_ext. intros s Hs. f_equal.
  apply (create_agree n p); [exact Hp | | exact Ao]. apply create_agree; [exact Hq|]. apply annihilate_agree; [exact Hs|]. apply annihilate_agree; assumption.
Qed.
Lemma ham_agree n x h u f g : agree n f g -> agree n (hamiltonian (K := CC) n x h u f) (hamiltonian (K := CC) n x h u g).
Proof. intros E o Ao. unfold hamiltonian. rewrite (one_agree n h f g E o Ao), (two_agree n u f g E o Ao). reflexivity. Qed.

Lemma csub_add (a b c : C) : (a - b)%C = c -> a = (b + c)%C.
Proof. intros <-. ring. Qed.
Section Spin.
  Variable l : nat.
  Notation n := (2 * l)%nat.
  Notation so := (spin_op l).
  Lemma so_linear m : linear CC (so m).
  Proof. apply one_body_linear. Qed.
  Lemma so_proper m f : proper f -> proper (so m f).
  Proof. apply one_body_proper. Qed.
  Lemma so_agree m f g : agree n f g -> agree n (so m f) (so m g).
  Proof. apply one_agree. Qed.
  Lemma so_kron m f o : so m f o = one_body (K := CC) n (fun P Q => (RtoC 1 * kron2 CC (delta (K := CC)) m P Q)%C) f o.
  Proof.
    apply one_ext. intros P Q _ _. unfold kron2, delta. cbn [smul s0 s1 CC]. destruct (P / 2 =? Q / 2)%nat; cring.
  Qed.
  (** It does not matter for a Hamiltonian without spin. *)
  Lemma so_commutes m h u f : proper f -> forall o, so m (many_body Spatial l h u f) o = many_body Spatial l h u (so m f) o.
  Proof.
    intros Pf o. cbn [many_body]. rewrite so_kron.
    rewrite (lin_ext CC _ (hamiltonian_linear CC n _ (dbl1 (K := CC) h) (dbl2 (K := CC) u)) (so m f) (one_body (K := CC) n (fun P Q => (RtoC 1 * kron2 CC (delta (K := CC)) m P Q)%C) f)) by (intros o'; apply so_kron).
    apply (symmetry_commutes CC); [exact Pf | intros; apply (kron_dbl1 CC); assumption | intros; apply (kron_dbl2 CC); assumption].
  Qed.
  Lemma so_combination a m b m' f o : so (fun i j => (a * m i j + b * m' i j)%C) f o = (a * so m f o + b * so m' f o)%C.
  Proof.
    unfold spin_op, one_body. cbn [sadd smul CC]. rewrite csum_scal, csum_scal, <- csum_add. apply csum_ext. intros p _. rewrite csum_scal, csum_scal, <- csum_add. apply csum_ext. intros q _.
    destruct (p / 2 =? q / 2)%nat; cring.
  Qed.
  Lemma so_ext m m' f o : (forall i j, (i < 2)%nat -> (j < 2)%nat -> m i j = m' i j) -> so m f o = so m' f o.
  Proof.
    intros E. apply one_ext. intros P Q _ _. destruct (P / 2 =? Q / 2)%nat; [|reflexivity]. apply E; apply Nat.mod_upper_bound; lia.
  Qed.
  Definition prod (m m' : nat -> nat -> C) (i j : nat) : C := (m i 0%nat * m' 0%nat j + m i 1%nat * m' 1%nat j)%C.
  Lemma so_so m m' f : proper f -> forall o, so m (so m' f) o = (so (prod m m') f o + two_body (K := CC) n (fun p q r s =>
     (if (p / 2 =? r / 2)%nat then m (p mod 2)%nat (r mod 2)%nat else RtoC 0) * (if (q / 2 =? s / 2)%nat then m' (q mod 2)%nat (s mod 2)%nat else RtoC 0))%C f o)%C.
  Proof.
    intros Pf o. unfold spin_op at 1 2. etransitivity; [apply (one_one CC); exact Pf|]. cbn [sadd CC]. f_equal. unfold spin_op. apply one_ext. intros P Q HP HQ.
    assert (G : forall T, ((if (P / 2 =? T / 2)%nat then m (P mod 2)%nat (T mod 2)%nat else RtoC 0) * (if (T / 2 =? Q / 2)%nat then m' (T mod 2)%nat (Q mod 2)%nat else RtoC 0))%C
      = (RtoC 1 * kron2 CC (delta (K := CC)) m P T * (if (T / 2 =? Q / 2)%nat then m' (T mod 2)%nat (Q mod 2)%nat else RtoC 0))%C).
    { intros T. unfold kron2, delta. cbn [smul s0 s1 CC]. destruct (P / 2 =? T / 2)%nat, (T / 2 =? Q / 2)%nat; cring. }
    etransitivity; [apply (csum_ext n); intros T HT; apply G|].
    etransitivity; [apply (sum_kron_l CC l (RtoC 1) m P); exact HP|]. cbn [sumn sadd smul s0 CC].
    rewrite !(proj1 (split_index _ _ (Nat.lt_succ_diag_r 1))), !(proj2 (split_index _ _ (Nat.lt_succ_diag_r 1))), !(proj1 (split_index _ _ Nat.lt_0_2)), !(proj2 (split_index _ _ Nat.lt_0_2)).
    unfold prod. destruct (P / 2 =? Q / 2)%nat; cring.
  Qed.
  Lemma two_swap U f : proper f -> forall o, two_body (K := CC) n U f o = two_body (K := CC) n (fun p q r s => U q p s r) f o.
  Proof.
    intros Pf o. unfold two_body. etransitivity; [apply (sumn_swap CC)|]. apply csum_ext. intros q _. apply csum_ext. intros p _.
    etransitivity; [apply (sumn_swap CC)|]. apply csum_ext. intros s _. apply csum_ext. intros r _. f_equal.
    rewrite (anti_cc CC p q _ (annihilate_proper CC s _ (annihilate_proper CC r f Pf)) o).
    rewrite (create_ext CC q (create p (annihilate s (annihilate r f))) (fun o => sopp (create p (annihilate r (annihilate s f)) o))).
    - rewrite (create_opp CC q _ o). cbn [sopp CC]. cring.
    - intros o'. rewrite (create_ext CC p _ _ (anti_aa CC s r f Pf) o'). apply (create_opp CC).
  Qed.
  Lemma so_commutator m m' f : proper f -> forall o, (so m (so m' f) o - so m' (so m f) o)%C = so (fun i j => (RtoC 1 * prod m m' i j + - RtoC 1 * prod m' m i j)%C) f o.
  Proof.
    intros Pf o. rewrite so_combination, (so_so m m' f Pf), (so_so m' m f Pf).
    rewrite (two_swap (fun p q r s => ((if (p / 2 =? r / 2)%nat then m' (p mod 2)%nat (r mod 2)%nat else RtoC 0) * (if (q / 2 =? s / 2)%nat then m (q mod 2)%nat (s mod 2)%nat else RtoC 0))%C) f Pf o).
    set (a := two_body _ _ f o). set (b := two_body _ _ f o). assert (E : a = b); [|rewrite E; cring].
    apply two_ext. intros p q r s _ _ _ _. cring.
  Qed.
  Lemma so_adjoint m f g : proper f -> proper g -> inner n f (so m g) = inner n (so (fun i j => Cconj (m j i)) f) g.
  Proof.
    intros Pf Pg. rewrite <- (inner_conj CC n g (so _ f)). unfold spin_op. rewrite !(inner_one CC) by assumption. etransitivity; [apply (sumn_swap CC)|]. symmetry. etransitivity; [apply (sumn_conj CC)|].
    apply csum_ext. intros p _. etransitivity; [apply (sumn_conj CC)|]. apply csum_ext. intros q _. rewrite (conj_mul CC), (inner_conj CC). f_equal.
    rewrite (Nat.eqb_sym (p / 2)). destruct (q / 2 =? p / 2)%nat; cbn [sconj CC]; cring.
  Qed.
  Lemma so_particles m N f : particle_state n N f -> particle_state n N (so m f).
  Proof. intros [Pf Hf]. split; [apply so_proper, Pf|]. intros o A Ne. refine (sector_one n (fun k => k = N) _ f _ o A Ne). intros o' A' Ne'. apply Hf; assumption. Qed.
  (** ** S_+ and S_- *)
  Definition up (i j : nat) : C := match i, j with O, 1%nat => RtoC 1 | _, _ => RtoC 0 end.
  Definition down (i j : nat) : C := match i, j with 1%nat, O => RtoC 1 | _, _ => RtoC 0 end.
  Definition zed (i j : nat) : C := (RtoC (1 / 2) * pauli_z (K := CC) i j)%C.
  Ltac two := intros i j Hi Hj; destruct i as [|[|i]]; [| |lia]; (destruct j as [|[|j]]; [| |lia]).
  Lemma plus_so f o : S_plus l f o = so up f o.
  Proof.
    unfold S_plus, S_x, S_y. etransitivity; [|apply (so_ext (fun i j => (RtoC 1 * (RtoC (1 / 2) * pauli_x (K := CC) i j) + Ci * (RtoC (1 / 2) * pauli_y (K := CC) i j))%C))].
    - rewrite so_combination. cring.
    - two; cbn; unfold Ci; apply injective_projections; cbn; lra.
  Qed.
  Lemma minus_so f o : S_minus l f o = so down f o.
  Proof.
    unfold S_minus, S_x, S_y. etransitivity; [|apply (so_ext (fun i j => (RtoC 1 * (RtoC (1 / 2) * pauli_x (K := CC) i j) + (- Ci) * (RtoC (1 / 2) * pauli_y (K := CC) i j))%C))].
    - rewrite so_combination. cring.
    - two; cbn; unfold Ci; apply injective_projections; cbn; lra.
  Qed.
  Lemma so_lin m (a b : C) (f g : state) o : so m (fun o => (a * f o + b * g o)%C) o = (a * so m f o + b * so m g o)%C.
  Proof. apply linear_combination, so_linear. Qed.
  Lemma x_so f o : S_x l f o = (RtoC (1 / 2) * so up f o + RtoC (1 / 2) * so down f o)%C.
  Proof. unfold S_x. rewrite <- so_combination. apply so_ext. two; cbn; apply injective_projections; cbn; lra. Qed.
  Lemma y_so f o : S_y l f o = ((- Ci * RtoC (1 / 2)) * so up f o + (Ci * RtoC (1 / 2)) * so down f o)%C.
  Proof. unfold S_y. rewrite <- so_combination. apply so_ext. two; cbn; unfold Ci; apply injective_projections; cbn; lra. Qed.
  Lemma up_down f : proper f -> forall o, so up (so down f) o = (so down (so up f) o + RtoC 2 * so zed f o)%C.
  Proof.
    intros Pf o. pose proof (so_commutator up down f Pf o) as E.
    assert (Z : so (fun i j => (RtoC 1 * prod up down i j + - RtoC 1 * prod down up i j)%C) f o = (RtoC 2 * so zed f o + RtoC 0 * so zed f o)%C).
    { rewrite <- so_combination. apply so_ext. two; unfold zed; cbn; apply injective_projections; cbn; lra. }
    rewrite Z in E. apply csub_add in E. rewrite E. cring.
  Qed.
  Lemma zed_up f : proper f -> forall o, so zed (so up f) o = (so up (so zed f) o + so up f o)%C.
  Proof.
    intros Pf o. pose proof (so_commutator zed up f Pf o) as E.
    assert (Z : so (fun i j => (RtoC 1 * prod zed up i j + - RtoC 1 * prod up zed i j)%C) f o = so up f o).
    { apply so_ext. two; unfold prod, zed; cbn; apply injective_projections; cbn; lra. }
    rewrite Z in E. apply csub_add in E. rewrite E. cring.
  Qed.
  Lemma zed_down f : proper f -> forall o, so zed (so down f) o = (so down (so zed f) o - so down f o)%C.
  Proof.
    intros Pf o. pose proof (so_commutator zed down f Pf o) as E.
    assert (Z : so (fun i j => (RtoC 1 * prod zed down i j + - RtoC 1 * prod down zed i j)%C) f o = (- RtoC 1 * so down f o + RtoC 0 * so down f o)%C).
    { rewrite <- so_combination. apply so_ext. two; unfold prod, zed; cbn; apply injective_projections; cbn; lra. }
    rewrite Z in E. apply csub_add in E. rewrite E. cring.
  Qed.
  Lemma squared_so f : proper f -> forall o, S_squared l f o = (so down (so up f) o + so zed (so zed f) o + so zed f o)%C.
  Proof.
    intros Pf o. unfold S_squared. rewrite x_so, y_so.
    rewrite !(lin_ext CC _ (so_linear _) (S_x l f) _ (x_so f) o), !(lin_ext CC _ (so_linear _) (S_y l f) _ (y_so f) o), !so_lin.
    change (S_z l (S_z l f) o) with (so zed (so zed f) o). rewrite (up_down f Pf o).
    set (a := so up (so up f) o). set (b := so down (so up f) o). set (c := so zed f o). set (d := so down (so down f) o). set (e := so zed (so zed f) o).
    clearbody a b c d e. unfold Ci. destruct a, b, c, d, e. unfold Cplus, Cmult, Copp, RtoC. cbn [fst snd]. apply injective_projections; cbn [fst snd]; field.
  Qed.
  Lemma squared_so' f : proper f -> forall o, S_squared l f o = (so up (so down f) o + so zed (so zed f) o - so zed f o)%C.
  Proof. intros Pf o. rewrite squared_so, up_down by exact Pf. cring. Qed.
  Lemma so_add m (f g : state) o : so m (fun o => (f o + g o)%C) o = (so m f o + so m g o)%C.
  Proof.
    rewrite (lin_ext CC _ (so_linear m) (fun o => (f o + g o)%C) (fun o => (RtoC 1 * f o + RtoC 1 * g o)%C)) by (intros o'; cring). rewrite so_lin. cring.
  Qed.
  Lemma so_scal m (a : C) (f : state) o : so m (fun o => (a * f o)%C) o = (a * so m f o)%C.
  Proof. apply (lin_scal CC _ (so_linear m)). Qed.
  Lemma so_congr m f g : (forall o, f o = g o) -> forall o, so m f o = so m g o.
  Proof. intros E o. apply (lin_ext CC _ (so_linear m)). exact E. Qed.
  Lemma squared_proper f : proper f -> proper (S_squared l f).
  Proof.
    intros Pf o o' E. unfold S_squared, S_x, S_y, S_z. rewrite !(so_proper _ _ (so_proper _ f Pf) o o' E). reflexivity.
  Qed.
  Lemma squared_up f : proper f -> forall o, S_squared l (so up f) o = so up (S_squared l f) o.
  Proof.
    intros Pf o. assert (P1 : forall m, proper (so m f)) by (intros; apply so_proper, Pf). assert (P2 : forall m m', proper (so m (so m' f))) by (intros; apply so_proper, P1).
    rewrite (so_congr up _ _ (squared_so f Pf) o), !so_add. rewrite (squared_so _ (P1 up) o).
    rewrite (up_down _ (P1 up) o). rewrite (so_congr zed _ _ (zed_up f Pf) o), so_add. rewrite (zed_up _ (P1 zed) o), (zed_up f Pf o). cring.
  Qed.
  Lemma squared_down f : proper f -> forall o, S_squared l (so down f) o = so down (S_squared l f) o.
  Proof.
    intros Pf o. assert (P1 : forall m, proper (so m f)) by (intros; apply so_proper, Pf). assert (P2 : forall m m', proper (so m (so m' f))) by (intros; apply so_proper, P1).
    assert (E : forall o, S_squared l f o = (so up (so down f) o + so zed (so zed f) o + - RtoC 1 * so zed f o)%C) by (intros o'; rewrite squared_so' by exact Pf; cring).
    rewrite (so_congr down _ _ E o), !so_add, so_scal. rewrite (squared_so' _ (P1 down) o).
    assert (E' : forall o, so zed (so down f) o = (so down (so zed f) o + - RtoC 1 * so down f o)%C) by (intros o'; rewrite zed_down by exact Pf; cring).
    rewrite (so_congr zed _ _ E' o), so_add, so_scal. rewrite (zed_down _ (P1 zed) o), (zed_down f Pf o). rewrite (up_down _ (P1 down) o), (zed_down f Pf o). cring.
  Qed.
  Lemma squared_agree f g : agree n f g -> agree n (S_squared l f) (S_squared l g).
  Proof. intros E o A. unfold S_squared, S_x, S_y, S_z. rewrite !(so_agree _ _ _ (so_agree _ f g E) o A). reflexivity. Qed.
  Lemma squared_many h u f : proper f -> forall o, S_squared l (many_body Spatial l h u f) o = many_body Spatial l h u (S_squared l f) o.
  Proof.
    intros Pf o. pose proof (many_linear Spatial l h u) as L. assert (P1 : forall m, proper (so m f)) by (intros; apply so_proper, Pf).
    assert (Q : forall m o, so m (so m (many_body Spatial l h u f)) o = many_body Spatial l h u (so m (so m f)) o).
    { intros m o'. rewrite (so_congr m _ _ (so_commutes m h u f Pf) o'). apply so_commutes, P1. }
    unfold S_squared at 1. unfold S_x, S_y, S_z. rewrite !Q.
    rewrite (lin_ext CC _ L (S_squared l f) (fun o => (RtoC 1 * (RtoC 1 * S_x l (S_x l f) o + RtoC 1 * S_y l (S_y l f) o) + RtoC 1 * S_z l (S_z l f) o)%C)) by (intros o'; unfold S_squared; cring).
    rewrite !(linear_combination _ _ _ _ _ L). unfold S_x, S_y, S_z. cring.
  Qed.
  Lemma squared_particles N f : particle_state n N f -> particle_state n N (S_squared l f).
  Proof.
    intros Hf. split; [apply squared_proper, Hf|]. intros o A Ne. unfold S_squared, S_x, S_y, S_z. rewrite !(proj2 (so_particles _ N _ (so_particles _ N f Hf)) o A Ne). apply injective_projections; cbn; ring.
  Qed.
  Lemma squared_linear : linear CC (S_squared l).
  Proof.
    apply (add_linear CC); [apply (add_linear CC)|]; apply comp_linear; apply so_linear.
  Qed.
  Lemma half_adjoint sg f g : (forall i j, (i < 2)%nat -> (j < 2)%nat -> Cconj (sg j i) = sg i j) -> proper f -> proper g -> inner n f (so sg g) = inner n (so sg f) g.
  Proof. intros H Pf Pg. rewrite so_adjoint by assumption. apply inner_ext_l. intros o _. apply so_ext. exact H. Qed.
  Lemma squared_symmetric : symmetric_operator n (S_squared l).
  Proof.
    intros f g Pf Pg.
    assert (Hx : forall i j, (i < 2)%nat -> (j < 2)%nat -> Cconj (RtoC (1 / 2) * pauli_x (K := CC) j i)%C = (RtoC (1 / 2) * pauli_x (K := CC) i j)%C) by (two; cbn; apply injective_projections; cbn; lra).
    assert (Hy : forall i j, (i < 2)%nat -> (j < 2)%nat -> Cconj (RtoC (1 / 2) * pauli_y (K := CC) j i)%C = (RtoC (1 / 2) * pauli_y (K := CC) i j)%C) by (two; cbn; apply injective_projections; cbn; lra).
    assert (Hz : forall i j, (i < 2)%nat -> (j < 2)%nat -> Cconj (RtoC (1 / 2) * pauli_z (K := CC) j i)%C = (RtoC (1 / 2) * pauli_z (K := CC) i j)%C) by (two; cbn; apply injective_projections; cbn; lra).
    assert (Q : forall sg, (forall i j, (i < 2)%nat -> (j < 2)%nat -> Cconj (sg j i) = sg i j) -> inner n f (so sg (so sg g)) = inner n (so sg (so sg f)) g).
    { intros sg H. rewrite half_adjoint by (try exact H; try exact Pf; apply so_proper, Pg). apply half_adjoint; [exact H | apply so_proper, Pf | exact Pg]. }
    unfold S_squared. etransitivity; [exact (inner_add CC n f (fun o => (S_x l (S_x l g) o + S_y l (S_y l g) o)%C) (S_z l (S_z l g)))|].
    etransitivity; [apply (f_equal2 Cplus); [exact (inner_add CC n f (S_x l (S_x l g)) (S_y l (S_y l g))) | reflexivity]|].
    unfold S_x, S_y, S_z. cbn [sadd CC]. rewrite (Q _ Hx), (Q _ Hy), (Q _ Hz).
    rewrite <- !(inner_conj CC n g). cbn [sconj CC]. rewrite <- !C_conj_add. f_equal.
    symmetry. etransitivity; [exact (inner_add CC n g (fun o => (S_x l (S_x l f) o + S_y l (S_y l f) o)%C) (S_z l (S_z l f)))|].
    etransitivity; [apply (f_equal2 Cplus); [exact (inner_add CC n g (S_x l (S_x l f)) (S_y l (S_y l f))) | reflexivity]|]. reflexivity.
  Qed.
End Spin.
