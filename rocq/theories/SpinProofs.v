(** Proofs of the anti-symmetrization and spin properties C09, C10, C12-C19. *)
From Coq Require Import List Arith ZArith Lia Bool.
From Verif Require Import Scalar Py Numpy NumpyFacts Spec TransformFacts BasisSet BasisSpec BasisFacts
  ChangeProofs ConvProofs SpinFacts DoubleFacts.
Import ListNotations.

Section Spin.
  Variable K : scalar.
  Local Open Scope K_scope.
  Add Ring Kring : (s_ring K).
  Notation arr := (arr K).
  Notation basis := (basis K).
  Implicit Types (b : basis).

  (** * Anti-symmetrization *)
  Lemma antisym_ket_exch n (u : nat -> nat -> nat -> nat -> K) : antisym_ket n (exch u).
  Proof. intros p q r s _ _ _ _. unfold exch. ring. Qed.
  Lemma antisym_ket_ext n (u v : nat -> nat -> nat -> nat -> K) :
    (forall p q r s, (p < n)%nat -> (q < n)%nat -> (r < n)%nat -> (s < n)%nat -> u p q r s = v p q r s) ->
    antisym_ket n v -> antisym_ket n u.
  Proof. intros E H p q r s Hp Hq Hr Hs. rewrite !E by assumption. apply H; assumption. Qed.
  Lemma antisym_bra_ext n (u v : nat -> nat -> nat -> nat -> K) :
    (forall p q r s, (p < n)%nat -> (q < n)%nat -> (r < n)%nat -> (s < n)%nat -> u p q r s = v p q r s) ->
    antisym_bra n v -> antisym_bra n u.
  Proof. intros E H p q r s Hp Hq Hr Hs. rewrite !E by assumption. apply H; assumption. Qed.
  Lemma antisym_bra_exch n (u : nat -> nat -> nat -> nat -> K) : particle_sym n u -> antisym_bra n (exch u).
  Proof.
    intros H p q r s Hp Hq Hr Hs. unfold exch. rewrite (H p q r s), (H p q s r) by assumption. ring.
  Qed.
  Lemma particle_sym_exch n (u : nat -> nat -> nat -> nat -> K) : particle_sym n u -> particle_sym n (exch u).
  Proof.
    intros H p q r s Hp Hq Hr Hs. unfold exch. rewrite (H p q r s), (H p q s r) by assumption. ring.
  Qed.

  Lemma repeated_fixed {A} (xs : list A) (m : M basis unit) b : m b = (Ok tt, b) ->
    for_each xs (fun _ => m) b = (Ok tt, b).
  Proof. intros H. induction xs as [|x xs IH]; cbn; [reflexivity|]. unfold bind. rewrite H. exact IH. Qed.

  (** C09 *)
  Lemma antisymmetrize_once b l (u : arr) : ready b l -> b_asym b = false -> b_arr b F_u = Some u ->
    exists b' u', (forall k, for_each (seq 0 (S k)) (fun _ => anti_symmetrize_two_body) b = (Ok tt, b')) /\
      b_asym b' = true /\ b_arr b' F_u = Some u' /\ shape u' = [l; l; l; l] /\
      (forall p q r s, (p < l)%nat -> (q < l)%nat -> (r < l)%nat -> (s < l)%nat ->
         ten u' p q r s = ten u p q r s - ten u p q s r) /\
      antisym_ket l (ten u') /\
      (forall f, f <> F_u -> f <> F_sp2tb -> b_arr b' f = b_arr b f).
  Proof.
    intros R Ha Hu. destruct (r_u K b l R) as (u0 & Hu0 & Su). rewrite Hu in Hu0. injection Hu0 as <-.
    destruct (anti_symmetrize_ok K b l u Ha (r_l K b l R) Hu Su (r_tb K b l R))
      as (b' & u' & E & A & (_&_&_&_&_&_&_&SB) & U' & S' & G' & _).
    exists b', u'. split; [|split; [exact A|split; [exact U'|split; [exact S'|split; [exact G'|split]]]]].
    - intros k. cbn [seq for_each]. unfold bind. rewrite E. apply repeated_fixed. apply anti_symmetrize_again. exact A.
    - eapply antisym_ket_ext; [exact G' | apply antisym_ket_exch].
    - intros f H1 H2. rewrite SB by (cbn; intuition congruence). reflexivity.
  Qed.
  Lemma antisymmetrize_flagged b : b_asym b = true ->
    forall k, for_each (seq 0 k) (fun _ => anti_symmetrize_two_body) b = (Ok tt, b).
  Proof. intros H k. apply repeated_fixed. apply anti_symmetrize_again. exact H. Qed.

  (** C10 *)
  Definition fully_antisymmetric n (u : nat -> nat -> nat -> nat -> K) : Prop :=
    forall p q r s, (p < n)%nat -> (q < n)%nat -> (r < n)%nat -> (s < n)%nat ->
      u p q r s = - u q p r s /\ u p q r s = - u p q s r /\ u p q r s = u q p s r.
  Lemma full_antisymmetry b l (u : arr) : ready b l -> b_asym b = false -> b_arr b F_u = Some u ->
    particle_sym l (ten u) ->
    exists b' u', anti_symmetrize_two_body b = (Ok tt, b') /\ b_arr b' F_u = Some u' /\
      fully_antisymmetric l (ten u').
  Proof.
    intros R Ha Hu Hs. destruct (antisymmetrize_once b l u R Ha Hu) as (b' & u' & E & _ & U' & _ & G & _).
    exists b', u'. specialize (E 0%nat). cbn in E. unfold bind in E.
    destruct (anti_symmetrize_two_body b) as [[[]|e] bb] eqn:Ea; [|discriminate].
    injection E as ->. split; [reflexivity|]. split; [exact U'|].
    intros p q r s Hp Hq Hr Hs'. rewrite !G by assumption.
    rewrite (Hs p q r s), (Hs p q s r) by assumption. repeat split; ring.
  Qed.
  Lemma T2_fully_antisymmetric n k (u : nat -> nat -> nat -> nat -> K) C D :
    fully_antisymmetric n u -> fully_antisymmetric k (T2 n u C D).
  Proof.
    intros H p q r s Hp Hq Hr Hs. split; [|split].
    - rewrite <- (T2_bra_swap K n u C D p q r s), <- T2_opp. apply T2_ext; [|split; reflexivity|split; reflexivity].
      intros x y z w Hx Hy Hz Hw. destruct (H x y z w Hx Hy Hz Hw) as (E & _). exact E.
    - rewrite <- (T2_ket_swap K n u C D p q r s), <- T2_opp. apply T2_ext; [|split; reflexivity|split; reflexivity].
      intros x y z w Hx Hy Hz Hw. destruct (H x y z w Hx Hy Hz Hw) as (_ & E & _). exact E.
    - rewrite <- (T2_particle K n u C D p q r s). apply T2_ext; [|split; reflexivity|split; reflexivity].
      intros x y z w Hx Hy Hz Hw. destruct (H x y z w Hx Hy Hz Hw) as (_ & _ & E). exact E.
  Qed.
  Lemma antisymmetry_survives b l k (C D u : arr) : ready b l -> shape C = [l; k] -> shape D = [k; l] ->
    b_arr b F_u = Some u -> fully_antisymmetric l (ten u) ->
    exists b' u', change_basis C (Some D) b = (Ok tt, b') /\ b_arr b' F_u = Some u' /\ shape u' = [k; k; k; k] /\
      fully_antisymmetric k (ten u').
  Proof.
    intros R HC HD Hu H. destruct (change_basis_ok K l k C D HC HD b R) as (b' & E & BC).
    pose proof (bc_u BC) as G. rewrite Hu in G. destruct (b_arr b' F_u) as [u'|] eqn:Eu; [|destruct G].
    destruct G as [S G]. exists b', u'. split; [exact E|]. split; [exact Eu|]. split; [exact S|].
    intros p q r s Hp Hq Hr Hs. rewrite !G by assumption.
    apply (T2_fully_antisymmetric l k); assumption.
  Qed.

  (** * Spin doubling *)
  (** C13 *)
  Lemma double_twice ab anti b : b_spin b = true -> snd (change_to_general ab anti b) = b.
  Proof.
    intros H. assert (T : forall x y, to_general_base x y anti b = (Ok false, b)).
    { intros x y. unfold to_general_base, bind, get_st. rewrite H. reflexivity. }
    unfold change_to_general. unfold bind at 1. cbn [get_st].
    destruct ab as [[x y]|]; (destruct (b_cls b); [rewrite T; reflexivity|]); [reflexivity|].
    unfold bind. destruct (anti && urepr_eqb (u_repr b) U2d) eqn:E; cbn [when ret]; [|rewrite T; reflexivity].
    apply andb_true_iff in E. destruct E as [_ E].
    assert (Es : set_u_repr U4d b = (Ok tt, b)).
    { unfold set_u_repr. unfold bind at 1. cbn [get_st]. unfold u_repr in E |- *.
      destruct (b_arr b F_u) as [u|]; [|discriminate]. destruct (ndim u =? 2)%nat eqn:E2.
      - cbn [urepr_eqb]. unfold bind. cbn [need ret]. apply Nat.eqb_eq in E2. rewrite E2. reflexivity.
      - destruct (ndim u =? 4)%nat; discriminate. }
    rewrite Es, T. reflexivity.
  Qed.

  (** * Kronecker products with 2x2 matrices *)
  Definition kron2 (A m : nat -> nat -> K) (P Q : nat) : K := A (P / 2)%nat (Q / 2)%nat * m (P mod 2) (Q mod 2).
  Lemma div2_even k : (2 * k / 2 = k)%nat.
  Proof. rewrite Nat.mul_comm, Nat.div_mul; lia. Qed.
  Lemma div2_odd k : ((2 * k + 1) / 2 = k)%nat.
  Proof. symmetry. apply (Nat.div_unique (2 * k + 1) 2 k 1); lia. Qed.
  Lemma mod2_even k : ((2 * k) mod 2 = 0)%nat.
  Proof. rewrite Nat.mul_comm, Nat.mod_mul; lia. Qed.
  Lemma mod2_odd k : ((2 * k + 1) mod 2 = 1)%nat.
  Proof. symmetry. apply (Nat.mod_unique (2 * k + 1) 2 k 1); lia. Qed.
  Lemma dbl1_kron2 (h : nat -> nat -> K) P Q : dbl1 h P Q = kron2 h delta P Q.
  Proof. rewrite <- dbl1_delta. reflexivity. Qed.
  Lemma mmul_kron2 l (A B m n : nat -> nat -> K) P Q :
    mmul (2 * l) (kron2 A m) (kron2 B n) P Q = kron2 (mmul l A B) (mmul 2 m n) P Q.
  Proof.
    unfold mmul, kron2. rewrite sumn_double, sumn_mul_r. apply sumn_ext. intros x Hx.
    rewrite !div2_even, !div2_odd, !mod2_even, !mod2_odd. cbn [sumn]. ring.
  Qed.
  Lemma mod2_lt P : (P mod 2 < 2)%nat.
  Proof. apply Nat.mod_upper_bound. lia. Qed.
  Lemma delta_kron2 l P Q : (P < 2 * l)%nat -> (Q < 2 * l)%nat -> kron2 delta delta P Q = (delta P Q : K).
  Proof.
    intros _ _. unfold kron2, delta. pose proof (Nat.div_mod P 2). pose proof (Nat.div_mod Q 2).
    destruct (Nat.eqb_spec P Q) as [->|N]; [rewrite !Nat.eqb_refl; ring|].
    destruct (Nat.eqb_spec (P / 2) (Q / 2)); [|ring]. destruct (Nat.eqb_spec (P mod 2) (Q mod 2)); [lia | ring].
  Qed.
  Lemma T1_kron2 l (h C D m x y : nat -> nat -> K) P Q :
    T1 (2 * l) (kron2 h m) (kron2 C x) (kron2 D y) P Q = kron2 (T1 l h C D) (T1 2 m x y) P Q.
  Proof.
    rewrite T1_mmul. rewrite (mmul_ext K (2 * l) _ (kron2 D y) _ (kron2 (mmul l h C) (mmul 2 m x)) P Q);
      [|reflexivity|intros; apply mmul_kron2].
    rewrite mmul_kron2. unfold kron2. rewrite !T1_mmul. reflexivity.
  Qed.
  Lemma T1_dbl1 l (h C D : nat -> nat -> K) P Q :
    T1 (2 * l) (dbl1 h) (dbl1 C) (dbl1 D) P Q = dbl1 (T1 l h C D) P Q.
  Proof.
    rewrite (T1_ext K (2 * l) _ (kron2 h delta) _ (kron2 C delta) _ (kron2 D delta)) by (intros; apply dbl1_kron2).
    rewrite T1_kron2, dbl1_kron2. unfold kron2. f_equal. apply T1_delta; apply mod2_lt.
  Qed.
  Lemma dbl2_dbl1 (u : nat -> nat -> nat -> nat -> K) P Q R S :
    dbl2 u P Q R S = dbl1 (fun a c => dbl1 (fun x d => u a x c d) Q S) P R.
  Proof. unfold dbl2, dbl1. destruct (same_parity P R), (same_parity Q S); reflexivity. Qed.
  Lemma T2_dbl2 l (u : nat -> nat -> nat -> nat -> K) (C D : nat -> nat -> K) P Q R S :
    T2 (2 * l) (dbl2 u) (dbl1 C) (dbl1 D) P Q R S = dbl2 (T2 l u C D) P Q R S.
  Proof.
    rewrite T2_T1.
    rewrite (T1_ext K (2 * l) _ (dbl1 (fun a c => dbl1 (T1 l (fun x d => u a x c d) C D) Q S)) _ (dbl1 C) _ (dbl1 D));
      [|intros A B HA HB|reflexivity|reflexivity].
    - rewrite T1_dbl1, dbl2_dbl1. unfold dbl1. destruct (same_parity P R); [|reflexivity].
      destruct (same_parity Q S).
      + symmetry. apply T2_T1.
      + apply T1_zero.
    - unfold dbl1 at 3. destruct (same_parity A B) eqn:E.
      + rewrite <- T1_dbl1. apply T1_ext; try reflexivity. intros X Y HX HY. rewrite dbl2_dbl1.
        unfold dbl1 at 1. rewrite E. reflexivity.
      + rewrite (T1_ext K (2 * l) _ (fun _ _ => 0) _ (dbl1 C) _ (dbl1 D)); try reflexivity; [apply T1_zero|].
        intros X Y HX HY. rewrite dbl2_dbl1. unfold dbl1 at 1. rewrite E. reflexivity.
  Qed.
  Lemma T2_exch l (u : nat -> nat -> nat -> nat -> K) (C D : nat -> nat -> K) P Q R S :
    T2 l (exch u) C D P Q R S = exch (T2 l u C D) P Q R S.
  Proof. unfold exch. rewrite T2_sub. f_equal. apply T2_ket_swap. Qed.

  (** * Pauli algebra *)
  Section Pair.
    Variables va vb : list K.
    Hypothesis ON : orthonormal_pair va vb.
    Let V := spin_cols va vb.
    Definition rot (sg : nat -> nat -> K) := T1 2 sg V (adj V).

    Lemma isometry i j : (i < 2)%nat -> (j < 2)%nat -> mmul 2 (adj V) V i j = delta i j.
    Proof.
      destruct ON as (_ & _ & E1 & E2 & E3). unfold ip2 in *. cbn in E1, E2, E3.
      intros Hi Hj. destruct i as [|[|i]]; [| |lia]; (destruct j as [|[|j]]; [| |lia]);
        unfold mmul, adj, V, spin_cols, delta; cbn.
      - exact E1.
      - exact E3.
      - assert (E : sconj (0 + sconj (nth 0 va 0) * nth 0 vb 0 + sconj (nth 1 va 0) * nth 1 vb 0) = sconj 0) by (rewrite E3; reflexivity).
        rewrite !conj_add, !conj_mul, !conj_invol, conj_0 in E. etransitivity; [|exact E]. ring.
      - exact E2.
    Qed.
    (** A left inverse of a 2x2 matrix is a right inverse. *)
    Lemma square_inverse (p q r s x y z w : K) :
      p * x + q * z = 1 -> p * y + q * w = 0 -> r * x + s * z = 0 -> r * y + s * w = 1 ->
      x * p + y * r = 1 /\ x * q + y * s = 0 /\ z * p + w * r = 0 /\ z * q + w * s = 1.
    Proof.
      intros E1 E2 E3 E4. set (d := x * w - y * z). set (d' := p * s - q * r).
      assert (Ed : d' * d = 1).
      { unfold d, d'. transitivity ((p * x + q * z) * (r * y + s * w) - (p * y + q * w) * (r * x + s * z)); [ring|].
        rewrite E1, E2, E3, E4. ring. }
      assert (Ep : p = d' * w).
      { transitivity (d' * d * p); [rewrite Ed; ring|]. transitivity (d' * ((p * x + q * z) * w - (p * y + q * w) * z)); [unfold d; ring|].
        rewrite E1, E2. ring. }
      assert (Eq : q = - (d' * y)).
      { transitivity (d' * d * q); [rewrite Ed; ring|]. transitivity (d' * ((p * y + q * w) * x - (p * x + q * z) * y)); [unfold d; ring|].
        rewrite E1, E2. ring. }
      assert (Er : r = - (d' * z)).
      { transitivity (d' * d * r); [rewrite Ed; ring|]. transitivity (d' * ((r * x + s * z) * w - (r * y + s * w) * z)); [unfold d; ring|].
        rewrite E3, E4. ring. }
      assert (Es : s = d' * x).
      { transitivity (d' * d * s); [rewrite Ed; ring|]. transitivity (d' * ((r * y + s * w) * x - (r * x + s * z) * y)); [unfold d; ring|].
        rewrite E3, E4. ring. }
      clearbody d'. repeat split.
      - rewrite Ep, Er. transitivity (d' * d); [unfold d; ring | exact Ed].
      - rewrite Eq, Es. ring.
      - rewrite Ep, Er. ring.
      - rewrite Eq, Es. transitivity (d' * d); [unfold d; ring | exact Ed].
    Qed.
    Lemma unitarity i j : (i < 2)%nat -> (j < 2)%nat -> mmul 2 V (adj V) i j = delta i j.
    Proof.
      pose proof (isometry 0 0 ltac:(lia) ltac:(lia)) as E1. pose proof (isometry 0 1 ltac:(lia) ltac:(lia)) as E2.
      pose proof (isometry 1 0 ltac:(lia) ltac:(lia)) as E3. pose proof (isometry 1 1 ltac:(lia) ltac:(lia)) as E4.
      unfold mmul, delta in *. cbn [sumn] in *. cbn [Nat.eqb] in *.
      destruct (square_inverse (adj V 0 0) (adj V 0 1) (adj V 1 0) (adj V 1 1) (V 0%nat 0%nat) (V 0%nat 1%nat) (V 1%nat 0%nat) (V 1%nat 1%nat))
        as (F1 & F2 & F3 & F4).
      1: rewrite <- E1; ring. 1: rewrite <- E2; ring. 1: rewrite <- E3; ring. 1: rewrite <- E4; ring.
      intros Hi Hj. destruct i as [|[|i]]; [| |lia]; (destruct j as [|[|j]]; [| |lia]); cbn [Nat.eqb].
      - etransitivity; [|exact F1]. ring.
      - etransitivity; [|exact F2]. ring.
      - etransitivity; [|exact F3]. ring.
      - etransitivity; [|exact F4]. ring.
    Qed.
    Lemma rot_mmul (A B : nat -> nat -> K) i j :
      mmul 2 (rot A) (rot B) i j = rot (mmul 2 A B) i j.
    Proof.
      unfold rot.
      rewrite (mmul_ext K 2 _ (mmul 2 (mmul 2 (adj V) A) V) _ (mmul 2 (adj V) (mmul 2 B V)) i j).
      2: intros; rewrite T1_mmul, mmul_assoc; reflexivity. 2: intros; apply T1_mmul.
      rewrite <- (mmul_assoc K 2 2).
      rewrite (mmul_ext K 2 _ (mmul 2 (adj V) A) _ (mmul 2 B V) i j); [|reflexivity|].
      - rewrite T1_mmul, <- (mmul_assoc K 2 2). apply mmul_ext; [reflexivity|]. intros x Hx. apply mmul_assoc.
      - intros x Hx. rewrite mmul_assoc. rewrite (mmul_ext K 2 _ delta _ (mmul 2 B V)); [|intros; apply unitarity; assumption|reflexivity].
        apply mmul_delta_l. exact Hx.
    Qed.
    Lemma rot_ext (A B : nat -> nat -> K) i j :
      (forall x y, (x < 2)%nat -> (y < 2)%nat -> A x y = B x y) -> rot A i j = rot B i j.
    Proof. intros H. unfold rot. apply T1_ext; try reflexivity. exact H. Qed.
    Lemma rot_delta i j : (i < 2)%nat -> (j < 2)%nat -> rot delta i j = delta i j.
    Proof.
      intros Hi Hj. unfold rot. rewrite T1_mmul.
      rewrite (mmul_ext K 2 _ (adj V) _ V); [|reflexivity|intros; apply mmul_delta_l; assumption].
      apply isometry; assumption.
    Qed.
    Lemma rot_scale c (A : nat -> nat -> K) i j : rot (fun x y => c * A x y) i j = c * rot A i j.
    Proof. apply T1_scale. Qed.
    Lemma rot_trace (A : nat -> nat -> K) : sumn 2 (fun i => rot A i i) = sumn 2 (fun i => A i i).
    Proof.
      unfold rot, T1.
      transitivity (sumn 2 (fun x => sumn 2 (fun y => A x y * mmul 2 V (adj V) y x))).
      { unfold mmul. cbn [sumn]. ring. }
      transitivity (sumn 2 (fun x => sumn 2 (fun y => A x y * delta y x))).
      { apply sumn_ext; intros. apply sumn_ext; intros. rewrite unitarity by assumption. reflexivity. }
      cbn. ring.
    Qed.
    Lemma rot_hermitian (A : nat -> nat -> K) : hermitian 2 A -> hermitian 2 (rot A).
    Proof.
      intros H i j Hi Hj. unfold rot. rewrite T1_conj. apply T1_ext.
      - intros x y Hx Hy. unfold adj. apply H; assumption.
      - intros x Hx. unfold adj. rewrite conj_invol. reflexivity.
      - reflexivity.
    Qed.
  End Pair.

  (** Literal Pauli algebra. *)
  Ltac two i := destruct i as [|[|i]]; [| |lia].
  Lemma pauli_squares i j : (i < 2)%nat -> (j < 2)%nat ->
    mmul 2 pauli_x pauli_x i j = (delta i j : K) /\ mmul 2 pauli_y pauli_y i j = (delta i j : K) /\
    mmul 2 pauli_z pauli_z i j = (delta i j : K).
  Proof.
    intros Hi Hj. pose proof (i_squared K) as I2.
    two i; two j; unfold mmul, delta; cbn; repeat split; ring [I2].
  Qed.
  Lemma pauli_products i j : (i < 2)%nat -> (j < 2)%nat ->
    mmul 2 pauli_x pauli_y i j = (si * pauli_z i j : K) /\ mmul 2 pauli_y pauli_z i j = (si * pauli_x i j : K) /\
    mmul 2 pauli_z pauli_x i j = (si * pauli_y i j : K) /\
    mmul 2 pauli_y pauli_x i j = (- (si) * pauli_z i j : K) /\ mmul 2 pauli_z pauli_y i j = (- (si) * pauli_x i j : K) /\
    mmul 2 pauli_x pauli_z i j = (- (si) * pauli_y i j : K).
  Proof.
    intros Hi Hj. pose proof (i_squared K) as I2.
    two i; two j; unfold mmul; cbn; repeat split; ring [I2].
  Qed.

  (** C16 *)
  Lemma pauli_algebra (va vb : list K) : orthonormal_pair va vb ->
    exists x y z, setup_pauli_matrices (spin_col K va) (spin_col K vb) = Ok (x, y, z) /\
      (forall m, In m [x; y; z] -> shape m = [2; 2]%nat /\ hermitian 2 (mat m) /\
         mat m 0 0 + mat m 1 1 = 0 /\
         forall i j, (i < 2)%nat -> (j < 2)%nat -> mmul 2 (mat m) (mat m) i j = delta i j) /\
      forall i j, (i < 2)%nat -> (j < 2)%nat ->
        mmul 2 (mat x) (mat y) i j = si * mat z i j /\ mmul 2 (mat y) (mat z) i j = si * mat x i j /\
        mmul 2 (mat z) (mat x) i j = si * mat y i j.
  Proof.
    intros ON. pose proof ON as (La & Lb & _).
    destruct (pauli_spec K va vb La Lb) as (x & y & z & E & (Sx & _ & Gx) & (Sy & _ & Gy) & (Sz & _ & Gz)).
    exists x, y, z. split; [exact E|].
    assert (One : forall m sg, shape m = [2; 2]%nat -> (forall i j, mat m i j = rot va vb sg i j) ->
      hermitian 2 sg -> sg 0%nat 0%nat + sg 1%nat 1%nat = 0 ->
      (forall i j, (i < 2)%nat -> (j < 2)%nat -> mmul 2 sg sg i j = delta i j) ->
      shape m = [2; 2]%nat /\ hermitian 2 (mat m) /\ mat m 0 0 + mat m 1 1 = 0 /\
        forall i j, (i < 2)%nat -> (j < 2)%nat -> mmul 2 (mat m) (mat m) i j = delta i j).
    { intros m sg Sm Gm Hh Ht Hsq. split; [exact Sm|]. split; [|split].
      - intros i j Hi Hj. rewrite !Gm. apply rot_hermitian; assumption.
      - pose proof (rot_trace va vb ON sg) as T. cbn [sumn] in T. rewrite !Gm.
        transitivity (0 + rot va vb sg 0 0 + rot va vb sg 1 1); [ring|]. rewrite T.
        etransitivity; [|exact Ht]. ring.
      - intros i j Hi Hj. rewrite (mmul_ext K 2 _ (rot va vb sg) _ (rot va vb sg)) by (intros; apply Gm).
        rewrite rot_mmul by exact ON. rewrite (rot_ext va vb _ delta) by exact Hsq. apply rot_delta; assumption. }
    assert (Prod : forall m n o sm sn so, (forall i j, mat m i j = rot va vb sm i j) ->
      (forall i j, mat n i j = rot va vb sn i j) -> (forall i j, mat o i j = rot va vb so i j) ->
      (forall i j, (i < 2)%nat -> (j < 2)%nat -> mmul 2 sm sn i j = si * so i j) ->
      forall i j, mmul 2 (mat m) (mat n) i j = si * mat o i j).
    { intros m n o sm sn so Gm Gn Go H i j.
      rewrite (mmul_ext K 2 _ (rot va vb sm) _ (rot va vb sn)) by (intros; first [apply Gm | apply Gn]).
      rewrite rot_mmul by exact ON. rewrite (rot_ext va vb _ (fun x y => si * so x y)) by exact H.
      rewrite rot_scale, Go. reflexivity. }
    split.
    - intros m [<-|[<-|[<-|[]]]].
      + apply (One x pauli_x Sx Gx); [|cbn; ring|apply pauli_squares].
        intros i j Hi Hj. two i; two j; cbn; rewrite ?conj_0, ?conj_1; reflexivity.
      + apply (One y pauli_y Sy Gy); [|cbn; ring|apply pauli_squares].
        intros i j Hi Hj. two i; two j; cbn; rewrite ?conj_0, ?conj_opp, ?conj_i; ring.
      + apply (One z pauli_z Sz Gz); [|cbn; ring|apply pauli_squares].
        intros i j Hi Hj. two i; two j; cbn; rewrite ?conj_0, ?conj_opp, ?conj_1; reflexivity.
    - intros i j Hi Hj. split; [|split].
      + apply (Prod x y z pauli_x pauli_y pauli_z Gx Gy Gz). intros; apply pauli_products; assumption.
      + apply (Prod y z x pauli_y pauli_z pauli_x Gy Gz Gx). intros; apply pauli_products; assumption.
      + apply (Prod z x y pauli_z pauli_x pauli_y Gz Gx Gy). intros; apply pauli_products; assumption.
  Qed.

  (** C17, C18 *)
  Lemma spin_matrix_kron2 sg (va vb : list K) (s : nat -> nat -> K) P Q :
    spin_matrix sg va vb s P Q = shalf * kron2 s (rot va vb sg) P Q.
  Proof. reflexivity. Qed.
  Lemma mmul_scale n c d (A B : nat -> nat -> K) P Q :
    mmul n (fun x y => c * A x y) (fun x y => d * B x y) P Q = (c * d) * mmul n A B P Q.
  Proof. unfold mmul. rewrite sumn_mul_l. apply sumn_ext. intros. ring. Qed.
  Lemma kron2_ext (A A' m m' : nat -> nat -> K) l P Q : (P < 2 * l)%nat -> (Q < 2 * l)%nat ->
    (forall i j, (i < l)%nat -> (j < l)%nat -> A i j = A' i j) ->
    (forall i j, (i < 2)%nat -> (j < 2)%nat -> m i j = m' i j) -> kron2 A m P Q = kron2 A' m' P Q.
  Proof.
    intros HP HQ HA Hm. unfold kron2. rewrite HA by (apply div2_lt; assumption).
    rewrite Hm by apply mod2_lt. reflexivity.
  Qed.
  Lemma spin_product l (va vb : list K) s1 s2 (sa sb : nat -> nat -> K) P Q : orthonormal_pair va vb ->
    mmul (2 * l) (spin_matrix sa va vb s1) (spin_matrix sb va vb s2) P Q
    = shalf * shalf * kron2 (mmul l s1 s2) (rot va vb (mmul 2 sa sb)) P Q.
  Proof.
    intros ON.
    rewrite (mmul_ext K (2 * l) _ (fun x y => shalf * kron2 s1 (rot va vb sa) x y)
                                _ (fun x y => shalf * kron2 s2 (rot va vb sb) x y)) by reflexivity.
    rewrite mmul_scale, mmul_kron2. f_equal. unfold kron2. f_equal. apply rot_mmul. exact ON.
  Qed.
  Lemma quarter_quarter (x : K) : shalf * shalf * x + shalf * shalf * x = shalf * x.
  Proof.
    transitivity (shalf * ((shalf + shalf) * x)); [ring|]. rewrite half_half. ring.
  Qed.
  Lemma spin_commutator l (va vb : list K) (s sa sb sc : nat -> nat -> K) P Q : orthonormal_pair va vb ->
    (forall p q, (p < l)%nat -> (q < l)%nat -> s p q = delta p q) ->
    (forall i j, (i < 2)%nat -> (j < 2)%nat -> mmul 2 sa sb i j = si * sc i j) ->
    (forall i j, (i < 2)%nat -> (j < 2)%nat -> mmul 2 sb sa i j = - si * sc i j) ->
    (P < 2 * l)%nat -> (Q < 2 * l)%nat ->
    mmul (2 * l) (spin_matrix sa va vb s) (spin_matrix sb va vb s) P Q
    - mmul (2 * l) (spin_matrix sb va vb s) (spin_matrix sa va vb s) P Q
    = si * spin_matrix sc va vb s P Q.
  Proof.
    intros ON Hs H1 H2 HP HQ. rewrite !spin_product by exact ON.
    assert (Hss : forall p q, (p < l)%nat -> (q < l)%nat -> mmul l s s p q = s p q).
    { intros p q Hp Hq. rewrite (mmul_ext K l _ delta _ s) by (intros; auto). apply mmul_delta_l. exact Hp. }
    rewrite (kron2_ext _ s _ (fun i j => si * rot va vb sc i j) l P Q HP HQ Hss).
    2:{ intros i j Hi Hj. rewrite <- rot_scale. apply rot_ext. exact H1. }
    rewrite (kron2_ext _ s _ (fun i j => - si * rot va vb sc i j) l P Q HP HQ Hss).
    2:{ intros i j Hi Hj. rewrite <- rot_scale. apply rot_ext. exact H2. }
    rewrite spin_matrix_kron2. rewrite <- (quarter_quarter (kron2 s (rot va vb sc) P Q)). unfold kron2. ring.
  Qed.
  Lemma spin_algebra ab anti b l s :
    (b_cls b = SincDVR -> ab = None) ->
    let va := match ab with Some p => fst p | None => default_a K end in
    let vb := match ab with Some p => snd p | None => default_b K end in
    orthonormal_pair va vb -> ready b l -> b_spin b = false -> b_arr b F_s = Some s ->
    (forall p q, (p < l)%nat -> (q < l)%nat -> mat s p q = delta p q) ->
    exists b' sx sy sz, change_to_general ab anti b = (Ok true, b') /\
      b_arr b' F_spx = Some sx /\ b_arr b' F_spy = Some sy /\ b_arr b' F_spz = Some sz /\
      forall P Q, (P < 2 * l)%nat -> (Q < 2 * l)%nat ->
        mmul (2 * l) (mat sx) (mat sy) P Q - mmul (2 * l) (mat sy) (mat sx) P Q = si * mat sz P Q /\
        mmul (2 * l) (mat sy) (mat sz) P Q - mmul (2 * l) (mat sz) (mat sy) P Q = si * mat sx P Q /\
        mmul (2 * l) (mat sz) (mat sx) P Q - mmul (2 * l) (mat sx) (mat sz) P Q = si * mat sy P Q.
  Proof.
    intros Hab va vb ON R Hsp Hs Hd.
    destruct (change_to_general_ok K ab anti b l s Hab (orthonormal_accepted K _ _ ON) R Hsp Hs) as (b' & E & D).
    fold va vb in D.
    destruct (sd_spx D) as (sx & Ex & _ & Gx). destruct (sd_spy D) as (sy & Ey & _ & Gy).
    destruct (sd_spz D) as (sz & Ez & _ & Gz). exists b', sx, sy, sz. repeat split; try assumption.
    all: rewrite ?Gx, ?Gy, ?Gz.
    - rewrite (mmul_ext K (2 * l) (mat sx) (spin_matrix pauli_x va vb (mat s)) (mat sy) (spin_matrix pauli_y va vb (mat s))) by auto.
      rewrite (mmul_ext K (2 * l) (mat sy) (spin_matrix pauli_y va vb (mat s)) (mat sx) (spin_matrix pauli_x va vb (mat s))) by auto.
      apply spin_commutator; try assumption; intros; apply pauli_products; assumption.
    - rewrite (mmul_ext K (2 * l) (mat sy) (spin_matrix pauli_y va vb (mat s)) (mat sz) (spin_matrix pauli_z va vb (mat s))) by auto.
      rewrite (mmul_ext K (2 * l) (mat sz) (spin_matrix pauli_z va vb (mat s)) (mat sy) (spin_matrix pauli_y va vb (mat s))) by auto.
      apply spin_commutator; try assumption; intros; apply pauli_products; assumption.
    - rewrite (mmul_ext K (2 * l) (mat sz) (spin_matrix pauli_z va vb (mat s)) (mat sx) (spin_matrix pauli_x va vb (mat s))) by auto.
      rewrite (mmul_ext K (2 * l) (mat sx) (spin_matrix pauli_x va vb (mat s)) (mat sz) (spin_matrix pauli_z va vb (mat s))) by auto.
      apply spin_commutator; try assumption; intros; apply pauli_products; assumption.
  Qed.
  (** Elements of the spin matrices, for every overlap and accepted pair. *)
  Lemma spin_elements ab anti b l s :
    (b_cls b = SincDVR -> ab = None) ->
    let va := match ab with Some p => fst p | None => default_a K end in
    let vb := match ab with Some p => snd p | None => default_b K end in
    orthonormal_pair va vb -> ready b l -> b_spin b = false -> b_arr b F_s = Some s ->
    exists b' sx sy sz px py pz, change_to_general ab anti b = (Ok true, b') /\
      b_arr b' F_spx = Some sx /\ b_arr b' F_spy = Some sy /\ b_arr b' F_spz = Some sz /\
      b_arr b' F_sigx = Some px /\ b_arr b' F_sigy = Some py /\ b_arr b' F_sigz = Some pz /\
      shape sx = [2 * l; 2 * l]%nat /\ shape sy = [2 * l; 2 * l]%nat /\ shape sz = [2 * l; 2 * l]%nat /\
      (forall i j, mat px i j = T1 2 pauli_x (spin_cols va vb) (adj (spin_cols va vb)) i j /\
                   mat py i j = T1 2 pauli_y (spin_cols va vb) (adj (spin_cols va vb)) i j /\
                   mat pz i j = T1 2 pauli_z (spin_cols va vb) (adj (spin_cols va vb)) i j) /\
      forall P Q, mat sx P Q = shalf * (mat s (P / 2) (Q / 2) * mat px (P mod 2) (Q mod 2)) /\
                  mat sy P Q = shalf * (mat s (P / 2) (Q / 2) * mat py (P mod 2) (Q mod 2)) /\
                  mat sz P Q = shalf * (mat s (P / 2) (Q / 2) * mat pz (P mod 2) (Q mod 2)).
  Proof.
    intros Hab va vb ON R Hsp Hs.
    destruct (change_to_general_ok K ab anti b l s Hab (orthonormal_accepted K _ _ ON) R Hsp Hs) as (b' & E & D).
    fold va vb in D.
    destruct (sd_spx D) as (sx & Ex & Sx & Gx). destruct (sd_spy D) as (sy & Ey & Sy & Gy).
    destruct (sd_spz D) as (sz & Ez & Sz & Gz).
    destruct (sd_sigx D) as (px & Epx & _ & Gpx). destruct (sd_sigy D) as (py & Epy & _ & Gpy).
    destruct (sd_sigz D) as (pz & Epz & _ & Gpz).
    exists b', sx, sy, sz, px, py, pz. repeat split; try assumption; try apply Gpx; try apply Gpy; try apply Gpz.
    - rewrite Gx. unfold spin_matrix. rewrite <- Gpx. reflexivity.
    - rewrite Gy. unfold spin_matrix. rewrite <- Gpy. reflexivity.
    - rewrite Gz. unfold spin_matrix. rewrite <- Gpz. reflexivity.
  Qed.

  Definition three_quarters : K := shalf * shalf + shalf * shalf + shalf * shalf.
  Lemma SsS l (va vb : list K) (s sg : nat -> nat -> K) P Q : orthonormal_pair va vb ->
    (forall i j, (i < 2)%nat -> (j < 2)%nat -> mmul 2 sg sg i j = delta i j) ->
    (P < 2 * l)%nat -> (Q < 2 * l)%nat ->
    mmul (2 * l) (mmul (2 * l) (spin_matrix sg va vb s) (dbl1 s)) (spin_matrix sg va vb s) P Q
    = shalf * shalf * dbl1 (mmul l (mmul l s s) s) P Q.
  Proof.
    intros ON Hsq HP HQ. rewrite dbl1_kron2.
    rewrite (mmul_ext K (2 * l) _ (spin_matrix sg va vb (mmul l s s)) _ (spin_matrix sg va vb s)); [|intros X HX|reflexivity].
    - rewrite spin_product by exact ON. f_equal. apply (kron2_ext _ _ _ _ l P Q HP HQ); [reflexivity|].
      intros i j Hi Hj. rewrite (rot_ext va vb _ delta) by exact Hsq. apply rot_delta; assumption.
    - rewrite (mmul_ext K (2 * l) _ (fun x y => shalf * kron2 s (rot va vb sg) x y) _ (fun x y => 1 * kron2 s delta x y)).
      + rewrite mmul_scale, mmul_kron2, spin_matrix_kron2. unfold kron2.
        rewrite mmul_delta_r by apply mod2_lt. ring.
      + reflexivity.
      + intros. rewrite dbl1_kron2. ring.
  Qed.
  (** C18: what spin_2 holds, for every overlap. *)
  Lemma spin_2_cubes_the_overlap ab anti b l s :
    (b_cls b = SincDVR -> ab = None) ->
    let va := match ab with Some p => fst p | None => default_a K end in
    let vb := match ab with Some p => snd p | None => default_b K end in
    orthonormal_pair va vb -> ready b l -> b_spin b = false -> b_arr b F_s = Some s ->
    exists b' s2, change_to_general ab anti b = (Ok true, b') /\ b_arr b' F_sp2 = Some s2 /\
      shape s2 = [2 * l; 2 * l]%nat /\
      forall P Q, (P < 2 * l)%nat -> (Q < 2 * l)%nat ->
        mat s2 P Q = three_quarters * dbl1 (mmul l (mmul l (mat s) (mat s)) (mat s)) P Q.
  Proof.
    intros Hab va vb ON R Hsp Hs.
    destruct (change_to_general_ok K ab anti b l s Hab (orthonormal_accepted K _ _ ON) R Hsp Hs) as (b' & E & D).
    fold va vb in D. destruct (sd_sp2 D) as (s2 & E2 & S2 & G2). exists b', s2.
    split; [exact E|]. split; [exact E2|]. split; [exact S2|]. intros P Q HP HQ. rewrite G2 by assumption. cbv beta zeta.
    rewrite !SsS by (try assumption; intros; apply pauli_squares; assumption). unfold three_quarters. ring.
  Qed.
  Lemma spin_2_orthonormal ab anti b l s :
    (b_cls b = SincDVR -> ab = None) ->
    let va := match ab with Some p => fst p | None => default_a K end in
    let vb := match ab with Some p => snd p | None => default_b K end in
    orthonormal_pair va vb -> ready b l -> b_spin b = false -> b_arr b F_s = Some s ->
    (forall p q, (p < l)%nat -> (q < l)%nat -> mat s p q = delta p q) ->
    exists b' s2 s', change_to_general ab anti b = (Ok true, b') /\ b_arr b' F_sp2 = Some s2 /\
      b_arr b' F_s = Some s' /\
      forall P Q, (P < 2 * l)%nat -> (Q < 2 * l)%nat -> mat s2 P Q = three_quarters * mat s' P Q.
  Proof.
    intros Hab va vb ON R Hsp Hs Hd.
    destruct (spin_2_cubes_the_overlap ab anti b l s Hab ON R Hsp Hs) as (b' & s2 & E & E2 & _ & G2).
    destruct (change_to_general_ok K ab anti b l s Hab (orthonormal_accepted K _ _ ON) R Hsp Hs) as (b'' & E' & D).
    rewrite E in E'. injection E' as <-.
    pose proof (sd_s D) as Gs. rewrite Hs in Gs. destruct (b_arr b' F_s) as [s'|] eqn:Es; [|destruct Gs].
    exists b', s2, s'. repeat split; try assumption. intros P Q HP HQ. rewrite G2 by assumption. f_equal.
    rewrite (proj2 Gs). unfold dbl1. destruct (same_parity P Q); [|reflexivity].
    assert (Hss : forall p q, (p < l)%nat -> (q < l)%nat -> mmul l (mat s) (mat s) p q = mat s p q).
    { intros p q Hp Hq. rewrite (mmul_ext K l _ delta _ (mat s)) by (intros; auto). apply mmul_delta_l. exact Hp. }
    rewrite (mmul_ext K l _ (mat s) _ (mat s)); [|intros; apply Hss; [apply div2_lt|]; assumption|reflexivity].
    apply Hss; apply div2_lt; assumption.
  Qed.

  (** C19: expectation value of S^2 in the closed-shell determinant that
      occupies spin-orbitals 0 .. 2m-1. *)
  Definition spin_squared_expectation (n : nat) (s2 : nat -> nat -> K) (tb : nat -> nat -> nat -> nat -> K) : K :=
    sumn n (fun i => s2 i i) + sumn n (fun i => sumn n (fun j => tb i j i j)).
  Lemma sum_kron2_diag m (A x : nat -> nat -> K) :
    sumn (2 * m) (fun i => kron2 A x i i) = sumn m (fun i => A i i) * (x 0%nat 0%nat + x 1%nat 1%nat).
  Proof.
    rewrite sumn_double, sumn_mul_r. apply sumn_ext. intros i Hi. unfold kron2.
    rewrite !div2_even, !div2_odd, !mod2_even, !mod2_odd. ring.
  Qed.
  Lemma closed_shell_singlet ab b l m s :
    (b_cls b = SincDVR -> ab = None) ->
    let va := match ab with Some p => fst p | None => default_a K end in
    let vb := match ab with Some p => snd p | None => default_b K end in
    orthonormal_pair va vb -> ready b l -> b_spin b = false -> b_asym b = false -> b_arr b F_s = Some s ->
    (forall p q, (p < l)%nat -> (q < l)%nat -> mat s p q = delta p q) -> (m <= l)%nat ->
    exists b' s2 tb, change_to_general ab true b = (Ok true, b') /\ b_arr b' F_sp2 = Some s2 /\
      b_arr b' F_sp2tb = Some tb /\ spin_squared_expectation (2 * m) (mat s2) (ten tb) = 0.
  Proof.
    intros Hab va vb ON R Hsp Has Hs Hd Hm.
    destruct (spin_2_orthonormal ab true b l s Hab ON R Hsp Hs Hd) as (b' & s2 & s' & E & E2 & Es & G2).
    destruct (change_to_general_ok K ab true b l s Hab (orthonormal_accepted K _ _ ON) R Hsp Hs) as (b'' & E' & D).
    rewrite E in E'. injection E' as <-. fold va vb in D. rewrite Has in D. cbn [negb andb] in D.
    destruct (sd_tb D) as (tb & Etb & _ & Gtb). exists b', s2, tb. repeat split; try assumption.
    unfold spin_squared_expectation.
    pose proof (sd_s D) as Gs. rewrite Hs, Es in Gs. destruct Gs as [_ Gs].
    set (N := sumn m (fun _ => 1 : K)).
    assert (T1' : sumn (2 * m) (fun i => mat s2 i i) = three_quarters * (N + N)).
    { rewrite (sumn_ext K _ _ (fun i => three_quarters * 1)).
      - rewrite sumn_double. unfold N. rewrite <- sumn_add, sumn_mul_l. apply sumn_ext. intros. ring.
      - intros i Hi. rewrite G2 by lia. f_equal. rewrite Gs. unfold dbl1. rewrite same_parity_mod2, Nat.eqb_refl.
        rewrite Hd by (apply div2_lt; lia). unfold delta. rewrite Nat.eqb_refl. reflexivity. }
    rewrite T1'.
    assert (Hm2 : forall P, (P < 2 * m)%nat -> (P < 2 * l)%nat) by (intros; lia).
    (* direct part: product of traces *)
    assert (Dir : forall sg, sg 0%nat 0%nat + sg 1%nat 1%nat = 0 ->
      sumn (2 * m) (fun i => sumn (2 * m) (fun j => spin_matrix sg va vb (mat s) i i * spin_matrix sg va vb (mat s) j j)) = 0).
    { intros sg Ht. rewrite <- sumn_mul_sumn.
      assert (Z : sumn (2 * m) (fun i => spin_matrix sg va vb (mat s) i i) = 0).
      { transitivity (shalf * sumn (2 * m) (fun i => kron2 (mat s) (rot va vb sg) i i)).
        - rewrite sumn_mul_l. reflexivity.
        - rewrite sum_kron2_diag. pose proof (rot_trace va vb ON sg) as T. cbn [sumn] in T.
          assert (T0 : rot va vb sg 0 0 + rot va vb sg 1 1 = 0).
          { transitivity (0 + rot va vb sg 0 0 + rot va vb sg 1 1); [ring|]. rewrite T. etransitivity; [|exact Ht]. ring. }
          rewrite T0. ring. }
      rewrite Z. ring. }
    (* exchange part: trace of the square *)
    assert (Exc : forall sg, (forall i j, (i < 2)%nat -> (j < 2)%nat -> mmul 2 sg sg i j = delta i j) ->
      sumn (2 * m) (fun i => sumn (2 * m) (fun j => spin_matrix sg va vb (mat s) i j * spin_matrix sg va vb (mat s) j i))
      = shalf * shalf * (N + N)).
    { intros sg Hsq.
      transitivity (sumn (2 * m) (fun i => mmul (2 * m) (spin_matrix sg va vb (mat s)) (spin_matrix sg va vb (mat s)) i i)); [reflexivity|].
      transitivity (shalf * shalf * sumn (2 * m) (fun i => kron2 (mmul m (mat s) (mat s)) (rot va vb (mmul 2 sg sg)) i i)).
      { rewrite sumn_mul_l. apply sumn_ext. intros i Hi. apply spin_product. exact ON. }
      f_equal. rewrite sum_kron2_diag.
      rewrite !(rot_ext va vb (mmul 2 sg sg) delta) by exact Hsq. rewrite !rot_delta by (try exact ON; lia).
      unfold delta. cbn [Nat.eqb]. rewrite (sumn_ext K m _ (fun _ => 1)).
      - fold N. ring.
      - intros i Hi. unfold mmul. rewrite (sumn_ext K m _ (fun k => (if (k =? i)%nat then 1 else 0) * (if (k =? i)%nat then 1 else 0))).
        + rewrite (sumn_delta K m i (fun k => if (k =? i)%nat then 1 else 0) Hi), Nat.eqb_refl. reflexivity.
        + intros k Hk. rewrite !Hd by lia. unfold delta. rewrite (Nat.eqb_sym i k). reflexivity. }
    assert (T2' : sumn (2 * m) (fun i => sumn (2 * m) (fun j => ten tb i j i j)) = - (three_quarters * (N + N))).
    { set (S := fun sg => spin_matrix sg va vb (mat s)) in *.
      transitivity (sumn (2 * m) (fun i => sumn (2 * m) (fun j =>
        (S pauli_x i i * S pauli_x j j + S pauli_y i i * S pauli_y j j + S pauli_z i i * S pauli_z j j)
        - (S pauli_x i j * S pauli_x j i + S pauli_y i j * S pauli_y j i + S pauli_z i j * S pauli_z j i)))).
      { apply sumn_ext; intros i Hi. apply sumn_ext; intros j Hj. rewrite Gtb by auto. reflexivity. }
      transitivity (
        (sumn (2*m) (fun i => sumn (2*m) (fun j => S pauli_x i i * S pauli_x j j))
         + sumn (2*m) (fun i => sumn (2*m) (fun j => S pauli_y i i * S pauli_y j j))
         + sumn (2*m) (fun i => sumn (2*m) (fun j => S pauli_z i i * S pauli_z j j)))
       - (sumn (2*m) (fun i => sumn (2*m) (fun j => S pauli_x i j * S pauli_x j i))
         + sumn (2*m) (fun i => sumn (2*m) (fun j => S pauli_y i j * S pauli_y j i))
         + sumn (2*m) (fun i => sumn (2*m) (fun j => S pauli_z i j * S pauli_z j i)))).
      { rewrite <- !sumn_add, <- !sumn_sub. apply sumn_ext; intros i Hi. rewrite <- !sumn_add, <- !sumn_sub. reflexivity. }
      unfold S. rewrite !Dir by (cbn; ring). rewrite !Exc by (intros; apply pauli_squares; assumption).
      unfold three_quarters. ring. }
    rewrite T2'. ring.
  Qed.

  (** C14 *)
  Lemma sum_dbl1_col l (C : nat -> nat -> K) (f : nat -> K) P :
    sumn (2 * l) (fun i => dbl1 C i P * f (i / 2)%nat) = sumn l (fun i => C i (P / 2)%nat * f i).
  Proof.
    rewrite sumn_double. apply sumn_ext. intros k Hk. unfold dbl1.
    rewrite !same_parity_mod2, !div2_even, !div2_odd, !mod2_even, !mod2_odd.
    destruct (mod2_cases P) as [E|E]; rewrite E; cbn; ring.
  Qed.
  Lemma sum_dbl1_row l (D : nat -> nat -> K) (f : nat -> K) P :
    sumn (2 * l) (fun i => dbl1 D P i * f (i / 2)%nat) = sumn l (fun i => D (P / 2)%nat i * f i).
  Proof.
    rewrite sumn_double. apply sumn_ext. intros k Hk. unfold dbl1.
    rewrite !same_parity_mod2, !div2_even, !div2_odd, !mod2_even, !mod2_odd.
    destruct (mod2_cases P) as [E|E]; rewrite E; cbn; ring.
  Qed.
  Definition spatial_fields : list field := [F_h; F_s; F_u; F_dip; F_spf; F_bra].
  Lemma T1_dbl1' l k (h C D C2 D2 : nat -> nat -> K) P Q :
    (forall x y, (x < 2 * l)%nat -> (y < 2 * k)%nat -> C2 x y = dbl1 C x y) ->
    (forall x y, (x < 2 * k)%nat -> (y < 2 * l)%nat -> D2 x y = dbl1 D x y) ->
    (P < 2 * k)%nat -> (Q < 2 * k)%nat ->
    T1 (2 * l) (dbl1 h) C2 D2 P Q = dbl1 (T1 l h C D) P Q.
  Proof.
    intros HC HD HP HQ. rewrite <- T1_dbl1. apply T1_ext; [reflexivity| |]; intros; auto.
  Qed.

  Lemma doubling_commutes ab anti b l k (s C D C2 D2 : arr) :
    (b_cls b = SincDVR -> ab = None) ->
    let va := match ab with Some p => fst p | None => default_a K end in
    let vb := match ab with Some p => snd p | None => default_b K end in
    orthonormal_pair va vb -> ready b l -> b_spin b = false -> b_arr b F_s = Some s ->
    spin_mats_ok b l k -> (b_arr b F_spf = None -> b_arr b F_bra = None) ->
    shape C = [l; k] -> shape D = [k; l] -> shape C2 = [2 * l; 2 * k]%nat -> shape D2 = [2 * k; 2 * l]%nat ->
    (forall x y, (x < 2 * l)%nat -> (y < 2 * k)%nat -> mat C2 x y = dbl1 (mat C) x y) ->
    (forall x y, (x < 2 * k)%nat -> (y < 2 * l)%nat -> mat D2 x y = dbl1 (mat D) x y) ->
    exists b1 b2 b3 b4,
      change_basis C (Some D) b = (Ok tt, b1) /\ change_to_general ab anti b1 = (Ok true, b2) /\
      change_to_general ab anti b = (Ok true, b3) /\ change_basis C2 (Some D2) b3 = (Ok tt, b4) /\
      b_l b2 = b_l b4 /\ b_spin b2 = b_spin b4 /\ b_asym b2 = b_asym b4 /\
      forall f, In f spatial_fields -> opt_aeq (b_arr b2 f) (b_arr b4 f).
  Proof.
    intros Hab va vb ON R Hsp Hs Hsm Hbra HC HD HC2 HD2 GC GD.
    destruct (change_basis_ok K l k C D HC HD b R) as (b1 & E1 & B1).
    pose proof (changed_ready K b b1 C D l k B1 R Hsm Hbra) as R1.
    pose proof (bc_s B1) as Gs. rewrite Hs in Gs. destruct (b_arr b1 F_s) as [s1|] eqn:Es1; [|destruct Gs].
    assert (Hab1 : b_cls b1 = SincDVR -> ab = None) by (rewrite (bc_cls B1); exact Hab).
    assert (Hsp1 : b_spin b1 = false) by (rewrite (bc_spin B1); exact Hsp).
    destruct (change_to_general_ok K ab anti b1 k s1 Hab1 (orthonormal_accepted K _ _ ON) R1 Hsp1 Es1) as (b2 & E2 & B2).
    destruct (change_to_general_ok K ab anti b l s Hab (orthonormal_accepted K _ _ ON) R Hsp Hs) as (b3 & E3 & B3).
    pose proof (doubled_ready K b b3 l _ _ _ s R Hbra B3) as R3.
    destruct (change_basis_ok K (2 * l) (2 * k) C2 D2 HC2 HD2 b3 R3) as (b4 & E4 & B4).
    exists b1, b2, b3, b4. split; [exact E1|]. split; [exact E2|]. split; [exact E3|]. split; [exact E4|].
    split; [rewrite (sd_l B2), (bc_l B4); reflexivity|].
    split; [rewrite (sd_spin B2), (bc_spin B4), (sd_spin B3); reflexivity|].
    split; [rewrite (sd_asym B2), (bc_asym B4), (sd_asym B3), (bc_asym B1); reflexivity|].
    assert (Hone : forall f, doubled1 k (b_arr b1 f) (b_arr b2 f) -> changed1 l k C D (b_arr b f) (b_arr b1 f) ->
      doubled1 l (b_arr b f) (b_arr b3 f) -> changed1 (2 * l) (2 * k) C2 D2 (b_arr b3 f) (b_arr b4 f) ->
      opt_aeq (b_arr b2 f) (b_arr b4 f)).
    { intros f X2 X1 X3 X4.
      destruct (b_arr b f) as [a|], (b_arr b1 f) as [a1|], (b_arr b2 f) as [a2|], (b_arr b3 f) as [a3|], (b_arr b4 f) as [a4|];
        unfold doubled1, doubled2, doubled_dip, doubled_spf, changed1, changed2, changed_dip, changed_spf, changed_bra in X1, X2, X3, X4; try tauto; unfold opt_aeq; try exact I.
      destruct X1 as [_ G1], X2 as [S2 G2], X3 as [_ G3], X4 as [S4 G4].
      apply (aeq2 K _ _ _ _ S2 S4). intros P Q HP HQ. rewrite G2, G4 by assumption.
      rewrite (T1_ext K (2 * l) _ (dbl1 (mat a)) _ (mat C2) _ (mat D2)) by auto.
      rewrite (T1_dbl1' l k _ (mat C) (mat D)) by assumption.
      unfold dbl1. destruct (same_parity P Q); [|reflexivity]. apply G1; apply div2_lt; assumption. }
    intros f Hf. cbn in Hf. destruct_or Hf; subst f.
    - apply Hone; [exact (sd_h B2) | exact (bc_h B1) | exact (sd_h B3) | exact (bc_h B4)].
    - apply Hone; [exact (sd_s B2) | rewrite Es1, Hs; exact Gs | exact (sd_s B3) | exact (bc_s B4)].
    - pose proof (sd_u B2) as X2. pose proof (bc_u B1) as X1. pose proof (sd_u B3) as X3. pose proof (bc_u B4) as X4.
      rewrite (bc_asym B1) in X2. set (an := anti && negb (b_asym b)) in *.
      destruct (b_arr b F_u) as [a|], (b_arr b1 F_u) as [a1|], (b_arr b2 F_u) as [a2|], (b_arr b3 F_u) as [a3|], (b_arr b4 F_u) as [a4|];
        unfold doubled1, doubled2, doubled_dip, doubled_spf, changed1, changed2, changed_dip, changed_spf, changed_bra in X1, X2, X3, X4; try tauto; unfold opt_aeq; try exact I.
      destruct X1 as [_ G1], X2 as [S2 G2], X3 as [_ G3], X4 as [S4 G4].
      apply (aeq4 K _ _ _ _ _ _ S2 S4). intros P Q R' S HP HQ HR HS. rewrite G2, G4 by assumption.
      assert (Hd : forall P Q R' S, (P < 2 * k)%nat -> (Q < 2 * k)%nat -> (R' < 2 * k)%nat -> (S < 2 * k)%nat ->
        T2 (2 * l) (dbl2 (ten a)) (mat C2) (mat D2) P Q R' S = dbl2 (ten a1) P Q R' S).
      { clear - GC GD G1. intros P Q R' S HP HQ HR HS.
        transitivity (dbl2 (T2 l (ten a) (mat C) (mat D)) P Q R' S).
        - rewrite <- T2_dbl2. apply T2_ext; [reflexivity| |]; intros; split; auto.
        - unfold dbl2. destruct (_ && _); [|reflexivity]. symmetry. apply G1; apply div2_lt; assumption. }
      rewrite (T2_ext K (2 * l) _ (if an then exch (dbl2 (ten a)) else dbl2 (ten a)) _ (mat C2) _ (mat D2)) by auto.
      destruct an.
      + rewrite T2_exch. unfold exch. rewrite !Hd by assumption. reflexivity.
      + symmetry. apply Hd; assumption.
    - pose proof (sd_dip B2) as X2. pose proof (bc_dip B1) as X1. pose proof (sd_dip B3) as X3. pose proof (bc_dip B4) as X4.
      rewrite (bc_dim B1) in X2. rewrite (sd_dim B3) in X4.
      destruct (b_arr b F_dip) as [a|], (b_arr b1 F_dip) as [a1|], (b_arr b2 F_dip) as [a2|], (b_arr b3 F_dip) as [a3|], (b_arr b4 F_dip) as [a4|];
        unfold doubled1, doubled2, doubled_dip, doubled_spf, changed1, changed2, changed_dip, changed_spf, changed_bra in X1, X2, X3, X4; try tauto; unfold opt_aeq; try exact I.
      destruct X1 as [_ G1], X2 as [S2 G2], X3 as [_ G3], X4 as [S4 G4].
      split; [rewrite S2, S4; reflexivity|]. intros idx Hv. rewrite S2 in Hv.
      destruct (valid3 _ _ _ _ Hv) as (i & P & Q & -> & Hi & HP & HQ).
      rewrite G2, G4 by assumption.
      rewrite (T1_ext K (2 * l) _ (dbl1 (fun p q => get a [i; p; q])) _ (mat C2) _ (mat D2)) by auto.
      rewrite (T1_dbl1' l k _ (mat C) (mat D)) by assumption.
      unfold dbl1. destruct (same_parity P Q); [|reflexivity]. apply G1; try assumption; apply div2_lt; assumption.
    - pose proof (sd_spf B2) as X2. pose proof (bc_spf B1) as X1. pose proof (sd_spf B3) as X3. pose proof (bc_spf B4) as X4.
      destruct (b_arr b F_spf) as [a|], (b_arr b1 F_spf) as [a1|], (b_arr b2 F_spf) as [a2|], (b_arr b3 F_spf) as [a3|], (b_arr b4 F_spf) as [a4|];
        unfold doubled1, doubled2, doubled_dip, doubled_spf, changed1, changed2, changed_dip, changed_spf, changed_bra in X1, X2, X3, X4; try tauto; unfold opt_aeq; try exact I.
      destruct X1 as (S1 & _ & G1), X2 as [S2 G2], X3 as [S3 G3], X4 as (S4 & _ & G4).
      split; [rewrite S2, S4, S1, S3; reflexivity|]. intros idx Hv. rewrite S2 in Hv.
      destruct (valid_cons _ _ _ Hv) as (P & x & -> & HP & _). rewrite G2, G4 by assumption.
      rewrite G1 by (apply div2_lt; assumption).
      rewrite <- (sum_dbl1_col l (mat C) (fun i => get a (i :: x))). apply sumn_ext. intros i Hi.
      rewrite GC, G3 by assumption. reflexivity.
    - destruct (b_arr b F_spf) as [spf|] eqn:Espf.
      + assert (N1 : b_arr b1 F_spf <> None).
        { pose proof (bc_spf B1) as X. rewrite Espf in X. destruct (b_arr b1 F_spf); [discriminate | destruct X]. }
        assert (N3 : b_arr b3 F_spf <> None).
        { pose proof (sd_spf B3) as X. rewrite Espf in X. destruct (b_arr b3 F_spf); [discriminate | destruct X]. }
        pose proof (sd_bra B2 N1) as X2. pose proof (bc_bra B1 ltac:(congruence)) as X1.
        pose proof (sd_bra B3 ltac:(congruence)) as X3. pose proof (bc_bra B4 N3) as X4.
        assert (V1 : bra_view b1 = b_arr b1 F_bra).
        { unfold bra_view. destruct (b_arr b1 F_bra); [reflexivity|]. exfalso. clear - X1 Espf. unfold bra_view in X1.
          rewrite Espf in X1. destruct (b_arr b F_bra); exact X1. }
        assert (V3 : bra_view b3 = b_arr b3 F_bra).
        { unfold bra_view. destruct (b_arr b3 F_bra); [reflexivity|]. exfalso. clear - X3 Espf. unfold bra_view in X3.
          rewrite Espf in X3. destruct (b_arr b F_bra); exact X3. }
        rewrite V1 in X2. rewrite V3 in X4.
        destruct (bra_view b) as [a|], (b_arr b1 F_bra) as [a1|], (b_arr b2 F_bra) as [a2|], (b_arr b3 F_bra) as [a3|], (b_arr b4 F_bra) as [a4|];
          unfold doubled1, doubled2, doubled_dip, doubled_spf, changed1, changed2, changed_dip, changed_spf, changed_bra in X1, X2, X3, X4; try tauto; unfold opt_aeq; try exact I.
        destruct X1 as (S1 & _ & G1), X2 as [S2 G2], X3 as [S3 G3], X4 as (S4 & _ & G4).
        split; [rewrite S2, S4, S1, S3; reflexivity|]. intros idx Hv. rewrite S2 in Hv.
        destruct (valid_cons _ _ _ Hv) as (P & x & -> & HP & _). rewrite G2, G4 by assumption.
        rewrite G1 by (apply div2_lt; assumption).
        rewrite <- (sum_dbl1_row l (mat D) (fun i => get a (i :: x))). apply sumn_ext. intros i Hi.
        rewrite GD, G3 by assumption. reflexivity.
      + assert (N1 : b_arr b1 F_spf = None).
        { pose proof (bc_spf B1) as X. rewrite Espf in X. destruct (b_arr b1 F_spf); [destruct X | reflexivity]. }
        assert (N3 : b_arr b3 F_spf = None).
        { pose proof (sd_spf B3) as X. rewrite Espf in X. destruct (b_arr b3 F_spf); [destruct X | reflexivity]. }
        rewrite (sd_bra0 B2 N1), (bc_bra0 B1 Espf), (bc_bra0 B4 N3), (sd_bra0 B3 Espf), (Hbra eq_refl). exact I.
  Qed.

  (** C15 *)
  Lemma rejected_doubling_no_overlap va vb anti b l : b_l b = l -> b_spin b = false -> b_arr b F_s = None ->
    to_general_base va vb anti b = (Err AttributeError, set_l (2 * l) (set_spin true b)).
  Proof.
    intros Hl Hsp Hs. unfold to_general_base. rewrite (bind_ok K _ _ _ b b) by reflexivity. rewrite Hsp, Hl.
    rewrite (bind_ok K _ _ _ tt (set_spin true b)) by reflexivity.
    rewrite (bind_ok K _ _ _ tt (set_l (2 * l) (set_spin true b))) by reflexivity.
    apply bind_err. rewrite Hs. reflexivity.
  Qed.
  Lemma rejected_doubling_pair (va vb : list K) anti b l s : ready b l -> b_spin b = false ->
    b_arr b F_s = Some s -> length va = 2%nat -> length vb = 2%nat ->
    small (ip2 va va - 1) && small (ip2 vb vb - 1) && small (ip2 va vb - 0) = false ->
    exists b', to_general_base va vb anti b = (Err AssertionError, b') /\
      b_l b' = (2 * l)%nat /\ b_spin b' = true /\
      doubled1 l (b_arr b F_h) (b_arr b' F_h) /\ doubled1 l (b_arr b F_s) (b_arr b' F_s) /\
      doubled2 l false (b_arr b F_u) (b_arr b' F_u) /\
      forall f, In f [F_dip; F_spf; F_bra; F_spx; F_spy; F_spz; F_sp2; F_sp2tb] -> b_arr b' f = b_arr b f.
  Proof.
    intros R Hspin Hs La Lb Hrej.
    destruct R as [(m & Em) Hl (h & Hh & Sh) (u & Hu & Su) Rs Rd Rspf Rbra Rsp Rtb].
    pose proof (Rs s Hs) as Ss.
    unfold to_general_base. rewrite (bind_ok K _ _ _ b b) by reflexivity. rewrite Hspin, Hl.
    rewrite (bind_ok K _ _ _ tt (set_spin true b)) by reflexivity.
    rewrite (bind_ok K _ _ _ tt (set_l (2 * l) (set_spin true b))) by reflexivity.
    set (b0 := set_l (2 * l) (set_spin true b)).
    rewrite (bind_ok K _ _ _ s b0) by (rewrite Hs; reflexivity).
    rewrite (bind_ok K _ _ _ m b0) by (apply need_np_ok; exact Em).
    rewrite (bind_ok K _ _ _ h b0) by (rewrite Hh; reflexivity).
    destruct (add_spin_one_body_spec K h l Sh) as (Sh' & _ & Gh'). set (h' := add_spin_one_body h) in *.
    rewrite (bind_ok K _ _ _ tt (set_arr F_h (Some h') b0)) by
      (apply set_sq_ok; apply check_axes2; exact Sh').
    set (b1 := set_arr F_h (Some h') b0).
    rewrite (bind_ok K _ _ _ (Some s) b1) by (unfold rd; cbn; rewrite Hs; reflexivity).
    rewrite (bind_ok K _ _ _ s b1) by reflexivity.
    destruct (add_spin_one_body_spec K s l Ss) as (Ss' & _ & Gs'). set (s' := add_spin_one_body s) in *.
    rewrite (bind_ok K _ _ _ tt (set_arr F_s (Some s') b1)) by
      (apply set_sq_ok; apply check_axes2; exact Ss').
    set (b2 := set_arr F_s (Some s') b1).
    rewrite (bind_ok K _ _ _ (Some u) b2) by (unfold rd; cbn; rewrite Hu; reflexivity).
    rewrite (bind_ok K _ _ _ u b2) by reflexivity.
    destruct (add_spin_two_body_spec K (b_cls b) u l Su) as (u' & Eu & Su' & Gu').
    rewrite (bind_ok K _ _ _ u' b2) by (unfold lift; rewrite Eu; reflexivity).
    rewrite (bind_ok K _ _ _ tt (set_arr F_u (Some u') b2)) by
      (apply set_sq_ok; apply check_axes4; exact Su').
    set (b3 := set_arr F_u (Some u') b2).
    rewrite (bind_ok K _ _ _ b3 b3) by reflexivity.
    assert (Eur : negb (urepr_eqb (u_repr_attr b3) U2d) = true).
    { unfold u_repr_attr, u_repr. cbn. destruct (b_cls b); [reflexivity|]. unfold ndim. rewrite Su'. reflexivity. }
    rewrite Eur. cbn [when].
    assert (E : setup_spin_ops s va vb b3
      = (Err AssertionError, set_arr F_b (Some (spin_col K vb)) (set_arr F_a (Some (spin_col K va)) b3))).
    { unfold setup_spin_ops.
      change (column (of_list Complex128 va)) with (spin_col K va).
      change (column (of_list Complex128 vb)) with (spin_col K vb). cbv zeta.
      rewrite (bind_ok K _ _ _ tt (set_arr F_a (Some (spin_col K va)) b3)) by reflexivity.
      rewrite (bind_ok K _ _ _ tt (set_arr F_b (Some (spin_col K vb)) (set_arr F_a (Some (spin_col K va)) b3))) by reflexivity.
      set (b4 := set_arr F_b _ _).
      destruct (small (ip2 va va - 1)) eqn:C1.
      2: apply bind_err; rewrite check_ip_spec, C1 by assumption; reflexivity.
      rewrite (bind_ok K _ _ _ tt b4) by (rewrite check_ip_spec, C1 by assumption; reflexivity).
      destruct (small (ip2 vb vb - 1)) eqn:C2.
      2: apply bind_err; rewrite check_ip_spec, C2 by assumption; reflexivity.
      rewrite (bind_ok K _ _ _ tt b4) by (rewrite check_ip_spec, C2 by assumption; reflexivity).
      destruct (small (ip2 va vb - 0)) eqn:C3; [discriminate Hrej|].
      apply bind_err; rewrite check_ip_spec, C3 by assumption; reflexivity. }
    eexists. split; [apply bind_err; exact E|]. cbn. rewrite Hh, Hs, Hu. cbn.
    repeat split; try assumption; try (intros; auto; fail).
    intros f Hf. destruct_or Hf; subst f; reflexivity.
  Qed.

  (** C12 *)
  Lemma doubling_formula ab anti b l s :
    (b_cls b = SincDVR -> ab = None) ->
    let va := match ab with Some p => fst p | None => default_a K end in
    let vb := match ab with Some p => snd p | None => default_b K end in
    orthonormal_pair va vb -> ready b l -> b_spin b = false -> b_arr b F_s = Some s ->
    exists b', change_to_general ab anti b = (Ok true, b') /\
      b_l b' = (2 * l)%nat /\ b_spin b' = true /\ b_asym b' = (b_asym b || anti)%bool /\
      doubled1 l (b_arr b F_h) (b_arr b' F_h) /\ doubled1 l (b_arr b F_s) (b_arr b' F_s) /\
      doubled_dip (b_dim b) l (b_arr b F_dip) (b_arr b' F_dip) /\
      doubled2 l (anti && negb (b_asym b)) (b_arr b F_u) (b_arr b' F_u) /\
      doubled_spf l (b_arr b F_spf) (b_arr b' F_spf) /\
      (b_arr b F_spf <> None -> doubled_spf l (bra_view b) (b_arr b' F_bra)).
  Proof.
    intros Hab va vb ON R Hsp Hs.
    destruct (change_to_general_ok K ab anti b l s Hab (orthonormal_accepted K _ _ ON) R Hsp Hs) as (b' & E & D).
    exists b'. split; [exact E|]. repeat split.
    - exact (sd_l D).
    - exact (sd_spin D).
    - rewrite (sd_asym D). destruct (b_asym b), anti; reflexivity.
    - exact (sd_h D).
    - exact (sd_s D).
    - exact (sd_dip D).
    - exact (sd_u D).
    - exact (sd_spf D).
    - exact (sd_bra D).
  Qed.
  (** C13 *)
  Lemma doubled_forever (calls : list (option (list K * list K) * bool)) b : b_spin b = true ->
    snd (fold_left (fun rb c => change_to_general (fst c) (snd c) (snd rb)) calls (Ok true, b)) = b.
  Proof.
    intros H. assert (G : forall r : res bool, snd (fold_left (fun rb c => change_to_general (fst c) (snd c) (snd rb)) calls (r, b)) = b).
    { induction calls as [|[ab anti] cs IH]; intros r; cbn [fold_left fst snd]; [reflexivity|].
      pose proof (double_twice ab anti b H) as E. destruct (change_to_general ab anti b) as [r' b'] eqn:Ec. cbn in E.
      subst b'. apply IH. }
    apply G.
  Qed.
End Spin.
