(** Interaction strength, potentials and trap frequencies of the basis sets. *)
From Coq Require Import List Arith ZArith Reals Lra Lia Bool.
From Coquelicot Require Import Coquelicot.
From Verif Require Import Scalar ScalarC Py Numpy BasisSet Spec OneDim OneDimSpec OneDimProofs LineProofs DotProofs GridSpec GridProofs DvrSpec PositiveForms KineticSpec SincDvr SincProofs KineticProofs SpectralProofs Systems.
From Verif Require Import TwoDim TwoDimProofs Orbitals Coulomb CoulombProofs Cache CacheProofs MatrixProofs TwoDimBasis PlaneProofs DipoleTheorems.
From Verif Require Import RaiseSpec RaiseProofs RaiseFock RaiseTheorems VariationalSystems StrengthSpec StrengthProofs.
Import ListNotations.
Open Scope R_scope.
Local Notation S_ := (sumn (K := CC)).

(** ** Stronger repulsion *)
Lemma root_pos x a : a <> 0 -> 0 < sqrt (x ^ 2 + a ^ 2).
Proof. intros H. apply sqrt_lt_R0. pose proof (pow2_ge_0 x). pose proof (pow2_gt_0 a H). lra. Qed.
Lemma stronger_alpha alpha alpha' a : a <> 0 -> alpha <= alpha' -> stronger alpha a alpha' a.
Proof. intros Ha H x. apply Rmult_le_compat_r; [left; apply Rinv_0_lt_compat, root_pos, Ha | exact H]. Qed.
Lemma stronger_shield alpha alpha' a a' : a' <> 0 -> Rabs a' <= Rabs a -> 0 <= alpha <= alpha' -> stronger alpha a alpha' a'.
Proof.
  intros Ha' H A x. pose proof (root_pos x a' Ha') as P.
  assert (Q : sqrt (x ^ 2 + a' ^ 2) <= sqrt (x ^ 2 + a ^ 2)). { apply sqrt_le_1_alt. apply Rplus_le_compat_l. rewrite <- (pow2_abs a'), <- (pow2_abs a). apply pow_incr. split; [apply Rabs_pos | exact H]. }
  assert (I : / sqrt (x ^ 2 + a ^ 2) <= / sqrt (x ^ 2 + a' ^ 2)) by (apply Rinv_le_contravar; assumption).
  assert (J : 0 < / sqrt (x ^ 2 + a ^ 2)) by (apply Rinv_0_lt_compat; lra). apply Rmult_le_compat; lra.
Qed.
Lemma orbitals_stronger (spf : nat -> nat -> C) N (grid : nat -> R) alpha a alpha' a' l : stronger alpha a alpha' a' ->
  raising l (mix2 1 (- (1)) (orbital_integral spf N grid alpha' a') (orbital_integral spf N grid alpha a)).
Proof.
  intros H. set (dx := grid 1%nat - grid 0%nat).
  apply (raising_gram l N (fun p q i j => (spf p i * spf q j)%C) (fun i j => dx ^ 2 * (wt N i * wt N j) * (shielded_coulomb (grid i) (grid j) alpha' a' - shielded_coulomb (grid i) (grid j) alpha a))).
  - intros i j. apply Rmult_le_pos; [apply Rmult_le_pos; [apply pow2_ge_0 | apply Rmult_le_pos; unfold wt; destruct (_ =? _)%nat, (_ =? _)%nat; lra]|].
    pose proof (H (grid i - grid j)) as Q. unfold shielded_coulomb. lra.
  - intros p q r s _ _ _ _. unfold mix2. rewrite !u_sums. fold dx.
    etransitivity; [apply (f_equal2 Cplus); apply csum_scal|]. etransitivity; [symmetry; exact (csum_add N _ _)|]. apply csum_ext; intros i _.
    etransitivity; [apply (f_equal2 Cplus); apply csum_scal|]. etransitivity; [symmetry; exact (csum_add N _ _)|]. apply csum_ext; intros j _.
    rewrite conj_prod. generalize (shielded_coulomb (grid i) (grid j) alpha' a'), (shielded_coulomb (grid i) (grid j) alpha a). intros v' v. cring.
Qed.
Lemma diagonal_least l h (e : nat -> R) c : (forall p q, (p < l)%nat -> (q < l)%nat -> h p q = if (p =? q)%nat then RtoC (e p) else RtoC 0) ->
  (forall p, (p < l)%nat -> c <= e p) -> at_least l h c.
Proof.
  intros D A x.
  assert (E : expectation l h x = RtoC (rsum l (fun p => e p * Cmod (x p) ^ 2))).
  { unfold expectation. rewrite <- csum_rsum. apply csum_ext; intros p Hp. rewrite (sumn_pick CC l p); [|exact Hp|].
    - rewrite D, Nat.eqb_refl by exact Hp. rewrite RtoC_mult, <- sq_real. cx. ring.
    - intros q Hq Nq. rewrite D by assumption. rewrite (proj2 (Nat.eqb_neq p q)) by congruence. change (@s0 CC) with (RtoC 0). cx. ring. }
  rewrite E. split; [reflexivity|]. change (c * sqnorm l x <= rsum l (fun p => e p * Cmod (x p) ^ 2)). unfold sqnorm. rewrite <- rsum_scal. apply rsum_le. intros p Hp.
  apply Rmult_le_compat_r; [apply pow2_ge_0 | apply A, Hp].
Qed.
Lemma same_least l (h : nat -> nat -> C) : at_least l (mix1 1 (- (1)) h h) 0.
Proof. apply (diagonal_least l _ (fun _ => 0)); [|intros; lra]. intros p q _ _. unfold mix1. destruct (p =? q)%nat; generalize (h p q); intros z; cring. Qed.

(** ** One dimension *)
Lemma line_stronger npm spin anti l L N omega a a' alpha alpha' beta b b' : stronger alpha a alpha' a' ->
  odho npm spin anti l L N omega a alpha beta = (Ok tt, b) -> odho npm spin anti l L N omega a' alpha' beta = (Ok tt, b') -> energies_below l 0 1 1 b b'.
Proof.
  intros H E E'. destruct (line_h _ _ _ _ _ _ _ _ _ _ _ E) as (h & Eh & _ & Gh). destruct (line_h _ _ _ _ _ _ _ _ _ _ _ E') as (h' & Eh' & _ & Gh').
  destruct (odho_result _ _ _ _ _ _ _ _ _ _ _ E) as (Eb & _). destruct (odho_result _ _ _ _ _ _ _ _ _ _ _ E') as (Eb' & _).
  assert (Eu : b_arr b F_u = Some (arr4 l Complex128 (orbital_integral (odho_spf L N omega) N (linspace L N) alpha a))) by (rewrite Eb; reflexivity).
  assert (Eu' : b_arr b' F_u = Some (arr4 l Complex128 (orbital_integral (odho_spf L N omega) N (linspace L N) alpha' a'))) by (rewrite Eb'; reflexivity).
  eapply energies_below_of; [lra | lra | exact Eh | exact Eu | exact Eh' | exact Eu' | | apply u_hermitian | | apply u_hermitian | | apply orbitals_stronger, H].
  - apply (diag_hermitian l (mat h) (fun p => omega * (INR p + 1 / 2))). intros; apply Gh.
  - apply (diag_hermitian l (mat h') (fun p => omega * (INR p + 1 / 2))). intros; apply Gh'.
  - apply (diagonal_least l _ (fun _ => 0)); [|intros; lra]. intros p q _ _. unfold mix1. rewrite Gh, Gh'. destruct (p =? q)%nat; cring.
Qed.
Lemma dot_stronger npm spin anti l L N a a' alpha alpha' beta V eigh b b' : stronger alpha a alpha' a' ->
  odqd npm spin anti l L N a alpha beta V eigh = (Ok tt, b) -> odqd npm spin anti l L N a' alpha' beta V eigh = (Ok tt, b') -> energies_below l 0 1 1 b b'.
Proof.
  intros H E E'. destruct (dot_result _ _ _ _ _ _ _ _ _ _ _ _ E) as (-> & _). destruct (dot_result _ _ _ _ _ _ _ _ _ _ _ _ E') as (-> & _).
  eapply energies_below_of; [lra | lra | reflexivity | reflexivity | reflexivity | reflexivity | | apply u_hermitian | | apply u_hermitian | | apply orbitals_stronger, H].
  1, 2: apply (diag_hermitian l _ (odqd_energy L N V eigh)); intros p q _ _; cbn; destruct (p =? q)%nat; reflexivity.
  apply same_least.
Qed.
Lemma dvr_h_sym l L V i j : dvr_h l L V i j = dvr_h l L V j i.
Proof.
  unfold dvr_h. rewrite (Nat.eqb_sym j i). destruct (Nat.eqb_spec i j) as [->|H]; [reflexivity|].
  assert (E : diff_grid i j = (- diff_grid j i)%Z) by (unfold diff_grid; lia). rewrite E.
  rewrite opp_IZR, <- (cos_int (- diff_grid j i)), <- cos_int, opp_IZR.
  replace (PI * - IZR (diff_grid j i)) with (- (PI * IZR (diff_grid j i))) by ring. rewrite cos_neg. f_equal. ring.
Qed.
Lemma dvr_h_hermitian l L V : hermitian (K := CC) l (mat (arr2 l l Complex128 (fun i j => RtoC (dvr_h l L V i j)))).
Proof. intros p q _ _. cbn [mat get arr2]. rewrite (dvr_h_sym l L V q p). cbn. unfold Cconj, RtoC. cbn. f_equal. ring. Qed.
Lemma spread_hermitian l (v : nat -> nat -> R) : hermitian2 (K := CC) l (fun p q r s => if (p =? r)%nat && (q =? s)%nat then RtoC (v p q) else RtoC 0).
Proof.
  intros p q r s _ _ _ _. rewrite (Nat.eqb_sym r p), (Nat.eqb_sym s q). destruct (Nat.eqb_spec p r) as [<-|], (Nat.eqb_spec q s) as [<-|]; cbn; unfold Cconj, RtoC; cbn; f_equal; ring.
Qed.
Lemma dvr_u_value l L a alpha p q r s : ten (astype Complex128 (dvr_coulomb l L a alpha U4d)) p q r s = if (p =? r)%nat && (q =? s)%nat then RtoC (dvr_data l L a alpha p q) else RtoC 0.
Proof. reflexivity. Qed.
Lemma dvr_stronger npm spin anti l L a a' alpha alpha' beta V V' c b b' : stronger alpha a alpha' a' -> (forall i, (i < l)%nat -> V (OneDimSpec.point L l i) + c <= V' (OneDimSpec.point L l i)) ->
  odsincdvr npm spin anti l L a alpha beta V U4d = (Ok tt, b) -> odsincdvr npm spin anti l L a' alpha' beta V' U4d = (Ok tt, b') -> energies_below l c 1 1 b b'.
Proof.
  intros H HV E E'. destruct (dvr_result _ _ _ _ _ _ _ _ _ _ _ E) as ([_ _ _ _ _ _ A _] & _ & _). destruct (dvr_result _ _ _ _ _ _ _ _ _ _ _ E') as ([_ _ _ _ _ _ A' _] & _ & _).
  eapply energies_below_of; [lra | lra | rewrite A; reflexivity | rewrite A; reflexivity | rewrite A'; reflexivity | rewrite A'; reflexivity | apply dvr_h_hermitian | apply spread_hermitian | apply dvr_h_hermitian | apply spread_hermitian | |].
  - apply (diagonal_least l _ (fun p => V' (linspace L l p) - V (linspace L l p))).
    + intros p q _ _. unfold mix1. cbn [mat get arr2]. unfold dvr_h. destruct (p =? q)%nat; cring.
    + intros p Hp. specialize (HV p Hp). rewrite <- linspace_point in HV. lra.
  - apply (raising_ext l (spread (K := CC) (fun p q => RtoC (dvr_data l L a' alpha' p q - dvr_data l L a alpha p q)))).
    + intros p q r s _ _ _ _. unfold mix2, spread. change (@s0 CC) with (RtoC 0). rewrite !dvr_u_value. destruct ((p =? r)%nat && (q =? s)%nat); cring.
    + apply spread_raising. intros p q _ _. apply nonneg_real. pose proof (H (linspace L l p - linspace L l q)) as Q. unfold dvr_data, shielded_coulomb. lra.
Qed.

(** ** Concave ground-state energies *)
Lemma orbital_mix (spf : nat -> nat -> C) N (grid : nat -> R) alpha alpha' a t p q r s :
  mix2 (1 - t) t (orbital_integral spf N grid alpha a) (orbital_integral spf N grid alpha' a) p q r s = orbital_integral spf N grid ((1 - t) * alpha + t * alpha') a p q r s.
Proof.
  unfold mix2. rewrite !u_sums.
  etransitivity; [apply (f_equal2 Cplus); apply csum_scal|]. etransitivity; [symmetry; exact (csum_add N _ _)|]. apply csum_ext; intros i _.
  etransitivity; [apply (f_equal2 Cplus); apply csum_scal|]. etransitivity; [symmetry; exact (csum_add N _ _)|]. apply csum_ext; intros j _.
  unfold shielded_coulomb, Rdiv. generalize (/ sqrt ((grid i - grid j) ^ 2 + a ^ 2)). intros v. cring.
Qed.
Lemma line_concave npm spin anti l L N omega a alpha0 alpha1 beta t b0 b1 b : 0 <= t <= 1 ->
  odho npm spin anti l L N omega a alpha0 beta = (Ok tt, b0) -> odho npm spin anti l L N omega a alpha1 beta = (Ok tt, b1) ->
  odho npm spin anti l L N omega a ((1 - t) * alpha0 + t * alpha1) beta = (Ok tt, b) -> ground_concave l t b0 b1 b.
Proof.
  intros Ht E0 E1 E. destruct (odho_result _ _ _ _ _ _ _ _ _ _ _ E0) as (Q0 & _). destruct (odho_result _ _ _ _ _ _ _ _ _ _ _ E1) as (Q1 & _). destruct (odho_result _ _ _ _ _ _ _ _ _ _ _ E) as (Q & _).
  destruct (line_h _ _ _ _ _ _ _ _ _ _ _ E0) as (h0 & Eh0 & _ & Gh0). destruct (line_h _ _ _ _ _ _ _ _ _ _ _ E1) as (h1 & Eh1 & _ & Gh1). destruct (line_h _ _ _ _ _ _ _ _ _ _ _ E) as (h & Eh & _ & Gh).
  eapply ground_concave_of; [exact Ht | exact Eh0 | rewrite Q0; reflexivity | exact Eh1 | rewrite Q1; reflexivity | exact Eh | rewrite Q; reflexivity | | apply u_hermitian | | apply u_hermitian | | intros p q r s _ _ _ _; apply orbital_mix].
  - apply (diag_hermitian l _ (fun p => omega * (INR p + 1 / 2))). intros; apply Gh0.
  - apply (diag_hermitian l _ (fun p => omega * (INR p + 1 / 2))). intros; apply Gh1.
  - intros p q _ _. unfold mix1. rewrite Gh, Gh0, Gh1. destruct (p =? q)%nat; cring.
Qed.
Lemma dot_concave npm spin anti l L N a alpha0 alpha1 beta V eigh t b0 b1 b : 0 <= t <= 1 ->
  odqd npm spin anti l L N a alpha0 beta V eigh = (Ok tt, b0) -> odqd npm spin anti l L N a alpha1 beta V eigh = (Ok tt, b1) ->
  odqd npm spin anti l L N a ((1 - t) * alpha0 + t * alpha1) beta V eigh = (Ok tt, b) -> ground_concave l t b0 b1 b.
Proof.
  intros Ht E0 E1 E. destruct (dot_result _ _ _ _ _ _ _ _ _ _ _ _ E0) as (-> & _). destruct (dot_result _ _ _ _ _ _ _ _ _ _ _ _ E1) as (-> & _). destruct (dot_result _ _ _ _ _ _ _ _ _ _ _ _ E) as (-> & _).
  eapply ground_concave_of; [exact Ht | reflexivity | reflexivity | reflexivity | reflexivity | reflexivity | reflexivity | | apply u_hermitian | | apply u_hermitian | | intros p q r s _ _ _ _; apply orbital_mix].
  1, 2: apply (diag_hermitian l _ (odqd_energy L N V eigh)); intros p q _ _; cbn; destruct (p =? q)%nat; reflexivity.
  intros p q _ _. unfold mix1. match goal with |- (_ * ?z + _)%C = _ => generalize z end. intros z. cring.
Qed.
Lemma dvr_concave npm spin anti l L a alpha0 alpha1 beta V0 V1 t b0 b1 b : 0 <= t <= 1 ->
  odsincdvr npm spin anti l L a alpha0 beta V0 U4d = (Ok tt, b0) -> odsincdvr npm spin anti l L a alpha1 beta V1 U4d = (Ok tt, b1) ->
  odsincdvr npm spin anti l L a ((1 - t) * alpha0 + t * alpha1) beta (fun x => (1 - t) * V0 x + t * V1 x) U4d = (Ok tt, b) -> ground_concave l t b0 b1 b.
Proof.
  intros Ht E0 E1 E. destruct (dvr_result _ _ _ _ _ _ _ _ _ _ _ E0) as ([_ _ _ _ _ _ A0 _] & _ & _). destruct (dvr_result _ _ _ _ _ _ _ _ _ _ _ E1) as ([_ _ _ _ _ _ A1 _] & _ & _). destruct (dvr_result _ _ _ _ _ _ _ _ _ _ _ E) as ([_ _ _ _ _ _ A _] & _ & _).
  eapply ground_concave_of; [exact Ht | rewrite A0; reflexivity | rewrite A0; reflexivity | rewrite A1; reflexivity | rewrite A1; reflexivity | rewrite A; reflexivity | rewrite A; reflexivity | apply dvr_h_hermitian | apply spread_hermitian | apply dvr_h_hermitian | apply spread_hermitian | |].
  - intros p q _ _. unfold mix1. cbn [mat get arr2]. unfold dvr_h. destruct (p =? q)%nat; cring.
  - intros p q r s _ _ _ _. unfold mix2. rewrite !dvr_u_value. destruct ((p =? r)%nat && (q =? s)%nat); [|cring].
    unfold dvr_data, shielded_coulomb, Rdiv. match goal with |- context [/ sqrt ?z] => generalize (/ sqrt z) end. intros v. cring.
Qed.

(** ** The trap in two dimensions *)
Lemma plane_hermitian npm spin anti l L N omega mass e (files : fs) b t : sound files -> oscillator npm spin anti l L N omega mass e files = (Ok b, t) ->
  exists h u, b_arr b F_h = Some h /\ b_arr b F_u = Some u /\ hermitian (K := CC) l (mat h) /\ hermitian2 (K := CC) l (ten u) /\
  (forall p q, mat h p q = RtoC (oscillator_element omega p q)) /\
  (forall p q r s, (p < l)%nat -> (q < l)%nat -> (r < l)%nat -> (s < l)%nat -> ten u p q r s = RtoC (sqrt omega * coulomb_of shell_state p q r s)).
Proof.
  intros F E. pose proof (oscillator_holds _ _ _ _ _ _ _ _ _ _ _ _ F E) as H. destruct (ho_h _ _ _ _ _ _ _ _ _ _ _ H) as (h & Eh & _ & Gh). destruct (ho_u _ _ _ _ _ _ _ _ _ _ _ H) as (u & Eu & _ & Gu).
  exists h, u. do 2 (split; [assumption|]). split; [|split; [|split; [exact Gh | exact Gu]]].
  - intros p q _ _. unfold mat. rewrite !Gh. unfold oscillator_element. rewrite (Nat.eqb_sym q p). destruct (Nat.eqb_spec p q) as [->|_]; cbn; unfold Cconj, RtoC; cbn; f_equal; ring.
  - intros p q r s Hp Hq Hr Hs. unfold ten. rewrite !Gu by assumption. assert (Ct : coulomb_of shell_state r s p q = coulomb_of shell_state p q r s) by exact (coulomb_transpose _ _ _ _ _ _ _ _). rewrite Ct. cbn. unfold Cconj, RtoC. cbn. f_equal. ring.
Qed.
Lemma coulomb_multiple l c (u : nat -> nat -> nat -> nat -> C) : 0 <= c ->
  (forall p q r s, (p < l)%nat -> (q < l)%nat -> (r < l)%nat -> (s < l)%nat -> u p q r s = RtoC (c * coulomb_of shell_state p q r s)) -> raising l u.
Proof.
  intros Hc G. refine (raising_ext l _ _ _ (raising_scal l c _ Hc (coulomb_raising l (fun p => qn (shell_state p)) (fun p => qm (shell_state p))))).
  intros p q r s Hp Hq Hr Hs. cbv beta. rewrite G by assumption. rewrite RtoC_mult. reflexivity.
Qed.
Lemma shell_pos p : 0 <= IZR (get_shell_energy (fst (shell_state p)) (snd (shell_state p))).
Proof. apply IZR_le. pose proof (shell_state_nonneg p). unfold get_shell_energy. lia. Qed.
Lemma root_quotient w : 0 < w -> / w * sqrt w = / sqrt w.
Proof. intros H. pose proof (sqrt_lt_R0 w H) as P. rewrite <- (sqrt_sqrt w) at 1 by lra. field. lra. Qed.
Lemma root_multiple w : 0 < w -> / sqrt w * w = sqrt w.
Proof. intros H. pose proof (sqrt_lt_R0 w H) as P. rewrite <- (sqrt_sqrt w) at 2 by lra. field. lra. Qed.
Lemma plane_stronger npm spin anti npm' spin' anti' l L L' N N' omega omega' mass mass' e e' (files files' : fs) b b' t t' : 0 < omega <= omega' -> sound files -> sound files' ->
  oscillator npm spin anti l L N omega mass e files = (Ok b, t) -> oscillator npm' spin' anti' l L' N' omega' mass' e' files' = (Ok b', t') ->
  energies_below l 0 (/ omega') (/ omega) b' b /\ energies_below l 0 (/ sqrt omega) (/ sqrt omega') b b'.
Proof.
  intros [Hw Hww] F F' E E'. destruct (plane_hermitian _ _ _ _ _ _ _ _ _ _ _ _ F E) as (h & u & Eh & Eu & Hh & Hu & Gh & Gu). destruct (plane_hermitian _ _ _ _ _ _ _ _ _ _ _ _ F' E') as (h' & u' & Eh' & Eu' & Hh' & Hu' & Gh' & Gu').
  pose proof (sqrt_lt_R0 omega Hw) as P. assert (Q : sqrt omega <= sqrt omega') by (apply sqrt_le_1_alt; exact Hww). assert (Hw' : 0 < omega') by lra.
  assert (I1 : 0 < / omega) by (apply Rinv_0_lt_compat; lra). assert (I2 : 0 < / omega') by (apply Rinv_0_lt_compat; lra).
  assert (I3 : 0 < / sqrt omega) by (apply Rinv_0_lt_compat; lra). assert (I4 : 0 < / sqrt omega') by (apply Rinv_0_lt_compat; lra). split.
  - apply (energies_below_of l 0 (/ omega') (/ omega) b' b h' u' h u); try assumption; try lra.
    + apply (diagonal_least l _ (fun _ => 0)); [|intros; lra]. intros p q _ _. unfold mix1. rewrite Gh, Gh'. unfold oscillator_element.
      assert (X : (if (p =? q)%nat then RtoC 0 else RtoC 0) = RtoC 0) by (destruct (p =? q)%nat; reflexivity). rewrite X.
      match goal with |- context [omega * ?x] => generalize x end. intros x. rewrite <- !RtoC_mult, <- RtoC_plus. f_equal. field. lra.
    + apply (coulomb_multiple l (/ sqrt omega - / sqrt omega')).
      * assert (/ sqrt omega' <= / sqrt omega) by (apply Rinv_le_contravar; lra). lra.
      * intros p q r s Hp Hq Hr Hs. unfold mix2. rewrite Gu, Gu' by assumption. generalize (coulomb_of shell_state p q r s). intros v. rewrite <- !RtoC_mult, <- RtoC_plus. f_equal. rewrite <- (root_quotient omega Hw), <- (root_quotient omega' Hw'). ring.
  - apply (energies_below_of l 0 (/ sqrt omega) (/ sqrt omega') b b' h u h' u'); try assumption; try lra.
    + apply (diagonal_least l _ (fun p => (sqrt omega' - sqrt omega) * IZR (get_shell_energy (fst (shell_state p)) (snd (shell_state p))))).
      * intros p q _ _. unfold mix1. rewrite Gh, Gh'. unfold oscillator_element. rewrite <- !RtoC_mult, <- RtoC_plus.
        destruct (p =? q)%nat; f_equal; [|ring]. match goal with |- context [omega * ?x] => generalize x end. intros x. rewrite <- (root_multiple omega Hw) at 2. rewrite <- (root_multiple omega' Hw') at 2. ring.
      * intros p _. apply Rmult_le_pos; [lra | apply shell_pos].
    + apply (coulomb_multiple l 0); [lra|]. intros p q r s Hp Hq Hr Hs. unfold mix2. rewrite Gu, Gu' by assumption. generalize (coulomb_of shell_state p q r s). intros v. rewrite <- !RtoC_mult, <- RtoC_plus. f_equal. field. lra.
Qed.
