(** Energies of many-particle states in the basis sets of the library. *)
From Coq Require Import List Arith ZArith Reals Lra Lia Bool.
From Coquelicot Require Import Coquelicot.
From Verif Require Import Scalar ScalarC Py Numpy BasisSet Spec BasisSpec BasisFacts OneDim OneDimSpec OneDimProofs DotProofs LineProofs GridSpec GridProofs.
From Verif Require Import ChangeProofs DvrSpec DvrProofs SincDvr SincProofs PositiveForms KineticSpec KineticProofs Systems SystemFacts FockSpec FockProofs FockSystem InnerSpec InnerProofs.
From Verif Require Import TwoDim FieldProofs Coulomb Orbitals Cache TwoDimBasis PlaneSpec PlaneProofs PairProofs PairSpec PairTheorems PlaneForm DipoleTheorems EnergyFacts.
From Verif Require Import FockSpec InnerSpec RaiseSpec RaiseProofs RaiseFock.
Import ListNotations.
Open Scope R_scope.
Local Notation S_ := (sumn (K := CC)).

(** ** Systems *)
Lemma quarter_R : quarter (K := CC) = RtoC (1 / 4).
Proof. unfold quarter. change (shalf (s := CC)) with (RtoC (/ 2)). change (@smul CC) with Cmult. rewrite <- RtoC_mult. f_equal. field. Qed.
Lemma many_body_symmetric k l h u : hermitian (K := CC) l h -> hermitian2 (K := CC) l u -> symmetric_operator (spin_orbitals k l) (many_body k l h u).
Proof.
  intros Hh Hu f g Pf Pg. destruct k; cbn [spin_orbitals many_body].
  - apply (ham_adjoint CC); try assumption. apply quarter_conj.
  - apply (ham_adjoint CC); try assumption; [apply conj_half | apply dbl1_hermitian, Hh | apply dbl2_hermitian, Hu].
Qed.
Lemma many_body_proper k l h u f : proper f -> proper (many_body k l h u f).
Proof. intros H. destruct k; apply hamiltonian_proper, H. Qed.
Lemma reference_trial (w : world CC) s k N l x (b : basis CC) (h u : arr CC) : sys_at w s k N l x b -> b_arr b F_h = Some h -> b_arr b F_u = Some u ->
  (k = General -> antisym_ket l (ten u)) ->
  let D := reference_det k l N in
  particle_state (spin_orbitals k l) (electrons k N) D /\ inner (spin_orbitals k l) D D = RtoC 1 /\
  reference_energy s w = (Ok (inner (spin_orbitals k l) D (many_body k l (mat h) (ten u) D)), w).
Proof.
  intros A Hh Hu Ha D. pose proof (at_le CC _ _ _ _ _ _ _ A) as HN.
  assert (HM : (electrons k N <= spin_orbitals k l)%nat) by (destruct k; cbn [electrons spin_orbitals]; lia).
  destruct (reference_state CC (spin_orbitals k l) (electrons k N) (many_body k l (mat h) (ten u)) HM (many_body_proper k l (mat h) (ten u))) as (P1 & P2 & P3). fold (reference_det k l N) in P1, P2, P3. fold D in P1, P2, P3.
  split; [exact P1|]. split; [exact P2|]. rewrite P3. rewrite (reference_is_expectation CC s w k N l x b h u A Hh Hu Ha). destruct k; reflexivity.
Qed.
Lemma hermitian_system (w : world CC) s k N l x (b : basis CC) (h u : arr CC) : sys_at w s k N l x b -> b_arr b F_h = Some h -> b_arr b F_u = Some u ->
  hermitian l (mat h) -> hermitian2 l (ten u) -> (k = General -> antisym_ket l (ten u)) ->
  let n := spin_orbitals k l in let X := many_body k l (mat h) (ten u) in let D := reference_det k l N in
  (forall f g, proper f -> proper g -> inner n f (X g) = inner n (X f) g) /\
  (forall E f, eigenstate n X E f -> Im E = 0) /\
  (forall E E' f g, eigenstate n X E f -> eigenstate n X E' g -> E <> E' -> inner n g f = RtoC 0) /\
  exists E : C, reference_energy s w = (Ok E, w) /\ Im E = 0 /\ particle_state n (electrons k N) D /\ inner n D D = RtoC 1 /\ inner n D (X D) = E.
Proof.
  intros A Eh Eu Hh Hu Ha n X D. pose proof (many_body_symmetric k l (mat h) (ten u) Hh Hu) as Sy. fold n X in Sy.
  destruct (reference_trial w s k N l x b h u A Eh Eu Ha) as (P1 & P2 & P3). fold n X D in P1, P2, P3.
  split; [exact Sy|]. split; [intros E f; apply (eigen_real n X E f Sy)|]. split; [intros E E' f g; apply (eigen_apart n X E E' f g Sy)|].
  exists (inner n D (X D)). split; [exact P3|]. split; [apply (symmetric_real n X D Sy), P1 | auto].
Qed.
(** Bounds from below *)
Lemma spatial_above l h u N E0 : raising l u -> energies_above (2 * l) (one_body (K := CC) (2 * l) (dbl1 (K := CC) h)) (2 * N) E0 ->
  energies_above (2 * l) (many_body Spatial l h u) (2 * N) E0.
Proof. intros Hu H. cbn [many_body]. change (shalf (s := CC)) with (RtoC (/ 2)). apply ham_above; [lra | apply doubled_raising, Hu | exact H]. Qed.
Lemma spatial_levels l h u N e : raising l u -> diagonal_levels l h e -> energies_above (2 * l) (many_body Spatial l h u) (2 * N) (2 * rsum N e).
Proof. intros Hu H. apply spatial_above; [exact Hu|]. rewrite <- doubled_sum. apply levels_above, doubled_levels, H. Qed.
Lemma spatial_least l h u N m : raising l u -> at_least l h m -> energies_above (2 * l) (many_body Spatial l h u) (2 * N) (INR (2 * N) * m).
Proof. intros Hu H. apply spatial_above; [exact Hu|]. apply least_above, doubled_least, H. Qed.
Lemma above_ext l X X' N E0 : (forall f, proper f -> forall o, X f o = X' f o) -> energies_above l X N E0 -> energies_above l X' N E0.
Proof. intros E H f Hf. rewrite <- (inner_ext CC l f (X f) (X' f) (E f (proj1 Hf))). apply H, Hf. Qed.
Lemma raised_system (w : world CC) s N l x (b : basis CC) (h u : arr CC) E0 : sys_at w s Spatial N l x b -> b_arr b F_h = Some h -> b_arr b F_u = Some u ->
  energies_above (2 * l) (many_body Spatial l (mat h) (ten u)) (2 * N) E0 ->
  (forall E f, particle_state (2 * l) (2 * N) f -> eigenstate (2 * l) (many_body Spatial l (mat h) (ten u)) E f -> Im E = 0 /\ E0 <= Re E) /\
  exists E : C, reference_energy s w = (Ok E, w) /\ Im E = 0 /\ E0 <= Re E.
Proof.
  intros A Eh Eu H. split; [intros E f Hf He; exact (above_eigen _ _ _ _ _ _ H Hf He)|].
  destruct (reference_trial w s Spatial N l x b h u A Eh Eu ltac:(discriminate)) as (P1 & P2 & P3). cbn [spin_orbitals electrons] in *.
  eexists. split; [exact P3|]. destruct (H _ P1) as [I L]. split; [exact I|]. rewrite P2 in L. change (Re (RtoC 1)) with 1 in L. lra.
Qed.
(** In a general system made from it *)
Lemma raised_general (w : world CC) s (va vb : list CC) N l x (b : basis CC) (ov h u : arr CC) E0 : sys_at w s Spatial N l x b ->
  b_cls b = Base -> orthonormal_pair va vb -> b_spin b = false -> b_asym b = false -> b_arr b F_s = Some ov ->
  (b_arr b F_spf = None -> b_arr b F_bra = None) -> sy_op x = None -> b_arr b F_h = Some h -> b_arr b F_u = Some u ->
  energies_above (2 * l) (many_body Spatial l (mat h) (ten u)) (2 * N) E0 ->
  exists w' g (h' u' : arr CC), construct_general s va vb true w = (Ok g, w') /\ sys_get g F_h w' = (Ok (Some h'), w') /\ sys_get g F_u w' = (Ok (Some u'), w') /\
    energies_above (2 * l) (many_body General (2 * l) (mat h') (ten u')) (2 * N) E0.
Proof.
  intros A Hc Hp Hs Ha Eo Hb Ho Eh Eu H. destruct (energy_constructed CC s va vb w N l x b ov h u A Hc Hp Hs Ha Eo Hb Ho Eh Eu) as (w' & g & h' & u' & E & Gh & Gu & EQ & _).
  exists w', g, h', u'. do 3 (split; [assumption|]). refine (above_ext _ _ _ _ _ _ H). intros f Pf o. symmetry. apply (EQ f Pf o).
Qed.

(** ** The basis sets *)
Lemma dot_raising npm spin anti l L N a alpha beta V eigh b :
  odqd npm spin anti l L N a alpha beta V eigh = (Ok tt, b) -> 0 <= alpha -> a <> 0 ->
  exists u, b_arr b F_u = Some u /\ shape u = [l; l; l; l] /\ raising l (ten u).
Proof.
  intros Hb Ha Hs. destruct (dot_result _ _ _ _ _ _ _ _ _ _ _ _ Hb) as (-> & _). eexists. split; [reflexivity|]. split; [reflexivity|]. apply orbitals_raising; assumption.
Qed.
Lemma line_raising npm spin anti l L N omega a alpha beta b :
  odho npm spin anti l L N omega a alpha beta = (Ok tt, b) -> 0 <= alpha -> a <> 0 ->
  exists u, b_arr b F_u = Some u /\ shape u = [l; l; l; l] /\ raising l (ten u).
Proof.
  intros Hb Ha Hs. destruct (odho_result _ _ _ _ _ _ _ _ _ _ _ Hb) as (-> & _). eexists. split; [reflexivity|]. split; [reflexivity|]. apply orbitals_raising; assumption.
Qed.
Lemma dvr_raising npm spin anti l L a alpha beta V b :
  odsincdvr npm spin anti l L a alpha beta V U4d = (Ok tt, b) -> 0 <= alpha -> a <> 0 ->
  exists u, b_arr b F_u = Some u /\ shape u = [l; l; l; l] /\ raising l (ten u).
Proof.
  intros Hb Halpha Ha. destruct (dvr_result _ _ _ _ _ _ _ _ _ _ _ Hb) as ([_ _ _ _ _ _ A _] & _ & _). rewrite A. eexists. split; [reflexivity|]. split; [reflexivity|].
  apply (raising_ext l (spread (K := CC) (fun p q => RtoC (dvr_data l L a alpha p q)))); [reflexivity|]. apply spread_raising. intros p q _ _. apply nonneg_real, v_nonneg; assumption.
Qed.
(** Two dimensions: the integral of |sum c_pq phi_p phi_q|^2 / r *)
Lemma com_csum n (H : nat -> C -> C -> C) v : (forall k, (k < n)%nat -> com_integral (H k) (v k)) -> com_integral (fun X x => S_ n (fun k => H k X x)) (S_ n v).
Proof. induction n as [|n IH]; intros E; cbn [sumn]; [apply com_zero|]. apply com_add; [apply IH; intros; apply E; lia | apply E; lia]. Qed.
Lemma interaction_raising l (phi : nat -> C -> C) u :
  (forall p q r s, (p < l)%nat -> (q < l)%nat -> (r < l)%nat -> (s < l)%nat -> interaction (phi p) (phi q) (phi r) (phi s) (u p q r s)) -> raising l u.
Proof.
  intros H c. set (Z x1 x2 := S_ l (fun r => S_ l (fun s => (c r s * (phi r x1 * phi s x2))%C))).
  assert (I : coulomb_integral (fun x1 x2 => (Cconj (Z x1 x2) * Z x1 x2)%C) (pair_energy l u c)).
  { change (com_integral (fun X x => (fun x1 x2 => (Cconj (Z x1 x2) * Z x1 x2)%C) (X + x / RtoC 2)%C (X - x / RtoC 2)%C) (pair_energy l u c)).
    apply (com_ext (fun X x => S_ l (fun p => S_ l (fun q => S_ l (fun r => S_ l (fun s => (Cconj (c p q) * c r s * pairs (phi p) (phi q) (phi r) (phi s) X x)%C)))))).
    - intros X x. unfold pairs. set (x1 := (X + x / RtoC 2)%C). set (x2 := (X - x / RtoC 2)%C). cbv beta.
      pose proof (split22 CC l (fun p q => Cconj (c p q * (phi p x1 * phi q x2))%C) (fun r s => (c r s * (phi r x1 * phi s x2))%C)) as E. cbn beta in E. unfold Z. rewrite conj_sum2.
      etransitivity; [|exact E]. apply csum_ext; intros p _. apply csum_ext; intros q _. apply csum_ext; intros r _. apply csum_ext; intros s _. rewrite !conj_prod. change (@smul CC) with Cmult. cx. ring.
    - unfold pair_energy.
      apply (com_csum l (fun p X x => S_ l (fun q => S_ l (fun r => S_ l (fun s => (Cconj (c p q) * c r s * pairs (phi p) (phi q) (phi r) (phi s) X x)%C))))). intros p Hp.
      apply (com_csum l (fun q X x => S_ l (fun r => S_ l (fun s => (Cconj (c p q) * c r s * pairs (phi p) (phi q) (phi r) (phi s) X x)%C)))). intros q Hq.
      apply (com_csum l (fun r X x => S_ l (fun s => (Cconj (c p q) * c r s * pairs (phi p) (phi q) (phi r) (phi s) X x)%C))). intros r Hr.
      apply (com_csum l (fun s X x => (Cconj (c p q) * c r s * pairs (phi p) (phi q) (phi r) (phi s) X x)%C)). intros s Hs.
      eapply com_val; [apply com_scal, interaction_com, H; assumption|]. cx. ring. }
  eapply coulomb_nonneg; [|exact I]. intros x1 x2. apply nonneg_square.
Qed.
Lemma coulomb_raising l (n : nat -> nat) (m : nat -> Z) : raising l (fun p q r s => RtoC (coulomb_ho (n p) (m p) (n q) (m q) (n r) (m r) (n s) (m s))).
Proof.
  apply (interaction_raising l (fun p => psi 1 1 (n p) (m p))). intros p q r s _ _ _ _.
  pose proof (pair_integral 1 1 Rlt_0_1 Rlt_0_1 (n p) (m p) (n q) (m q) (n s) (m s) (n r) (m r)) as A. rewrite a_one, Rmult_1_l in A. exact A.
Qed.
Lemma raising_scal l c u : 0 <= c -> raising l u -> raising l (fun p q r s => (RtoC c * u p q r s)%C).
Proof.
  intros Hc P x. replace (pair_energy l (fun p q r s => (RtoC c * u p q r s)%C) x) with (RtoC c * pair_energy l u x)%C; [apply GridProofs.nonneg_scal; [exact Hc | apply P]|].
  unfold pair_energy. rewrite csum_scal. apply csum_ext; intros p _. rewrite csum_scal. apply csum_ext; intros q _. rewrite csum_scal. apply csum_ext; intros r _. rewrite csum_scal. apply csum_ext; intros s _. cx. ring.
Qed.
Lemma holds_raising npm spin anti l N L mass w nm he (b : basis CC) : holds npm spin anti l N L mass w nm he b ->
  exists u, b_arr b F_u = Some u /\ shape u = [l; l; l; l] /\ raising l (ten u).
Proof.
  intros H. destruct (ho_u _ _ _ _ _ _ _ _ _ _ _ H) as (u & Eu & Su & Gu). exists u. split; [exact Eu|]. split; [exact Su|].
  pose proof (raising_scal l (sqrt w) _ (sqrt_pos w) (coulomb_raising l (fun p => qn (nm p)) (fun p => qm (nm p)))) as P.
  refine (raising_ext l _ _ _ P). intros p q r s Hp Hq Hr Hs. cbv beta. unfold ten. rewrite (Gu p q r s Hp Hq Hr Hs), RtoC_mult. reflexivity.
Qed.
Lemma holds_element npm spin anti l N L mass w nm he (b : basis CC) : holds npm spin anti l N L mass w nm he b ->
  exists h, b_arr b F_h = Some h /\ shape h = [l; l] /\ forall p q, mat h p q = RtoC (he p q).
Proof. intros H. exact (ho_h _ _ _ _ _ _ _ _ _ _ _ H). Qed.

(** ** Levels *)
Lemma dot_levels npm spin anti l L N a alpha beta V eigh b :
  odqd npm spin anti l L N a alpha beta V eigh = (Ok tt, b) -> eigenbasis (N - 2) (grid_hamiltonian L N V) (fst (eigh (N - 2)%nat (grid_hamiltonian L N V))) (snd (eigh (N - 2)%nat (grid_hamiltonian L N V))) ->
  exists h, b_arr b F_h = Some h /\ shape h = [l; l] /\ diagonal_levels l (mat h) (fun p => Re (mat h p p)).
Proof.
  intros Hb H. destruct (dot_result _ _ _ _ _ _ _ _ _ _ _ _ Hb) as (-> & _ & Hl). eexists. split; [reflexivity|]. split; [reflexivity|]. split.
  - intros p q Hp Hq. cbn [mat get diag arr2]. rewrite Nat.eqb_refl. destruct (p =? q)%nat; reflexivity.
  - intros p q Hp Hq. cbn [mat get diag arr2]. rewrite !Nat.eqb_refl. apply (eb_ascending _ _ _ _ H); lia.
Qed.
Lemma line_levels npm spin anti l L N omega a alpha beta b : odho npm spin anti l L N omega a alpha beta = (Ok tt, b) -> 0 <= omega ->
  exists h, b_arr b F_h = Some h /\ shape h = [l; l] /\ diagonal_levels l (mat h) (fun p => omega * (INR p + 1 / 2)).
Proof.
  intros Hb Hw. destruct (line_h _ _ _ _ _ _ _ _ _ _ _ Hb) as (h & Eh & Sh & Gh). exists h. split; [exact Eh|]. split; [exact Sh|]. split; [intros; apply Gh|].
  intros p q Hpq _. apply Rmult_le_compat_l; [exact Hw|]. apply le_INR in Hpq. lra.
Qed.
Lemma line_sum omega n : 2 * rsum n (fun p => omega * (INR p + 1 / 2)) = omega * INR n ^ 2.
Proof. induction n as [|n IH]; [cbn; ring|]. cbn [rsum]. rewrite Rmult_plus_distr_l, IH, S_INR. field. Qed.
Lemma oscillator_levels npm spin anti l L N omega mass e (files : fs) b files' :
  (forall d n f, files d n = Some f -> f = image n) -> oscillator npm spin anti l L N omega mass e files = (Ok b, files') -> 0 < omega ->
  exists h, b_arr b F_h = Some h /\ shape h = [l; l] /\ diagonal_levels l (mat h) (fun p => oscillator_element omega p p).
Proof.
  intros Hf E Hw. destruct (holds_element _ _ _ _ _ _ _ _ _ _ _ (oscillator_holds _ _ _ _ _ _ _ _ _ _ _ _ Hf E)) as (h & Eh & Sh & Gh). exists h. split; [exact Eh|]. split; [exact Sh|]. split.
  - intros p q _ _. rewrite Gh. unfold oscillator_element. rewrite Nat.eqb_refl. destruct (p =? q)%nat; [reflexivity|]. f_equal. ring.
  - intros p q Hpq _. destruct (Nat.eq_dec p q) as [->|N0]; [lra|]. unfold oscillator_element. rewrite !Nat.eqb_refl.
    pose proof (shell_state_order omega p q Hw ltac:(lia)) as O. unfold slt, shell_energy_B in O. unfold get_shell_energy. lra.
Qed.
Lemma field_levels npm spin anti l L N omega_0 mass omega_c rows b : omega_0 <> 0 ->
  field_states l omega_0 omega_c = Ok rows -> field_oscillator npm spin anti l L N omega_0 mass omega_c = (Ok tt, b) ->
  exists h, b_arr b F_h = Some h /\ shape h = [l; l] /\ diagonal_levels l (mat h) (fun p => shell_energy_B (sqrt (omega_0 ^ 2 + omega_c ^ 2 / 4)) omega_c (nth p rows (0, 0)%Z)).
Proof.
  intros H0 F E. destruct (holds_element _ _ _ _ _ _ _ _ _ _ _ (field_holds _ _ _ _ _ _ _ _ _ _ _ F E)) as (h & Eh & Sh & Gh). exists h. split; [exact Eh|]. split; [exact Sh|]. split.
  - intros p q _ _. rewrite Gh. unfold field_element. destruct (p =? q)%nat; reflexivity.
  - destruct (field_lowest l omega_0 omega_c rows H0 F) as [Hlen Hrank]. intros p q Hpq Hq. destruct (Nat.eq_dec p q) as [->|N0]; [lra|].
    destruct (nth_error rows q) as [t|] eqn:Eq; [|apply nth_error_None in Eq; lia]. destruct (nth_error rows p) as [s|] eqn:Ep; [|apply nth_error_None in Ep; lia].
    rewrite (nth_error_nth rows q _ Eq), (nth_error_nth rows p _ Ep). destruct (Hrank q t Eq) as [_ Hr]. destruct (Hrank p s Ep) as [Hn _].
    pose proof (proj2 (Hr s Hn) ltac:(exists p; split; [lia | exact Ep])) as O. destruct O as [O|[O _]]; lra.
Qed.
Lemma dvr_least npm spin anti l L a alpha beta V repr b m :
  odsincdvr npm spin anti l L a alpha beta V repr = (Ok tt, b) -> 0 < L -> (forall i, (i < l)%nat -> m <= V (OneDimSpec.point L l i)) ->
  exists h, b_arr b F_h = Some h /\ shape h = [l; l] /\ at_least l (mat h) m.
Proof.
  intros Hb HL Hm.
  assert (T : exists M, forall i, (i < l)%nat -> V (OneDimSpec.point L l i) <= M).
  { clear Hb Hm. generalize (OneDimSpec.point L l). intros g. induction l as [|k (M & IH)]; [exists 0; lia|]. exists (Rmax M (V (g k))). intros i Hi. destruct (Nat.eq_dec i k) as [->|N]; [apply Rmax_r|].
    eapply Rle_trans; [apply IH; lia | apply Rmax_l]. }
  destruct T as (M & HM). destruct (dvr_between _ _ _ _ _ _ _ _ _ _ _ m M Hb HL) as (h & Eh & Sh & B & _); [intros i Hi; split; [apply Hm, Hi | apply HM, Hi]|].
  exists h. split; [exact Eh|]. split; [exact Sh|]. intros z. destruct (B z) as [I [Lo _]]. auto.
Qed.

(** ** Changes of basis *)
Lemma changed_raising (b b' : basis CC) l k (c u : arr CC) : shape c = [l; k] -> basis_changed l k c (default_tilde c None) b b' ->
  b_arr b F_u = Some u -> raising l (ten u) ->
  exists u', b_arr b' F_u = Some u' /\ shape u' = [k; k; k; k] /\ raising k (ten u').
Proof.
  intros Sc B Hu P. pose proof (bc_u B) as Q. rewrite Hu in Q. destruct (b_arr b' F_u) as [u'|]; [|destruct Q]. destruct Q as [Su Q].
  exists u'. split; [reflexivity|]. split; [exact Su|]. apply (transformed_raising l k (ten u) (ten u') (mat c) P).
  intros p q r s Hp Hq Hr Hs. rewrite Q by assumption. unfold T2. apply csum_ext; intros x Hx. apply csum_ext; intros y Hy. apply csum_ext; intros z Hz. apply csum_ext; intros t Ht.
  destruct (default_tilde_spec CC c None l k k Sc Sc) as [_ G]. rewrite !G by assumption. reflexivity.
Qed.
Lemma change_raising (b : basis CC) l k (c u : arr CC) : ready b l -> shape c = [l; k] -> b_arr b F_u = Some u -> raising l (ten u) ->
  exists b' u', change_basis c None b = (Ok tt, b') /\ b_arr b' F_u = Some u' /\ shape u' = [k; k; k; k] /\ raising k (ten u').
Proof.
  intros R Sc Hu P. destruct (default_tilde_spec CC c None l k k Sc Sc) as [SD _].
  destruct (change_basis_ok CC l k c _ Sc SD b R) as (b' & E & B). destruct (changed_raising b b' l k c u Sc B Hu P) as (u' & E' & Su & P').
  exists b', u'. split; [rewrite change_basis_default; exact E | auto].
Qed.
(** At least m in the new basis: the columns of c are orthonormal. *)
Lemma split11 k (A B : nat -> C) : (S_ k A * S_ k B)%C = S_ k (fun p => S_ k (fun q => (A p * B q)%C)).
Proof. pose proof (sumn_mul_sumn CC k k A B) as E. change (@smul CC) with Cmult in E. exact E. Qed.
Lemma conj_sum1 n (f : nat -> C) : Cconj (S_ n f) = S_ n (fun p => Cconj (f p)).
Proof. exact (sumn_conj CC n f). Qed.
Lemma sqnorm_sum l y : RtoC (sqnorm l y) = S_ l (fun a => (Cconj (y a) * y a)%C).
Proof. unfold sqnorm. rewrite <- csum_rsum. apply csum_ext; intros a _. symmetry. apply sq_real. Qed.
Lemma transformed_least l k (h h' : nat -> nat -> C) (c : nat -> nat -> C) m : at_least l h m ->
  (forall p q, (p < k)%nat -> (q < k)%nat -> h' p q = S_ l (fun a => S_ l (fun b => (Cconj (c a p) * h a b * c b q)%C))) ->
  (forall p q, (p < k)%nat -> (q < k)%nat -> S_ l (fun a => (Cconj (c a p) * c a q)%C) = if (p =? q)%nat then RtoC 1 else RtoC 0) ->
  at_least k h' m.
Proof.
  intros P Hh U x. set (y a := S_ k (fun p => (c a p * x p)%C)).
  assert (E : expectation k h' x = expectation l h y).
  { unfold expectation. transitivity (S_ k (fun p => S_ k (fun q => S_ l (fun a => S_ l (fun b => (Cconj (x p) * (Cconj (c a p) * h a b * c b q) * x q)%C))))).
    - apply csum_ext; intros p Hp. apply csum_ext; intros q Hq. rewrite Hh by assumption.
      match goal with |- (?a * ?b * ?d)%C = _ => transitivity ((a * d) * b)%C; [cx; ring|] end. rewrite csum_scal. apply csum_ext; intros a _. rewrite csum_scal. apply csum_ext; intros b _. cx. ring.
    - rewrite (sum_out2 CC). apply csum_ext; intros a _. apply csum_ext; intros b _. unfold y. rewrite conj_sum1.
      match goal with |- _ = (?a * ?b * ?d)%C => transitivity (b * (a * d))%C; [|cx; ring] end. rewrite split11, csum_scal. apply csum_ext; intros p _. rewrite csum_scal. apply csum_ext; intros q _. rewrite conj_prod. cx. ring. }
  assert (Q : sqnorm k x = sqnorm l y).
  { apply RtoC_inj. rewrite !sqnorm_sum. symmetry. transitivity (S_ l (fun a => S_ k (fun p => S_ k (fun q => (Cconj (x p) * x q * (Cconj (c a p) * c a q))%C)))).
    - apply csum_ext; intros a _. unfold y. rewrite conj_sum1, split11. apply csum_ext; intros p _. apply csum_ext; intros q _. rewrite conj_prod. cx. ring.
    - rewrite (sumn_swap CC). apply csum_ext; intros p Hp. rewrite (sumn_swap CC). rewrite (sumn_pick CC k p); [|exact Hp|].
      + rewrite <- csum_scal, U, Nat.eqb_refl by exact Hp. cx. ring.
      + intros q Hq Nq. rewrite <- csum_scal, U by assumption. rewrite (proj2 (Nat.eqb_neq p q)) by congruence. change (@s0 CC) with (RtoC 0). cx. ring. }
  rewrite E, Q. apply P.
Qed.
Lemma changed_least (b b' : basis CC) l k (c h : arr CC) m : shape c = [l; k] -> basis_changed l k c (default_tilde c None) b b' ->
  (forall p q, (p < k)%nat -> (q < k)%nat -> S_ l (fun a => (Cconj (mat c a p) * mat c a q)%C) = if (p =? q)%nat then RtoC 1 else RtoC 0) ->
  b_arr b F_h = Some h -> at_least l (mat h) m ->
  exists h', b_arr b' F_h = Some h' /\ shape h' = [k; k] /\ at_least k (mat h') m.
Proof.
  intros Sc B U Hh P. pose proof (bc_h B) as Q. rewrite Hh in Q. destruct (b_arr b' F_h) as [h'|]; [|destruct Q]. destruct Q as [Su Q].
  exists h'. split; [reflexivity|]. split; [exact Su|]. apply (transformed_least l k (mat h) (mat h') (mat c) m P); [|exact U].
  intros p q Hp Hq. rewrite Q by assumption. unfold T1. apply csum_ext; intros x Hx. apply csum_ext; intros y Hy.
  destruct (default_tilde_spec CC c None l k k Sc Sc) as [_ G]. rewrite !G by assumption. reflexivity.
Qed.
Lemma change_least (b : basis CC) l k (c h : arr CC) m : ready b l -> shape c = [l; k] ->
  (forall p q, (p < k)%nat -> (q < k)%nat -> S_ l (fun a => (Cconj (mat c a p) * mat c a q)%C) = if (p =? q)%nat then RtoC 1 else RtoC 0) ->
  b_arr b F_h = Some h -> at_least l (mat h) m ->
  exists b' h', change_basis c None b = (Ok tt, b') /\ b_arr b' F_h = Some h' /\ shape h' = [k; k] /\ at_least k (mat h') m.
Proof.
  intros R Sc U Hh P. destruct (default_tilde_spec CC c None l k k Sc Sc) as [SD _].
  destruct (change_basis_ok CC l k c _ Sc SD b R) as (b' & E & B). destruct (changed_least b b' l k c h m Sc B U Hh P) as (h' & E' & Sh & P').
  exists b', h'. split; [rewrite change_basis_default; exact E | auto].
Qed.
(** Diagonal h: at least the lowest level *)
Lemma levels_least l h e : diagonal_levels l h e -> at_least l h (e O).
Proof.
  intros [D A] x. 
  assert (E : expectation l h x = RtoC (rsum l (fun p => e p * Cmod (x p) ^ 2))).
  { unfold expectation. rewrite <- csum_rsum. apply csum_ext; intros p Hp. rewrite (sumn_pick CC l p); [|exact Hp|].
    - rewrite D, Nat.eqb_refl by exact Hp. rewrite RtoC_mult, <- sq_real. cx. ring.
    - intros q Hq Nq. rewrite D by assumption. rewrite (proj2 (Nat.eqb_neq p q)) by congruence. change (@s0 CC) with (RtoC 0). cx. ring. }
  rewrite E. split; [reflexivity|]. change (e O * sqnorm l x <= rsum l (fun p => e p * Cmod (x p) ^ 2)). unfold sqnorm. rewrite <- rsum_scal. apply rsum_le. intros p Hp.
  apply Rmult_le_compat_r; [apply pow2_ge_0 | apply A; lia].
Qed.
(** ** Together *)
Lemma levels_bound l h u n e : (n <= l)%nat -> raising l u -> diagonal_levels l h e ->
  energies_above (2 * l) (many_body Spatial l h u) (2 * n) (2 * rsum n (fun p => Re (h p p))).
Proof.
  intros Hn Hu He. replace (rsum n (fun p => Re (h p p))) with (rsum n e); [apply spatial_levels; assumption|].
  apply rsum_ext. intros p Hp. rewrite (proj1 He p p), Nat.eqb_refl by lia. reflexivity.
Qed.
Lemma dot_bound npm spin anti l L N a alpha beta V eigh b :
  odqd npm spin anti l L N a alpha beta V eigh = (Ok tt, b) -> 0 <= alpha -> a <> 0 ->
  eigenbasis (N - 2) (grid_hamiltonian L N V) (fst (eigh (N - 2)%nat (grid_hamiltonian L N V))) (snd (eigh (N - 2)%nat (grid_hamiltonian L N V))) ->
  exists h u, b_arr b F_h = Some h /\ b_arr b F_u = Some u /\
  forall n, (n <= l)%nat -> energies_above (2 * l) (many_body Spatial l (mat h) (ten u)) (2 * n) (2 * rsum n (fun p => Re (mat h p p))).
Proof.
  intros Hb Ha Hs H. destruct (dot_raising _ _ _ _ _ _ _ _ _ _ _ _ Hb Ha Hs) as (u & Eu & _ & Pu). destruct (dot_levels _ _ _ _ _ _ _ _ _ _ _ _ Hb H) as (h & Eh & _ & Ph).
  exists h, u. split; [exact Eh|]. split; [exact Eu|]. intros n Hn. eapply levels_bound; eassumption.
Qed.
Lemma line_bound npm spin anti l L N omega a alpha beta b :
  odho npm spin anti l L N omega a alpha beta = (Ok tt, b) -> 0 <= alpha -> a <> 0 -> 0 <= omega ->
  exists h u, b_arr b F_h = Some h /\ b_arr b F_u = Some u /\
  forall n, (n <= l)%nat -> energies_above (2 * l) (many_body Spatial l (mat h) (ten u)) (2 * n) (omega * INR n ^ 2).
Proof.
  intros Hb Ha Hs Hw. destruct (line_raising _ _ _ _ _ _ _ _ _ _ _ Hb Ha Hs) as (u & Eu & _ & Pu). destruct (line_levels _ _ _ _ _ _ _ _ _ _ _ Hb Hw) as (h & Eh & _ & Ph).
  exists h, u. split; [exact Eh|]. split; [exact Eu|]. intros n Hn. rewrite <- line_sum. apply spatial_levels; assumption.
Qed.
Lemma dvr_bound npm spin anti l L a alpha beta V b m :
  odsincdvr npm spin anti l L a alpha beta V U4d = (Ok tt, b) -> 0 <= alpha -> a <> 0 -> 0 < L -> (forall i, (i < l)%nat -> m <= V (OneDimSpec.point L l i)) ->
  exists h u, b_arr b F_h = Some h /\ b_arr b F_u = Some u /\
  forall n, energies_above (2 * l) (many_body Spatial l (mat h) (ten u)) (2 * n) (INR (2 * n) * m).
Proof.
  intros Hb Ha Hs HL Hm. destruct (dvr_raising _ _ _ _ _ _ _ _ _ _ Hb Ha Hs) as (u & Eu & _ & Pu). destruct (dvr_least _ _ _ _ _ _ _ _ _ _ _ m Hb HL Hm) as (h & Eh & _ & Ph).
  exists h, u. split; [exact Eh|]. split; [exact Eu|]. intros n. apply spatial_least; assumption.
Qed.
Lemma oscillator_bound npm spin anti l L N omega mass e (files : fs) b files' :
  (forall d n f, files d n = Some f -> f = image n) -> oscillator npm spin anti l L N omega mass e files = (Ok b, files') -> 0 < omega ->
  exists h u, b_arr b F_h = Some h /\ b_arr b F_u = Some u /\
  forall n, (n <= l)%nat -> energies_above (2 * l) (many_body Spatial l (mat h) (ten u)) (2 * n) (2 * rsum n (fun p => Re (mat h p p))).
Proof.
  intros Hf E Hw. destruct (holds_raising _ _ _ _ _ _ _ _ _ _ _ (oscillator_holds _ _ _ _ _ _ _ _ _ _ _ _ Hf E)) as (u & Eu & _ & Pu).
  destruct (oscillator_levels _ _ _ _ _ _ _ _ _ _ _ _ Hf E Hw) as (h & Eh & _ & Ph). exists h, u. split; [exact Eh|]. split; [exact Eu|]. intros n Hn. eapply levels_bound; eassumption.
Qed.
Lemma field_bound npm spin anti l L N omega_0 mass omega_c b : omega_0 <> 0 -> field_oscillator npm spin anti l L N omega_0 mass omega_c = (Ok tt, b) ->
  exists h u, b_arr b F_h = Some h /\ b_arr b F_u = Some u /\
  forall n, (n <= l)%nat -> energies_above (2 * l) (many_body Spatial l (mat h) (ten u)) (2 * n) (2 * rsum n (fun p => Re (mat h p p))).
Proof.
  intros H0 E. destruct (field_states l omega_0 omega_c) as [rows|y] eqn:F.
  - destruct (holds_raising _ _ _ _ _ _ _ _ _ _ _ (field_holds _ _ _ _ _ _ _ _ _ _ _ F E)) as (u & Eu & _ & Pu).
    destruct (field_levels _ _ _ _ _ _ _ _ _ _ _ H0 F E) as (h & Eh & _ & Ph). exists h, u. split; [exact Eh|]. split; [exact Eu|]. intros n Hn. eapply levels_bound; eassumption.
  - apply (field_raises npm spin anti l L N omega_0 mass omega_c y) in F. rewrite E in F. discriminate F.
Qed.
Lemma double_well_raising npm spin anti l L N omega mass e barrier axis (files : fs) b files' :
  (forall d n f, files d n = Some f -> f = image n) -> double_well npm spin anti l L N omega mass e barrier axis files = (Ok b, files') ->
  exists u, b_arr b F_u = Some u /\ shape u = [l; l; l; l] /\ raising l (ten u).
Proof. intros Hf E. eapply holds_raising, double_well_holds; eassumption. Qed.
Lemma oscillator_raising npm spin anti l L N omega mass e (files : fs) b files' :
  (forall d n f, files d n = Some f -> f = image n) -> oscillator npm spin anti l L N omega mass e files = (Ok b, files') ->
  exists u, b_arr b F_u = Some u /\ shape u = [l; l; l; l] /\ raising l (ten u).
Proof. intros Hf E. eapply holds_raising, oscillator_holds; eassumption. Qed.
Lemma field_raising npm spin anti l L N omega_0 mass omega_c b : field_oscillator npm spin anti l L N omega_0 mass omega_c = (Ok tt, b) ->
  exists u, b_arr b F_u = Some u /\ shape u = [l; l; l; l] /\ raising l (ten u).
Proof.
  intros E. destruct (field_states l omega_0 omega_c) as [rows|y] eqn:F.
  - eapply holds_raising, field_holds; eassumption.
  - apply (field_raises npm spin anti l L N omega_0 mass omega_c y) in F. rewrite E in F. discriminate F.
Qed.
(** Every state: the repulsion adds to the one-body energy. *)
Lemma spatial_raise l h u (f : FockSpec.state CC) : raising l u -> proper f ->
  nonneg (inner (2 * l) f (many_body Spatial l h u f) - inner (2 * l) f (one_body (K := CC) (2 * l) (dbl1 (K := CC) h) f))%C.
Proof.
  intros Hu Pf. cbn [many_body]. unfold hamiltonian. rewrite (inner_add CC), (inner_scal CC). change (shalf (s := CC)) with (RtoC (/ 2)).
  pose proof (nonneg_scal (/ 2) _ ltac:(lra) (two_raises (2 * l) _ f (doubled_raising l u Hu) Pf)) as Q. change (@sadd CC) with Cplus. change (@smul CC) with Cmult.
  match goal with |- nonneg (?a + ?b - ?c)%C => replace (a + b - c)%C with b; [exact Q|] end. cx. ring.
Qed.
(** A state with a definite energy: two electrons in one orbital *)
Lemma pair_state h u : eigenstate (K := CC) 2 (many_body Spatial 1 h u) (RtoC 2 * h O O + u O O O O)%C (determinant (K := CC) 2 (lowest 2)).
Proof.
  split; [apply det_proper|]. split; [exists (lowest 2); split; [apply lowest_among; lia|]; cbn; intros E; injection E as E; lra|].
  intros o A. cbn [many_body Nat.mul Nat.add]. 
  unfold hamiltonian, one_body, two_body, determinant, lowest. cbn [sumn seq forallb].
  unfold create, annihilate, put, dbl1, dbl2, same_parity.
  destruct (o O) eqn:E0, (o 1%nat) eqn:E1; cbn -[RtoC Cplus Cmult Copp]; rewrite ?E0, ?E1; cbn -[RtoC Cplus Cmult Copp].
  2-4: cx; ring.
  generalize (h O O), (u O O O O). intros a d. transitivity ((RtoC 1 + RtoC 1) * a + (RtoC (/ 2) + RtoC (/ 2)) * d)%C; [cx; ring|].
  rewrite C_half, <- RtoC_plus. replace (1 + 1)%R with 2 by ring. cx. ring.
Qed.
