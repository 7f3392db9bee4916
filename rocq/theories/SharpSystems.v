(** Conserved quantum numbers of the systems. *)
From Coq Require Import List Arith ZArith Znumtheory Reals Lra Lia Bool.
From Coquelicot Require Import Coquelicot.
From Verif Require Import Scalar ScalarC Py Numpy BasisSet Spec BasisSpec OneDim OneDimSpec OneDimProofs LineProofs DotProofs GridSpec GridProofs SpectralSpec SpectralProofs ParitySpec ParityTheorems Systems SystemFacts SystemProofs Worlds OperatorSpec OperatorProofs.
From Verif Require Import TwoDim TwoDimProofs FieldProofs Orbitals Coulomb CoulombProofs Cache CacheProofs CacheExamples MatrixProofs TwoDimBasis PlaneProofs DipoleTheorems VariationalTheorems VariationalSystems.
From Verif Require Import FockSpec InnerSpec RaiseSpec RaiseFock RaiseTheorems FockSpectrumSpec FockSpectrum GroundTheorems EvolutionSpec EvolutionProofs EvolutionTheorems SharpSpec SharpProofs SharpTheorems.
Import ListNotations.
Open Scope R_scope.
Local Notation inner := (InnerSpec.inner (K := CC)).

Lemma keeps1_of l t (h : nat -> nat -> C) : (forall p q, (p < l)%nat -> (q < l)%nat -> ~ alike t (charge t p) (charge t q) -> h p q = RtoC 0) -> keeps1 l t h.
Proof. intros H p q Hp Hq Nz. apply Classical_Prop.NNPP. intros N. apply Nz, H; assumption. Qed.
Lemma keeps2_of l t (u : nat -> nat -> nat -> nat -> C) :
  (forall p q r s, (p < l)%nat -> (q < l)%nat -> (r < l)%nat -> (s < l)%nat -> ~ alike t (charge t p + charge t q) (charge t r + charge t s) -> u p q r s = RtoC 0) -> keeps2 l t u.
Proof. intros H p q r s Hp Hq Hr Hs Nz. apply Classical_Prop.NNPP. intros N. apply Nz, H; assumption. Qed.
Lemma diagonal_keeps l t (h : nat -> nat -> C) : (forall p q, (p < l)%nat -> (q < l)%nat -> p <> q -> h p q = RtoC 0) -> keeps1 l t h.
Proof. intros H. apply keeps1_of. intros p q Hp Hq N. apply H; [exact Hp | exact Hq|]. intros ->. apply N, alike_refl. Qed.
Lemma odd_parity a b : ~ (2 | Z.of_nat a - Z.of_nat b)%Z -> Nat.odd (a + b) = true.
Proof.
  intros N. rewrite <- Nat.negb_even. apply negb_true_iff. destruct (Nat.even (a + b)) eqn:E; [|reflexivity]. exfalso. apply N. apply Nat.even_spec in E. destruct E as [c Ec].
  exists (Z.of_nat c - Z.of_nat b)%Z. lia.
Qed.
(** The interaction of an even line keeps the parity. *)
Lemma line_rule l (b : basis CC) u : interaction_rule l b -> b_arr b F_u = Some u -> keeps2 l (Label Z.of_nat 2) (ten u).
Proof.
  intros (u' & E & G) Eu. rewrite Eu in E. injection E as <-. apply keeps2_of. intros p q r s Hp Hq Hr Hs N. apply G; [exact Hp | exact Hq | exact Hr | exact Hs|].
  replace (p + q + r + s)%nat with ((p + q) + (r + s))%nat by lia. apply odd_parity. intros D. apply N. unfold alike. cbn [charge modulus]. replace (Z.of_nat p + Z.of_nat q - (Z.of_nat r + Z.of_nat s))%Z with (Z.of_nat (p + q) - Z.of_nat (r + s))%Z by lia. exact D.
Qed.
Lemma line_conserved npm spin anti l L N omega a alpha beta b : odho npm spin anti l L N omega a alpha beta = (Ok tt, b) -> conserved l b [Label Z.of_nat 2].
Proof.
  intros E. destruct (line_h _ _ _ _ _ _ _ _ _ _ _ E) as (h & Eh & _ & Gh). destruct (line_two_body _ _ _ _ _ _ _ _ _ _ _ E) as (u & Eu & _ & _ & Hu). pose proof (line_interaction _ _ _ _ _ _ _ _ _ _ _ E) as Ir.
  exists h, u. split; [exact Eh|]. split; [exact Eu|]. split; [apply (diag_hermitian l (mat h) (fun p => omega * (INR p + 1 / 2))); intros; apply Gh|]. split; [exact Hu|].
  intros t [<- | []]. split; [|exact (line_rule l b u Ir Eu)]. apply diagonal_keeps. intros p q _ _ Ne. rewrite Gh. destruct (Nat.eqb_spec p q); [contradiction | reflexivity].
Qed.
Lemma dot_conserved npm spin anti l L N a alpha beta V eigh b : odqd npm spin anti l L N a alpha beta V eigh = (Ok tt, b) -> 0 < L -> solves L N V eigh ->
  (forall x, - L <= x <= L -> V (- x) = V x) -> conserved l b [Label Z.of_nat 2].
Proof.
  intros E HL HE HV. pose proof (dot_interaction _ _ _ _ _ _ _ _ _ _ _ _ E HL HE HV) as Ir. destruct (dot_result _ _ _ _ _ _ _ _ _ _ _ _ E) as (-> & _).
  eexists. eexists. split; [reflexivity|]. split; [reflexivity|]. split; [|split; [apply u_hermitian|]].
  - apply (diag_hermitian l _ (odqd_energy L N V eigh)). intros p q _ _. cbn. destruct (p =? q)%nat; reflexivity.
  - intros t [<- | []]. split; [|exact (line_rule l _ _ Ir eq_refl)]. apply diagonal_keeps. intros p q _ _ Ne. cbn. destruct (Nat.eqb_spec p q); [contradiction | reflexivity].
Qed.
Lemma plane_conserved npm spin anti l N L mass w nm he b m : (forall p q, he p q = he q p) -> holds npm spin anti l N L mass w nm he b ->
  (forall p q, (p < l)%nat -> (q < l)%nat -> ~ (m | snd (nm p) - snd (nm q))%Z -> he p q = 0) -> conserved l b [Label (fun p => snd (nm p)) m].
Proof.
  intros Hs H Hm. destruct (ho_h _ _ _ _ _ _ _ _ _ _ _ H) as (h & Eh & _ & Gh). destruct (ho_u _ _ _ _ _ _ _ _ _ _ _ H) as (u & Eu & _ & Gu).
  exists h, u. split; [exact Eh|]. split; [exact Eu|]. split; [|split].
  - intros p q _ _. unfold mat. rewrite !Gh, (Hs p q). cbn. unfold Cconj, RtoC. cbn. f_equal. ring.
  - intros p q r s Hp Hq Hr Hs'. unfold ten. rewrite !Gu by assumption. assert (Ct : coulomb_of nm r s p q = coulomb_of nm p q r s) by exact (coulomb_transpose _ _ _ _ _ _ _ _). rewrite Ct. cbn. unfold Cconj, RtoC. cbn. f_equal. ring.
  - intros t [<- | []]. split.
    + apply keeps1_of. intros p q Hp Hq D. unfold mat. rewrite Gh, (Hm p q Hp Hq D). reflexivity.
    + apply keeps2_of. intros p q r s Hp Hq Hr Hs' D. unfold ten. rewrite Gu by assumption. rewrite (angular nm p q r s); [rewrite Rmult_0_r; reflexivity|]. intros Q. apply D. unfold alike. cbn [charge modulus]. rewrite Q, Z.sub_diag. apply Z.divide_0_r.
Qed.
Lemma oscillator_conserved npm spin anti l L N omega mass e (files : fs) b t : sound files -> oscillator npm spin anti l L N omega mass e files = (Ok b, t) ->
  conserved l b [Label (fun p => snd (shell_state p)) 0].
Proof.
  intros F E. refine (plane_conserved _ _ _ _ _ _ _ _ _ _ _ _ _ (oscillator_holds _ _ _ _ _ _ _ _ _ _ _ _ F E) _).
  - intros p q. unfold oscillator_element. rewrite (Nat.eqb_sym q p). destruct (Nat.eqb_spec p q) as [->|_]; [reflexivity | ring].
  - intros p q _ _ D. unfold oscillator_element. destruct (Nat.eqb_spec p q) as [->|]; [exfalso; apply D; rewrite Z.sub_diag; apply Z.divide_0_r | ring].
Qed.
Lemma double_well_conserved npm spin anti l L N omega mass e barrier axis (files : fs) b t : 0 < mass -> 0 < omega -> sound files -> double_well npm spin anti l L N omega mass e barrier axis files = (Ok b, t) ->
  conserved l b [Label (fun p => snd (shell_state p)) 2].
Proof.
  intros Hm Hw F E. refine (plane_conserved _ _ _ _ _ _ _ _ _ _ _ _ _ (double_well_holds _ _ _ _ _ _ _ _ _ _ _ _ _ _ F E) _).
  - intros p q. apply double_well_sym; assumption.
  - intros p q _ _ D. apply Classical_Prop.NNPP. intros Nz. apply D. pose proof (double_well_even mass omega barrier axis p q Nz) as V. apply Z.even_spec in V. destruct V as [c Ec]. exists c. lia.
Qed.
Lemma field_conserved npm spin anti l L N omega_0 mass omega_c rows b : field_states l omega_0 omega_c = Ok rows -> field_oscillator npm spin anti l L N omega_0 mass omega_c = (Ok tt, b) ->
  conserved l b [Label (fun p => snd (nth p rows (0, 0)%Z)) 0].
Proof.
  intros Fs E. refine (plane_conserved _ _ _ _ _ _ _ _ _ _ _ _ _ (field_holds _ _ _ _ _ _ _ _ _ _ _ Fs E) _).
  - intros p q. unfold field_element. rewrite (Nat.eqb_sym q p). destruct (Nat.eqb_spec p q) as [->|_]; reflexivity.
  - intros p q _ _ D. unfold field_element. destruct (Nat.eqb_spec p q) as [->|]; [exfalso; apply D; rewrite Z.sub_diag; apply Z.divide_0_r | reflexivity].
Qed.
(** General systems made from spatial ones *)
Lemma general_sharp (w : world CC) s (va vb : list CC) N l x (b : basis CC) (ov : arr CC) ts : sys_at w s Spatial N l x b ->
  b_cls b = Base -> orthonormal_pair va vb -> b_spin b = false -> b_asym b = false -> b_arr b F_s = Some ov ->
  (b_arr b F_spf = None -> b_arr b F_bra = None) -> sy_op x = None -> conserved l b ts ->
  exists w' g (h' u' : arr CC), construct_general s va vb true w = (Ok g, w') /\ sys_get g F_h w' = (Ok (Some h'), w') /\ sys_get g F_u w' = (Ok (Some u'), w') /\
    forall m, exists E Psi, spectrum (2 * l) (many_body General (2 * l) (mat h') (ten u')) m (choose (2 * l) m) E Psi /\
      forall p, (p < choose (2 * l) m)%nat -> forall t, In t (spin_label :: map of_orbital ts) -> sharp (2 * l) t (Psi p).
Proof.
  intros A Hc Hp Hs Ha Eo Hb Ho (h & u & Eh & Eu & Hh & Hu & Kt). destruct (variational_constructed w s va vb N l x b ov h u A Hc Hp Hs Ha Eo Hb Ho Eh Eu) as (w' & g & h' & u' & E & Gh & Gu & Q).
  exists w', g, h', u'. do 3 (split; [assumption|]). intros m. destruct (many_sharp Spatial l (mat h) (ten u) ts Hh Hu Kt m) as ((En & Psi & Sp & Sh) & _). exists En, Psi. split; [apply (Q m), Sp | exact Sh].
Qed.
(** Evolution *)
Lemma evolution_sharp (w : world CC) s k l x (h u : arr CC) d M ts : evolving w s l x h u d M -> sy_kind x = k -> hermitian l (mat h) -> hermitian2 l (ten u) -> hermitian_drive l d M ->
  kept l (mat h) (ten u) ts -> (forall t y, In t ts -> keeps1 l t (one_body_term (K := CC) M d (RtoC y))) ->
  forall ops, List.Forall reads ops -> let w' := wrun_any ops w in let n := spin_orbitals k l in let H y := many_body k l (h_at s w' y) (u_at s w' y) in
  forall psi t Q, evolution n H psi -> In t (labels k ts) ->
  (forall y z, inner n (component n t Q (psi y)) (component n t Q (psi y)) = inner n (component n t Q (psi z)) (component n t Q (psi z))) /\
  (forall y z, sharp n t (psi y) -> sharp n t (psi z)).
Proof.
  intros Ev0 _ Hh Hu Hd Kt Kd ops Hr w' n H psi t Q E Ht. pose proof (evolving_reads CC ops w s l x h u d M Hr Ev0) as Ev. fold w' in Ev.
  refine (many_weight k l (h_at s w') (u_at s w') ts psi t Q _ _ _ Ht E).
  - intros y. apply (h_at_hermitian w' s l x h u d M Ev Hh Hd).
  - intros y. apply (u_at_hermitian w' s l x h u d M Ev Hu Hd).
  - intros y t' Ht'. destruct (Kt t' Ht') as [K1 K2]. specialize (Kd t' y Ht'). split.
    + apply keeps1_of. intros p q Hp Hq N. rewrite (h_at_eq w' s l x h u d M Ev y p q Hp Hq). assert (Z1 : mat h p q = RtoC 0) by (apply Classical_Prop.NNPP; intros C; apply N, K1; assumption).
      assert (Z2 : one_body_term (K := CC) M d (RtoC y) p q = RtoC 0) by (apply Classical_Prop.NNPP; intros C; apply N, Kd; assumption). rewrite Z1, Z2. apply Cplus_0_l.
    + apply keeps2_of. intros p q r z Hp Hq Hr' Hz N. rewrite (u_at_eq w' s l x h u d M Ev y p q r z Hp Hq Hr' Hz). assert (Z1 : ten u p q r z = RtoC 0) by (apply Classical_Prop.NNPP; intros C; apply N, K2; assumption). rewrite Z1. apply Cmult_0_r.
Qed.
