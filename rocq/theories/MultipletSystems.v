(** The spin arrays of the library. *)
From Coq Require Import List Arith ZArith Znumtheory Reals Lra Lia Bool.
From Coquelicot Require Import Coquelicot.
From Verif Require Import Scalar ScalarC Py Numpy BasisSet BasisSpec Spec OneDimSpec OneDimProofs DotProofs GridSpec GridProofs PositiveForms SpectralSpec SpectralProofs SpinProofs ChangeProofs DoubleFacts SpinFacts.
From Verif Require Import FockSpec FockProofs FockSystem InnerSpec InnerProofs RaiseSpec RaiseProofs RaiseFock RaiseTheorems FockSpectrumSpec FockSpectrum GroundTheorems Systems SharpSpec SharpProofs SharpTheorems EvolutionProofs VariationalTheorems VariationalSystems RotationExamples MultipletSpec MultipletProofs MultipletLadder MultipletBasis MultipletTheorems.
Import ListNotations.
Open Scope R_scope.
Local Notation state := (FockSpec.state CC).

Lemma default_orthonormal : orthonormal_pair (default_a CC) (default_b CC).
Proof. repeat split; unfold ip2; cbn; apply injective_projections; cbn; ring. Qed.
Lemma default_rot sg i j : (i < 2)%nat -> (j < 2)%nat -> rot CC (default_a CC) (default_b CC) sg i j = sg i j.
Proof. intros Hi Hj. destruct i as [|[|i]]; [| |lia]; (destruct j as [|[|j]]; [| |lia]); unfold rot, T1; cbn; apply injective_projections; cbn; ring. Qed.
Lemma spin_matrix_op l (s : nat -> nat -> C) sg (a : nat -> nat -> C) f o : (forall p q, (p < l)%nat -> (q < l)%nat -> s p q = delta (K := CC) p q) ->
  (forall P Q, a P Q = spin_matrix (K := CC) sg (default_a CC) (default_b CC) s P Q) ->
  one_body (K := CC) (2 * l) a f o = spin_op l (fun i j => (RtoC (1 / 2) * sg i j)%C) f o.
Proof.
  intros Hs Ha. unfold spin_op. apply one_ext. intros P Q HP HQ. rewrite Ha, spin_matrix_kron2. unfold kron2. rewrite Hs by (apply Nat.div_lt_upper_bound; lia).
  rewrite default_rot by (apply Nat.mod_upper_bound; lia). unfold delta. destruct (P / 2 =? Q / 2)%nat; apply injective_projections; cbn; lra.
Qed.
Lemma library_multiplets (b : basis CC) l (s h u : arr CC) :
  ready b l -> b_spin b = false -> b_asym b = false -> b_arr b F_s = Some s -> (forall p q, (p < l)%nat -> (q < l)%nat -> mat s p q = delta (K := CC) p q) ->
  b_arr b F_h = Some h -> b_arr b F_u = Some u -> hermitian l (mat h) -> hermitian2 l (ten u) ->
  exists b' (h' u' sz s2 tb : arr CC), change_to_general None true b = (Ok true, b') /\
    b_arr b' F_h = Some h' /\ b_arr b' F_u = Some u' /\ b_arr b' F_spz = Some sz /\ b_arr b' F_sp2 = Some s2 /\ b_arr b' F_sp2tb = Some tb /\
    forall m, let n := (2 * l)%nat in let d := choose n m in
    exists E Psi S M, spectrum n (many_body General n (mat h') (ten u')) m d E Psi /\ multiplets l m d E S M /\
      forall p, (p < d)%nat -> forall o, among n o ->
        one_body (K := CC) n (mat sz) (Psi p) o = (RtoC (IZR (M p) / 2) * Psi p o)%C /\
        (one_body (K := CC) n (mat s2) (Psi p) o + RtoC (1 / 2) * two_body (K := CC) n (ten tb) (Psi p) o)%C = (RtoC (INR (S p) / 2 * (INR (S p) / 2 + 1)) * Psi p o)%C.
Proof.
  intros R Hsp Has Es Ds Eh Eu Hh Hu.
  destruct (fock_spin CC None true b l s ltac:(reflexivity) default_orthonormal R Hsp Has Es Ds) as (b' & h' & u' & sx & sy & sz & s2 & tb & E & E1 & E2 & E3 & E4 & E5 & E6 & E7 & Sq & _).
  destruct (change_to_general_ok CC None true b l s ltac:(reflexivity) (orthonormal_accepted CC _ _ default_orthonormal) R Hsp Es) as (b'' & E' & D). rewrite E in E'. injection E' as <-. rewrite Has in D. cbn [negb andb] in D.
  exists b', h', u', sz, s2, tb. do 6 (split; [assumption|]). intros m. cbv zeta.
  destruct (joint_states l (mat h) (ten u) Hh Hu [] (no_labels l (mat h) (ten u)) m) as (En & Psi & S & M & Sp & Mu & J). exists En, Psi, S, M. split; [|split; [exact Mu|]].
  - revert Sp. apply spectrum_ext. intros f Pf o. symmetry. cbn [many_body].
    pose proof (sd_h D) as Dh. rewrite Eh, E1 in Dh. pose proof (sd_u D) as Du. rewrite Eu, E2 in Du.
    rewrite <- (ham_exch CC (2 * l) (dbl1 (K := CC) (mat h)) (dbl2 (K := CC) (ten u)) f Pf o). unfold hamiltonian.
    rewrite (one_ext CC (2 * l) (mat h') (dbl1 (K := CC) (mat h)) f ltac:(intros; apply (proj2 Dh)) o).
    rewrite (two_ext CC (2 * l) (ten u') (exch (dbl2 (K := CC) (ten u))) f ltac:(intros; apply (proj2 Du); assumption) o). reflexivity.
  - intros p Hp o A. destruct (J p Hp) as (J1 & J2 & _). destruct (sp_state _ _ _ _ _ _ Sp p Hp) as [[Pp _] _].
    destruct (sd_spx D) as (sx' & Ex & _ & Gx). destruct (sd_spy D) as (sy' & Ey & _ & Gy). destruct (sd_spz D) as (sz' & Ez & _ & Gz). rewrite E3 in Ex. rewrite E4 in Ey. rewrite E5 in Ez. injection Ex as <-. injection Ey as <-. injection Ez as <-.
    split; [rewrite (spin_matrix_op l (mat s) pauli_z (mat sz) (Psi p) o Ds Gz); apply (J2 o A)|].
    rewrite <- (J1 o A). pose proof (Sq (Psi p) Pp o) as Q. cbn [sadd smul CC shalf] in Q. etransitivity; [|etransitivity; [exact Q|]].
    + replace (1 / 2) with (/ 2) by field. reflexivity.
    + unfold S_squared. f_equal; [f_equal|].
      * rewrite (spin_matrix_op l (mat s) pauli_x (mat sx) _ o Ds Gx). apply so_congr. intros o'. apply (spin_matrix_op l (mat s) pauli_x (mat sx) (Psi p) o' Ds Gx).
      * rewrite (spin_matrix_op l (mat s) pauli_y (mat sy) _ o Ds Gy). apply so_congr. intros o'. apply (spin_matrix_op l (mat s) pauli_y (mat sy) (Psi p) o' Ds Gy).
      * rewrite (spin_matrix_op l (mat s) pauli_z (mat sz) _ o Ds Gz). apply so_congr. intros o'. apply (spin_matrix_op l (mat s) pauli_z (mat sz) (Psi p) o' Ds Gz).
Qed.
(** Electrons with parallel spins have the largest spin. *)
Lemma polarized l m f : particle_state (2 * l) m f -> projection l (Z.of_nat m) f -> total_spin l m f.
Proof.
  intros Hf H. pose proof (proj1 Hf) as Pf.
  assert (U : forall o, among (2 * l) o -> spin_op l MultipletProofs.up f o = RtoC 0).
  { apply Classical_Prop.NNPP. intros No. assert (Nz : nonzero l (spin_op l MultipletProofs.up f)).
    { apply Classical_Prop.NNPP. intros C. apply No. intros o A. apply Classical_Prop.NNPP. intros N. apply C. exists o. split; assumption. }
    destruct (projection_bounds l m (Z.of_nat m + 2) _ (so_particles l _ m f Hf) Nz (projection_raised l (Z.of_nat m) f Pf H)) as (B & _). lia. }
  intros o A. rewrite (squared_so l f Pf o), (zed_zed l (Z.of_nat m) f Pf H o A). change (spin_op l MultipletProofs.zed f o) with (S_z l f o). rewrite (H o A).
  rewrite (so_agree l MultipletProofs.down _ (fun _ => (RtoC 0 * RtoC 0)%C)); [|intros o' A'; rewrite (U o' A'); cring | exact A]. rewrite (so_scal l MultipletProofs.down (RtoC 0) (fun _ => RtoC 0) o), INR_IZR_INZ. cring.
Qed.
Lemma det_projection l c : projection l (total_charge (2 * l) (charge spin_label) c) (determinant (K := CC) (2 * l) c).
Proof. apply projection_held; [apply det_proper|]. intros o A N. pose proof (det_held (2 * l) spin_label c o A) as D. apply D. unfold alike. cbn [modulus spin_label]. intros Z. apply Z.divide_0_l in Z. apply N. lia. Qed.
Definition mv_s : arr CC := @Arr CC [2; 2]%nat Float64 (fun idx => match idx with [p; q] => if (p =? q)%nat then RtoC 1 else RtoC 0 | _ => RtoC 0 end).
Definition mv_basis : basis CC := Basis Base (Some 0%nat) 2 1 (fun f => match f with F_h => Some lv_h | F_u => Some lv_u | F_s => Some mv_s | _ => None end) (RtoC 0) false false.
Lemma mv_ready : ready mv_basis 2.
Proof.
  split; try (intros a H; discriminate H); [exists 0%nat; reflexivity | reflexivity | exists lv_h; split; reflexivity | exists lv_u; split; reflexivity | |].
  - intros a H. injection H as <-. reflexivity.
  - intros f a [<-|[<-|[<-|[<-|[]]]]] H; discriminate H.
Qed.
