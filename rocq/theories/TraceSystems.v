From Coq Require Import List Arith ZArith Reals Lra Lia Bool.
From Coquelicot Require Import Coquelicot.
From Verif Require Import Scalar ScalarC Py Numpy BasisSet Spec OneDim OneDimSpec OneDimProofs LineProofs DotProofs GridSpec GridProofs DvrSpec PositiveForms SincDvr SincProofs Systems.
From Verif Require Import TwoDim TwoDimProofs Orbitals Coulomb CoulombProofs Cache CacheProofs MatrixProofs TwoDimBasis PlaneProofs DipoleTheorems.
From Verif Require Import FockSpec InnerSpec RaiseSpec RaiseProofs FockSpectrumSpec VariationalTheorems VariationalSystems StrengthSystems SymmetryProofs TraceSpec TraceProofs.
From Verif Require Import GridSpec GridProofs.
Import ListNotations.
Open Scope R_scope.
Local Notation S_ := (sumn (K := CC)).

Lemma energies_add_of l (b : basis CC) h u t1 t2 : b_arr b F_h = Some h -> b_arr b F_u = Some u -> hermitian (K := CC) l (mat h) -> hermitian2 (K := CC) l (ten u) ->
  trace_one Spatial l (mat h) = RtoC t1 -> trace_two Spatial l (ten u) = RtoC t2 -> energies_add l b t1 t2.
Proof.
  intros Eh Eu Hh Hu T1 T2. exists h, u. do 2 (split; [assumption|]). intros m n. destruct (spectrum_many Spatial l (mat h) (ten u) m Hh Hu) as (E & Psi & Sp). exists E, Psi. split; [exact Sp|].
  pose proof (energies_total Spatial l (mat h) (ten u) m _ E Psi Hh Hu ltac:(discriminate) Sp) as Q. unfold energy_sum in Q. rewrite T1, T2, <- !RtoC_mult, <- RtoC_plus in Q. exact (RtoC_inj _ _ Q).
Qed.
Lemma real_trace_one l (h : nat -> nat -> C) (e : nat -> R) : (forall p, (p < l)%nat -> h p p = RtoC (e p)) -> trace_one Spatial l h = RtoC (2 * rsum l e).
Proof. intros H. cbn [trace_one]. rewrite (csum_ext l _ (fun p => RtoC (e p))) by exact H. rewrite csum_rsum, <- RtoC_mult. reflexivity. Qed.
Lemma real_trace_two l (u : nat -> nat -> nat -> nat -> C) (v w : nat -> nat -> R) : (forall p q, (p < l)%nat -> (q < l)%nat -> u p q p q = RtoC (v p q) /\ u p q q p = RtoC (w p q)) ->
  trace_two Spatial l u = RtoC (rsum l (fun p => rsum l (fun q => 2 * v p q - w p q))).
Proof.
  intros H. cbn [trace_two]. rewrite <- csum_rsum. apply csum_ext. intros p Hp. rewrite <- csum_rsum. apply csum_ext. intros q Hq. destruct (H p q Hp Hq) as [-> ->]. rewrite RtoC_minus, RtoC_mult. reflexivity.
Qed.
Lemma rsum_single l p (f : nat -> R) : (p < l)%nat -> rsum l (fun q => if (p =? q)%nat then f q else 0) = f p.
Proof.
  induction l as [|l IH]; intros Hp; [lia|]. cbn [rsum]. destruct (Nat.eqb_spec p l) as [->|N].
  - rewrite (rsum_ext l _ (fun _ => 0)) by (intros q Hq; destruct (Nat.eqb_spec l q); [lia | reflexivity]). rewrite rsum_const. ring.
  - rewrite IH by lia. ring.
Qed.
Lemma dvr_total npm spin anti l L a alpha beta V b : odsincdvr npm spin anti l L a alpha beta V U4d = (Ok tt, b) ->
  let v p q := alpha / sqrt ((OneDimSpec.point L l p - OneDimSpec.point L l q) ^ 2 + a ^ 2) in
  energies_add l b (2 * rsum l (fun p => PI ^ 2 / (6 * spacing L l ^ 2) + V (OneDimSpec.point L l p))) (2 * rsum l (fun p => rsum l (v p)) - rsum l (fun p => v p p)).
Proof.
  intros E v. destruct (dvr_result _ _ _ _ _ _ _ _ _ _ _ E) as ([_ _ _ _ _ _ A _] & _ & Hl).
  eapply energies_add_of; [rewrite A; reflexivity | rewrite A; reflexivity | apply dvr_h_hermitian | apply spread_hermitian | |].
  - apply real_trace_one. intros p Hp. cbn [mat get arr2]. unfold dvr_h. rewrite Nat.eqb_refl, !linspace_point. replace (OneDimSpec.point L l 1 - OneDimSpec.point L l 0) with (spacing L l); [reflexivity|]. unfold OneDimSpec.point, spacing, Rdiv. cbn [INR]. ring.
  - rewrite (real_trace_two l _ v (fun p q => if (p =? q)%nat then v p q else 0)).
    + f_equal. rewrite (rsum_ext l _ (fun p => 2 * rsum l (v p) + (-1) * v p p)); [rewrite rsum_add, !rsum_scal; ring|]. intros p Hp.
      rewrite (rsum_ext l _ (fun q => 2 * v p q + (-1) * (if (p =? q)%nat then v p q else 0))) by (intros; ring). rewrite rsum_add, !rsum_scal, rsum_single by exact Hp. reflexivity.
    + intros p q Hp Hq. rewrite !dvr_u_value. rewrite !Nat.eqb_refl. rewrite (Nat.eqb_sym q p). unfold dvr_data, shielded_coulomb. rewrite !linspace_point. split; [reflexivity|]. destruct (p =? q)%nat; reflexivity.
Qed.
Lemma real_of (z : C) : z = Cconj z -> z = RtoC (Re z).
Proof. destruct z as [x y]. intros H. apply (f_equal snd) in H. cbn in H. unfold RtoC, Re. cbn. f_equal. lra. Qed.
Lemma line_levels omega l : rsum l (fun p => omega * (INR p + 1 / 2)) = omega * INR l ^ 2 / 2.
Proof. induction l as [|l IH]; [cbn; field|]. cbn [rsum]. rewrite IH, S_INR. field. Qed.
Lemma line_total npm spin anti l L N omega a alpha beta b : odho npm spin anti l L N omega a alpha beta = (Ok tt, b) ->
  exists u, b_arr b F_u = Some u /\ energies_add l b (omega * INR l ^ 2) (rsum l (fun p => rsum l (fun q => 2 * Re (ten u p q p q) - Re (ten u p q q p)))).
Proof.
  intros E. destruct (line_h _ _ _ _ _ _ _ _ _ _ _ E) as (h & Eh & _ & Gh). destruct (odho_result _ _ _ _ _ _ _ _ _ _ _ E) as (Eb & _).
  set (u := arr4 l Complex128 (orbital_integral (odho_spf L N omega) N (linspace L N) alpha a)).
  assert (Eu : b_arr b F_u = Some u) by (rewrite Eb; reflexivity). exists u. split; [exact Eu|].
  apply (energies_add_of l b h u); [exact Eh | exact Eu | | apply u_hermitian | |].
  - apply (diag_hermitian l (mat h) (fun p => omega * (INR p + 1 / 2))). intros; apply Gh.
  - rewrite (real_trace_one l (mat h) (fun p => omega * (INR p + 1 / 2))) by (intros p _; rewrite Gh, Nat.eqb_refl; reflexivity). f_equal. rewrite line_levels. field.
  - apply real_trace_two. intros p q Hp Hq. assert (Hu : hermitian2 (K := CC) l (ten u)) by apply u_hermitian. assert (Pu : particle_sym (K := CC) l (ten u)) by apply u_particle_sym. split; apply real_of.
    + exact (Hu p q p q Hp Hq Hp Hq).
    + rewrite (Pu p q q p Hp Hq Hq Hp) at 2. exact (Hu p q q p Hp Hq Hq Hp).
Qed.
Lemma plane_total npm spin anti l k L N omega mass e (files : fs) b t : (2 * l = k * (k + 1))%nat -> sound files -> oscillator npm spin anti l L N omega mass e files = (Ok b, t) ->
  energies_add l b (omega * (INR k * (INR k + 1) * (2 * INR k + 1)) / 3) (sqrt omega * rsum l (fun p => rsum l (fun q => 2 * coulomb_of shell_state p q p q - coulomb_of shell_state p q q p))).
Proof.
  intros K F E. destruct (plane_hermitian _ _ _ _ _ _ _ _ _ _ _ _ F E) as (h & u & Eh & Eu & Hh & Hu & Gh & Gu). apply (energies_add_of l b h u); try assumption.
  - rewrite (real_trace_one l (mat h) (fun p => oscillator_element omega p p)) by (intros; apply Gh). f_equal. rewrite (shell_sum omega k l K). field.
  - rewrite (real_trace_two l (ten u) (fun p q => sqrt omega * coulomb_of shell_state p q p q) (fun p q => sqrt omega * coulomb_of shell_state p q q p)) by (intros p q Hp Hq; split; apply Gu; assumption).
    f_equal. rewrite <- rsum_scal. apply rsum_ext. intros p _. rewrite <- rsum_scal. apply rsum_ext. intros q _. ring.
Qed.
