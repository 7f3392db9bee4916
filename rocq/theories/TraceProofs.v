From Coq Require Import List Arith ZArith Reals Lra Lia Bool.
From Coquelicot Require Import Coquelicot.
From Verif Require Import Scalar ScalarC Py Numpy BasisSet Spec OneDimSpec OneDimProofs DotProofs GridSpec GridProofs Systems SystemFacts EnergyProofs PositiveForms.
From Verif Require Import FockSpec FockProofs InnerSpec InnerProofs RaiseSpec RaiseProofs RaiseFock RaiseTheorems FockSpectrumSpec FockSpectrum GroundTheorems TraceSpec.
Import ListNotations.
Open Scope R_scope.
Local Notation S_ := (sumn (K := CC)).
Local Notation T_ := (total (K := CC)).
Local Notation state := (FockSpec.state CC).

(** ** Sums over the occupations with m particles *)
Definition sect (n m : nat) (F : occupation -> C) (o : occupation) : C := if (particles n o =? m)%nat then F o else RtoC 0.
Lemma total_sect k m F o : T_ (S k) (sect (S k) m F) o =
  (T_ k (sect k m F) (put k false o) + match m with O => RtoC 0 | S m' => T_ k (sect k m' F) (put k true o) end)%C.
Proof.
  cbn [total]. apply (f_equal2 Cplus).
  - apply (total_ext CC). intros o' Ho'. unfold sect. cbn [particles]. rewrite (Ho' k (le_n k)), (put_same k). rewrite Nat.add_0_r. reflexivity.
  - destruct m as [|m].
    + transitivity (T_ k (fun _ => RtoC 0) (put k true o)); [|exact (total_zero CC k (put k true o))]. apply (total_ext CC). intros o' Ho'. unfold sect. cbn [particles]. rewrite (Ho' k (le_n k)), (put_same k). rewrite Nat.add_1_r. reflexivity.
    + apply (total_ext CC). intros o' Ho'. unfold sect. cbn [particles]. rewrite (Ho' k (le_n k)), (put_same k). rewrite Nat.add_1_r. reflexivity.
Qed.
Lemma sect_ext n m F G o : (forall o', (forall p, (n <= p)%nat -> o' p = o p) -> F o' = G o') -> T_ n (sect n m F) o = T_ n (sect n m G) o.
Proof. intros E. apply (total_ext CC). intros o' Ho'. unfold sect. rewrite (E o' Ho'). reflexivity. Qed.
Lemma sect_zero n m o : T_ n (sect n m (fun _ => RtoC 0)) o = RtoC 0.
Proof. transitivity (T_ n (fun _ => RtoC 0) o); [|exact (total_zero CC n o)]. apply (total_ext CC). intros o' _. unfold sect. destruct (_ =? _)%nat; reflexivity. Qed.
Lemma count_none n : forall m o, T_ n (sect n m (fun _ => RtoC 1)) o = RtoC (INR (choose n m)).
Proof.
  induction n as [|n IH]; intros m o.
  - destruct m; reflexivity.
  - rewrite total_sect, IH. destruct m as [|m]; [rewrite choose_0; cbn [choose]; apply Cplus_0_r|]. rewrite IH, <- RtoC_plus, <- plus_INR. f_equal. f_equal. cbn [choose]. lia.
Qed.
Local Notation oc := (occ CC).
Lemma occ_true (o : occupation) p : o p = true -> oc o p = RtoC 1.
Proof. intros E. unfold occ. rewrite E. reflexivity. Qed.
Lemma occ_false (o : occupation) p : o p = false -> oc o p = RtoC 0.
Proof. intros E. unfold occ. rewrite E. reflexivity. Qed.
Lemma count_one n : forall m P o, (P < n)%nat -> T_ n (sect n m (fun o => oc o P)) o = RtoC (INR (with_one n m)).
Proof.
  induction n as [|n IH]; intros m P o HP; [lia|]. rewrite total_sect. destruct (Nat.eq_dec P n) as [->|N].
  - rewrite (sect_ext n m _ (fun _ => RtoC 0)) by (intros o' Ho'; apply occ_false; rewrite (Ho' n (le_n n)); apply put_same). rewrite sect_zero.
    destruct m as [|m]; [cbn [with_one INR]; apply Cplus_0_r|]. rewrite (sect_ext n m _ (fun _ => RtoC 1)) by (intros o' Ho'; apply occ_true; rewrite (Ho' n (le_n n)); apply put_same).
    rewrite count_none. cbn [with_one]. apply Cplus_0_l.
  - rewrite IH by lia. destruct n as [|n]; [lia|]. destruct m as [|m]; [cbn [with_one INR]; apply Cplus_0_r|]. rewrite IH by lia. rewrite <- RtoC_plus, <- plus_INR. f_equal. f_equal.
    unfold with_one. destruct m as [|m]; [rewrite !choose_0; lia | cbn [choose]; lia].
Qed.
Lemma count_two n : forall m P Q o, (P < Q)%nat -> (Q < n)%nat -> T_ n (sect n m (fun o => (oc o P * oc o Q)%C)) o = RtoC (INR (with_two n m)).
Proof.
  induction n as [|n IH]; intros m P Q o HP HQ; [lia|]. rewrite total_sect. destruct (Nat.eq_dec Q n) as [->|N].
  - rewrite (sect_ext n m _ (fun _ => RtoC 0)) by (intros o' Ho'; rewrite (occ_false o' n) by (rewrite (Ho' n (le_n n)); apply put_same); apply Cmult_0_r). rewrite sect_zero.
    destruct m as [|m]; [cbn [with_two INR]; apply Cplus_0_r|]. rewrite (sect_ext n m _ (fun o => oc o P)) by (intros o' Ho'; rewrite (occ_true o' n) by (rewrite (Ho' n (le_n n)); apply put_same); apply Cmult_1_r).
    rewrite count_one by exact HP. cbn [with_two]. apply Cplus_0_l.
  - rewrite IH by lia. destruct n as [|[|n]]; [lia|lia|]. destruct m as [|m]; [cbn [with_two INR]; apply Cplus_0_r|]. rewrite IH by lia. rewrite <- RtoC_plus, <- plus_INR. f_equal. f_equal.
    unfold with_two, with_one. destruct m as [|[|m]]; [reflexivity | rewrite !choose_0; lia | cbn [choose]; lia].
Qed.

(** ** The sum of the energies is the sum over the determinants *)
Lemma sect_sum n m d (F : nat -> occupation -> C) o : T_ n (sect n m (fun o => S_ d (fun p => F p o))) o = S_ d (fun p => T_ n (sect n m (F p)) o).
Proof.
  transitivity (T_ n (fun o => S_ d (fun p => sect n m (F p) o)) o); [|exact (total_sum CC n d (fun p => sect n m (F p)) o)].
  apply (total_ext CC). intros o' _. unfold sect. destruct (_ =? _)%nat; [reflexivity|]. symmetry. apply csum_zero. reflexivity.
Qed.
Lemma sect_scal n m (c : C) F o : T_ n (sect n m (fun o => (c * F o)%C)) o = (c * T_ n (sect n m F) o)%C.
Proof.
  transitivity (T_ n (fun o => (c * sect n m F o)%C) o); [|exact (total_scal CC n c (sect n m F) o)].
  apply (total_ext CC). intros o' _. unfold sect. destruct (_ =? _)%nat; [reflexivity|]. symmetry. apply Cmult_0_r.
Qed.
Lemma sect_add n m F G o : T_ n (sect n m (fun o => (F o + G o)%C)) o = (T_ n (sect n m F) o + T_ n (sect n m G) o)%C.
Proof.
  transitivity (T_ n (fun o => (sect n m F o + sect n m G o)%C) o); [|exact (total_add CC n (sect n m F) (sect n m G) o)].
  apply (total_ext CC). intros o' _. unfold sect. destruct (_ =? _)%nat; [reflexivity|]. symmetry. apply Cplus_0_r.
Qed.
Section Trace.
  Variables (n m d : nat) (X : state -> state) (E : nat -> R) (Psi : nat -> state).
  Hypothesis XS : symmetric_operator n X.
  Hypothesis XP : forall f, particle_state n m f -> particle_state n m (X f).
  Hypothesis H : spectrum n X m d E Psi.
  Lemma det_energy o : among n o -> particles n o = m -> X (determinant (K := CC) n o) o = S_ d (fun p => (RtoC (E p) * (Cconj (Psi p o) * Psi p o))%C).
  Proof.
    intros Ao Po. assert (D : particle_state n m (determinant (K := CC) n o)) by (rewrite <- Po; exact (det_particles CC n o)).
    rewrite <- (inner_det CC n o (X (determinant (K := CC) n o)) Ao (proj1 (XP _ D))). rewrite (expand_energy n m d X E Psi XS H _ D), <- csum_rsum. apply csum_ext. intros p Hp.
    rewrite RtoC_mult. f_equal. rewrite <- conj_square. rewrite <- (inner_conj CC n (determinant (K := CC) n o) (Psi p)).
    rewrite (inner_det CC n o (Psi p) Ao (psi_proper n m d X E Psi H p Hp)). cbn [sconj CC]. rewrite Cmult_comm. f_equal. apply injective_projections; cbn; ring.
  Qed.
  Lemma trace_sum : RtoC (rsum d E) = T_ n (sect n m (fun o => X (determinant (K := CC) n o) o)) (fun _ => false).
  Proof.
    transitivity (T_ n (sect n m (fun o => S_ d (fun p => (RtoC (E p) * (Cconj (Psi p o) * Psi p o))%C))) (fun _ => false)).
    - rewrite sect_sum, <- csum_rsum. apply csum_ext. intros p Hp. rewrite sect_scal.
      replace (T_ n _ _) with (inner n (Psi p) (Psi p)).
      + rewrite (sp_orthonormal _ _ _ _ _ _ H p p Hp Hp). unfold kronecker. rewrite Nat.eqb_refl. symmetry. apply Cmult_1_r.
      + unfold inner. apply (total_ext CC). intros o Ho. unfold sect. destruct (Nat.eqb_spec (particles n o) m) as [Q|Q]; [reflexivity|].
        destruct (sp_state _ _ _ _ _ _ H p Hp) as [[_ Z] _]. rewrite (Z o Ho Q). apply Cmult_0_r.
    - apply (total_ext CC). intros o Ho. unfold sect. destruct (Nat.eqb_spec (particles n o) m) as [Q|Q]; [|reflexivity]. symmetry. apply det_energy; [exact Ho | exact Q].
  Qed.
End Trace.
Lemma hamiltonian_trace n x h u m o : T_ n (sect n m (fun o => hamiltonian (K := CC) n x h u (determinant (K := CC) n o) o)) o =
  (RtoC (INR (with_one n m)) * S_ n (fun p => h p p) + RtoC (INR (with_two n m)) * (x * S_ n (fun p => S_ n (fun q => (u p q p q - u p q q p)%C))))%C.
Proof.
  rewrite (sect_ext n m _ (fun o => (S_ n (fun p => (h p p * oc o p)%C) + x * S_ n (fun p => S_ n (fun q => ((u p q p q - u p q q p) * (oc o p * oc o q))%C)))%C)).
  2:{ intros o' _. pose proof (expect_ham CC n x h u o') as Q. unfold expect in Q. rewrite Q. apply (f_equal2 Cplus); [apply csum_ext; intros; apply Cmult_comm|]. apply (f_equal (Cmult x)).
      apply csum_ext. intros p _. apply csum_ext. intros q _. apply Cmult_comm. }
  rewrite sect_add, sect_scal, sect_sum, sect_sum. apply (f_equal2 Cplus).
  - rewrite csum_scal. apply csum_ext. intros p Hp. rewrite sect_scal, count_one by exact Hp. apply Cmult_comm.
  - rewrite (Cmult_comm (RtoC _)), <- Cmult_assoc. apply (f_equal (Cmult x)). rewrite Cmult_comm, csum_scal. apply csum_ext. intros p Hp. rewrite sect_sum, csum_scal. apply csum_ext. intros q Hq. rewrite sect_scal.
    destruct (Nat.lt_trichotomy p q) as [L|[->|L]].
    + rewrite count_two by assumption. apply Cmult_comm.
    + replace (u q q q q - u q q q q)%C with (RtoC 0) by ring. rewrite Cmult_0_l. symmetry. apply Cmult_0_r.
    + rewrite (sect_ext n m _ (fun o => (oc o q * oc o p)%C)) by (intros; apply Cmult_comm). rewrite count_two by assumption. apply Cmult_comm.
Qed.
Lemma double_one l (h : nat -> nat -> C) : S_ (2 * l) (fun P => dbl1 (K := CC) h P P) = (RtoC 2 * S_ l (fun p => h p p))%C.
Proof.
  rewrite (sumn_double CC), csum_scal. apply csum_ext. intros p _. unfold dbl1, same_parity. rewrite !Bool.eqb_reflx.
  replace (2 * p / 2)%nat with p by (symmetry; rewrite Nat.mul_comm; apply Nat.div_mul; lia).
  replace ((2 * p + 1) / 2)%nat with p by (apply (Nat.div_unique _ 2 p 1); lia). apply injective_projections; cbn; ring.
Qed.
Lemma double_two l (u : nat -> nat -> nat -> nat -> C) : (RtoC (1 / 2) * S_ (2 * l) (fun P => S_ (2 * l) (fun Q => (dbl2 (K := CC) u P Q P Q - dbl2 (K := CC) u P Q Q P)%C)))%C =
  S_ l (fun p => S_ l (fun q => (RtoC 2 * u p q p q - u p q q p)%C)).
Proof.
  rewrite (sumn_double CC), csum_scal. apply csum_ext. intros p _. rewrite !(sumn_double CC).
  etransitivity; [apply (f_equal (Cmult _)); symmetry; exact (csum_add l _ _)|]. rewrite csum_scal. apply csum_ext. intros q _.
  unfold dbl2, same_parity. rewrite !even_2k, !even_2k1, !div_2k, !div_2k1. cbn [Bool.eqb andb]. apply injective_projections; cbn; field.
Qed.
Lemma energies_total k l h u m d E Psi : hermitian (K := CC) l h -> hermitian2 (K := CC) l u -> (k = General -> antisym_ket (K := CC) l u) ->
  spectrum (spin_orbitals k l) (many_body k l h u) m d E Psi -> RtoC (rsum d E) = energy_sum k l m h u.
Proof.
  intros Hh Hu Ha Sp.
  assert (XP : forall f, particle_state (spin_orbitals k l) m f -> particle_state (spin_orbitals k l) m (many_body k l h u f)) by (intros f Hf; destruct k; apply hamiltonian_particles, Hf).
  rewrite (trace_sum _ m d _ E Psi (many_body_symmetric k l h u Hh Hu) XP Sp). destruct k; unfold energy_sum, many_body, spin_orbitals; cbn [trace_one trace_two].
  - rewrite hamiltonian_trace. apply (f_equal2 Cplus); [reflexivity|]. apply (f_equal (Cmult _)).
    rewrite (csum_ext l _ (fun p => (RtoC 2 * S_ l (fun q => u p q p q))%C)).
    2:{ intros p Hp. rewrite csum_scal. apply csum_ext. intros q Hq. rewrite (Ha eq_refl p q q p) by assumption. apply injective_projections; cbn; ring. }
    rewrite <- csum_scal. generalize (S_ l (fun p => S_ l (fun q => u p q p q))). intros z. apply injective_projections; cbn; field.
  - rewrite hamiltonian_trace. apply (f_equal2 Cplus); [apply (f_equal (Cmult _)); apply double_one|]. apply (f_equal (Cmult _)). rewrite <- double_two. apply (f_equal2 Cmult); [|reflexivity]. apply injective_projections; cbn; field.
Qed.
Lemma rsum_const d c : rsum d (fun _ => c) = INR d * c.
Proof. induction d as [|d IH]; [cbn; ring|]. cbn [rsum]. rewrite IH, S_INR. ring. Qed.
Lemma mean_between k l h u m d E Psi : hermitian (K := CC) l h -> hermitian2 (K := CC) l u -> (k = General -> antisym_ket (K := CC) l u) ->
  spectrum (spin_orbitals k l) (many_body k l h u) m d E Psi -> INR d * E O <= Re (energy_sum k l m h u) <= INR d * E (d - 1)%nat.
Proof.
  intros Hh Hu Ha Sp. rewrite <- (energies_total k l h u m d E Psi Hh Hu Ha Sp). cbn [Re RtoC fst]. rewrite <- !rsum_const. split; apply rsum_le; intros p Hp; apply (sp_ascending _ _ _ _ _ _ Sp); lia.
Qed.
Lemma full_choose n : choose n n = 1%nat.
Proof.
  assert (Z : forall a b, (a < b)%nat -> choose a b = 0%nat).
  { induction a as [|a IH]; intros [|b] L; try lia; [reflexivity|]. cbn [choose]. rewrite !IH by lia. reflexivity. }
  induction n as [|n IH]; [reflexivity|]. cbn [choose]. rewrite IH, (Z n (S n)) by lia. reflexivity.
Qed.
Lemma system_total (w : world CC) s k N l x (b : basis CC) (h u : arr CC) : sys_at w s k N l x b -> b_arr b F_h = Some h -> b_arr b F_u = Some u ->
  hermitian l (mat h) -> hermitian2 l (ten u) -> (k = General -> antisym_ket l (ten u)) ->
  let n := spin_orbitals k l in let m := electrons k N in let d := choose n m in
  exists E Psi, spectrum n (many_body k l (mat h) (ten u)) m d E Psi /\ RtoC (rsum d E) = energy_sum k l m (mat h) (ten u) /\
    INR d * E O <= Re (energy_sum k l m (mat h) (ten u)) /\
    (N = l -> d = 1%nat /\ reference_energy s w = (Ok (RtoC (E O)), w)).
Proof.
  intros A Eh Eu Hh Hu Ha n m d. destruct (ground_system w s k N l x b h u A Eh Eu Hh Hu Ha) as (E & Psi & Sp & _ & Ex & _). fold n m in Sp, Ex. fold d in Sp, Ex. exists E, Psi.
  split; [exact Sp|]. split; [exact (energies_total k l _ _ m d E Psi Hh Hu Ha Sp)|]. split; [exact (proj1 (mean_between k l _ _ m d E Psi Hh Hu Ha Sp))|].
  intros ->. assert (D : d = 1%nat) by (unfold d, n, m; destruct k; cbn [spin_orbitals electrons]; apply full_choose). split; [exact D|].
  destruct (reference_trial w s k l l x b h u A Eh Eu Ha) as (P1 & P2 & P3). fold n m in P1, P2, P3. rewrite P3. destruct (Ex _ P1) as [Q1 Q2]. rewrite Q2. rewrite P2 in Q1. rewrite D in Q1 |- *. cbn [rsum] in *. apply RtoC_inj in Q1.
  repeat f_equal. rewrite Rplus_0_l in *. rewrite <- Q1. ring.
Qed.
