(** Exact states and energies of dots with an exchange of orbitals. *)
From Coq Require Import List Arith ZArith Reals Lra Lia Bool.
From Coquelicot Require Import Coquelicot.
From Verif Require Import Scalar ScalarC Py Numpy BasisSet Spec OneDimSpec DotProofs SpectralSpec SpectralProofs Systems.
From Verif Require Import FockSpec FockProofs InnerSpec InnerProofs RaiseSpec RaiseProofs RaiseFock RaiseTheorems FockSpectrumSpec FockSpectrum GroundTheorems VariationalSpec VariationalTheorems SharpSpec SharpProofs SharpTheorems ReversalSpec ReversalProofs.
Import ListNotations.
Open Scope R_scope.
Local Notation S_ := (sumn (K := CC)).
Local Notation state := (FockSpec.state CC).
Local Notation inner := (InnerSpec.inner (K := CC)).

Definition pair_map (k : kind) (pi : nat -> nat) (P : nat) : nat := match k with General => pi P | Spatial => (2 * pi (P / 2) + P mod 2)%nat end.
Lemma half_of a P : ((2 * a + P mod 2) / 2 = a)%nat.
Proof. rewrite (Nat.mul_comm 2 a), Nat.div_add_l by lia. rewrite Nat.div_small; [lia|]. apply Nat.mod_upper_bound. lia. Qed.
Lemma even_of a P : Nat.even (2 * a + P mod 2) = Nat.even P.
Proof.
  rewrite Nat.even_add, Nat.even_mul. cbn [Nat.even]. cbn [orb]. rewrite (Nat.div_mod P 2) at 2 by lia. rewrite Nat.even_add, Nat.even_mul. cbn [Nat.even orb]. reflexivity.
Qed.
Lemma mod_of a P : ((2 * a + P mod 2) mod 2 = P mod 2)%nat.
Proof. rewrite Nat.add_comm, Nat.mul_comm, Nat.mod_add, Nat.mod_mod by lia. reflexivity. Qed.
Lemma pair_exchange k l pi : exchange l pi -> exchange (spin_orbitals k l) (pair_map k pi).
Proof.
  intros H P HP. destruct k; cbn [spin_orbitals pair_map] in *; [apply H, HP|]. assert (Q : (P / 2 < l)%nat) by (apply Nat.div_lt_upper_bound; lia). destruct (H _ Q) as [A B]. split.
  - pose proof (Nat.mod_upper_bound P 2 ltac:(lia)). lia.
  - rewrite half_of, mod_of, B. symmetry. apply Nat.div_mod. lia.
Qed.
Lemma pair_unchanged1 l pi h : unchanged1 l pi h -> unchanged1 (2 * l) (pair_map Spatial pi) (dbl1 (K := CC) h).
Proof.
  intros H P Q HP HQ. unfold dbl1, same_parity, pair_map. rewrite !half_of, !even_of. destruct (Bool.eqb _ _); [|reflexivity]. apply H; apply Nat.div_lt_upper_bound; lia.
Qed.
Lemma pair_unchanged2 l pi u : unchanged2 l pi u -> unchanged2 (2 * l) (pair_map Spatial pi) (dbl2 (K := CC) u).
Proof.
  intros H P Q R S HP HQ HR HS. unfold dbl2, same_parity, pair_map. rewrite !half_of, !even_of. destruct (Bool.eqb _ _ && Bool.eqb _ _); [|reflexivity]. apply H; apply Nat.div_lt_upper_bound; lia.
Qed.
(** The second list of exact states *)
Lemma many_pairs k l h u pi : exchange l pi -> unchanged1 l pi h -> unchanged2 l pi u -> forall m d E Psi, let n := spin_orbitals k l in
  spectrum n (many_body k l h u) m d E Psi -> exists Psi', spectrum n (many_body k l h u) m d E Psi' /\
    (forall g g' p M, (forall q, (q < l)%nat -> g' q = g (pi q)) -> (p < d)%nat -> amounts n (per_spin k g) M (Psi p) -> amounts n (per_spin k g') M (Psi' p)) /\
    (k = Spatial -> forall p M, (p < d)%nat -> amounts n spin_of M (Psi p) -> amounts n spin_of M (Psi' p)).
Proof.
  intros Hp H1 H2 m d E Psi n Sp. pose proof (pair_exchange k l pi Hp) as PE. exists (fun p => swapped n (pair_map k pi) (Psi p)). destruct k; cbn [spin_orbitals many_body] in *; subst n.
  - split; [apply swapped_spectrum; assumption|]. split; [|discriminate]. intros g g' p M Eg Hd A. apply (swapped_amounts l _ h u pi PE m d E Psi Sp g g' p M); assumption.
  - pose proof (pair_unchanged1 l pi h H1) as U1. pose proof (pair_unchanged2 l pi u H2) as U2. split; [apply swapped_spectrum; assumption|]. split.
    + intros g g' p M Eg Hd A. refine (swapped_amounts _ _ _ _ _ PE m d E Psi Sp _ _ p M _ Hd A). intros Q HQ. cbn [per_spin]. unfold pair_map. rewrite half_of. apply Eg, Nat.div_lt_upper_bound; lia.
    + intros _ p M Hd A. refine (swapped_amounts _ _ _ _ _ PE m d E Psi Sp _ _ p M _ Hd A). intros Q HQ. unfold spin_of, pair_map. rewrite even_of. reflexivity.
Qed.
Lemma total_opp n g g' o : (forall p, (p < n)%nat -> g' p = (- g p)%Z) -> total_charge n g' o = (- total_charge n g o)%Z.
Proof. induction n as [|n IH]; intros H; [reflexivity|]. cbn [total_charge]. rewrite IH by (intros; apply H; lia). rewrite (H n) by lia. destruct (o n); lia. Qed.
Definition reversed (l : nat) (pi : nat -> nat) (g : nat -> Z) : Prop := forall p, (p < l)%nat -> g (pi p) = (- g p)%Z.
Lemma many_reversed k l h u pi g : exchange l pi -> unchanged1 l pi h -> unchanged2 l pi u -> reversed l pi g -> forall m d E Psi, let n := spin_orbitals k l in
  spectrum n (many_body k l h u) m d E Psi -> exists Psi', spectrum n (many_body k l h u) m d E Psi' /\
    (forall p M, (p < d)%nat -> amounts n (per_spin k g) M (Psi p) -> amounts n (per_spin k g) (- M) (Psi' p)) /\
    (k = Spatial -> forall p M, (p < d)%nat -> amounts n spin_of M (Psi p) -> amounts n spin_of M (Psi' p)).
Proof.
  intros Hp H1 H2 Rv m d E Psi n Sp. destruct (many_pairs k l h u pi Hp H1 H2 m d E Psi Sp) as (Psi' & S' & A & B). exists Psi'. split; [exact S'|]. split; [|exact B].
  intros p M Hd Am o Ho Nz. pose proof (A g (fun q => - g q)%Z p M (fun q Hq => eq_sym (Rv q Hq)) Hd Am o Ho Nz) as Q. rewrite (total_opp n (per_spin k g)) in Q by (intros P _; destruct k; reflexivity). lia.
Qed.
Lemma amounts_orthogonal n g M M' (f f' : state) : amounts n g M f -> amounts n g M' f' -> M <> M' -> inner n f f' = RtoC 0.
Proof.
  intros A B Ne. unfold InnerSpec.inner. etransitivity; [apply (total_ext CC n _ (fun o => (RtoC 0 * RtoC 0)%C))|].
  - intros o Ho. assert (Ao : among n o) by (intros p Hp; apply (Ho p Hp)). destruct (Classical_Prop.classic (f o = RtoC 0)) as [->|N1]; [apply injective_projections; cbn; ring|]. destruct (Classical_Prop.classic (f' o = RtoC 0)) as [->|N2]; [apply injective_projections; cbn; ring|].
    exfalso. apply Ne. rewrite <- (A o Ao N1). apply (B o Ao N2).
  - etransitivity; [exact (total_scal CC n (RtoC 0) (fun _ => RtoC 0) _)|]. apply injective_projections; cbn; ring.
Qed.
(** A state with angular momentum shares its energy. *)
Lemma reversed_degenerate k l h u pi g : hermitian (K := CC) l h -> hermitian2 (K := CC) l u -> exchange l pi -> unchanged1 l pi h -> unchanged2 l pi u -> reversed l pi g ->
  forall m d E Psi p M, let n := spin_orbitals k l in spectrum n (many_body k l h u) m d E Psi -> (p < d)%nat -> amounts n (per_spin k g) M (Psi p) -> M <> 0%Z ->
  exists q, (q < d)%nat /\ q <> p /\ E q = E p.
Proof.
  intros Hh Hu Hp H1 H2 Rv m d E Psi p M n Sp Hd Am NM. apply Classical_Prop.NNPP. intros No.
  destruct (many_reversed k l h u pi g Hp H1 H2 Rv m d E Psi Sp) as (Psi' & S' & A & _). pose proof (A p M Hd Am) as Am'.
  destruct (sp_state _ _ _ _ _ _ S' p Hd) as [St [Pr [[o [Ho Nz]] Ev]]]. apply Nz. rewrite (sp_complete _ _ _ _ _ _ Sp (Psi' p) St o Ho). apply csum_zero. intros q Hq.
  assert (Z : inner n (Psi q) (Psi' p) = RtoC 0); [|fold n; rewrite Z; apply injective_projections; cbn; ring].
  destruct (Nat.eq_dec q p) as [->|Ne]; [apply (amounts_orthogonal n _ M (- M) _ _ Am Am'); lia|].
  pose proof (coefficient n m d (many_body k l h u) E Psi (many_body_symmetric k l h u Hh Hu) Sp (Psi' p) q Pr Hq) as Q.
  rewrite (inner_ext_among CC n (Psi q) _ (fun o => (RtoC (E p) * Psi' p o)%C) Ev) in Q. pose proof (inner_scal CC n (Psi q) (RtoC (E p)) (Psi' p)) as Q'. cbn [smul CC] in Q'. rewrite Q' in Q.
  assert (Nq : E q <> E p) by (intros C; apply No; exists q; repeat split; assumption).
  set (z := inner n (Psi q) (Psi' p)) in *. assert (Y : (RtoC (E p - E q) * z = RtoC 0)%C). { rewrite RtoC_minus. unfold Cminus. rewrite Cmult_plus_distr_r, Q. apply injective_projections; cbn; ring. }
  apply (f_equal (fun w => (RtoC (/ (E p - E q)) * w)%C)) in Y. rewrite Cmult_assoc, <- RtoC_mult, Rinv_l, Cmult_1_l in Y by lra. rewrite Y. apply Cmult_0_r.
Qed.
