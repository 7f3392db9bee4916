(** Reversing a static field. *)
From Coq Require Import List Arith ZArith Znumtheory Reals Lra Lia Bool.
From Coquelicot Require Import Coquelicot.
From Verif Require Import Scalar ScalarC Py Numpy BasisSet Spec OneDimSpec DotProofs SpectralProofs Systems SystemFacts SystemProofs Worlds OperatorSpec OperatorProofs.
From Verif Require Import FockSpec FockProofs InnerSpec InnerProofs RaiseSpec RaiseProofs RaiseFock RaiseTheorems FockSpectrumSpec FockSpectrum VariationalSpec VariationalTheorems VariationalSystems StrengthProofs SharpSpec SharpProofs SharpTheorems EvolutionSpec EvolutionTheorems GroundTheorems StaticSpec.
Import ListNotations.
Open Scope R_scope.
Local Notation S_ := (sumn (K := CC)).
Local Notation state := (FockSpec.state CC).
Local Notation inner := (InnerSpec.inner (K := CC)).
Local Notation tr1 := (T1 (K := CC)).
Local Notation tr2 := (T2 (K := CC)).
Local Notation dag := (adj (K := CC)).

(** Orbitals exchanged in pairs or multiplied by a sign *)
Section Turn.
  Variables (l : nat) (pi : nat -> nat) (sg : nat -> R).
  Hypothesis (Hpi : forall p, (p < l)%nat -> (pi p < l)%nat /\ pi (pi p) = p) (Hsg : forall p, sg p * sg p = 1).
  Definition turn (p q : nat) : C := if (p =? pi q)%nat then RtoC (sg q) else RtoC 0.
  Lemma turn_at p : turn (pi p) p = RtoC (sg p).
  Proof. unfold turn. rewrite Nat.eqb_refl. reflexivity. Qed.
  Lemma turn_off k p : k <> pi p -> turn k p = RtoC 0.
  Proof. intros N. unfold turn. destruct (Nat.eqb_spec k (pi p)); [contradiction | reflexivity]. Qed.
  Lemma dag_at p : dag turn p (pi p) = RtoC (sg p).
  Proof. unfold adj. rewrite turn_at. apply injective_projections; cbn; ring. Qed.
  Lemma dag_off p k : k <> pi p -> dag turn p k = RtoC 0.
  Proof. intros N. unfold adj. rewrite turn_off by exact N. apply injective_projections; cbn; ring. Qed.
  Lemma turn_columns : orthonormal_columns l l turn.
  Proof.
    intros p q Hp Hq. unfold mmul. rewrite (csum_pick l (pi p)); [|apply Hpi, Hp|].
    - rewrite dag_at. unfold delta. destruct (Nat.eqb_spec p q) as [<-|N].
      + rewrite turn_at. pose proof (Hsg p). apply injective_projections; cbn; nra.
      + rewrite turn_off; [apply Cmult_0_r|]. intros E. apply N. rewrite <- (proj2 (Hpi p Hp)), E. apply (Hpi q Hq).
    - intros k Hk N. rewrite dag_off by exact N. apply Cmult_0_l.
  Qed.
  Lemma tr1_turn h p q : (p < l)%nat -> (q < l)%nat -> tr1 l h turn (dag turn) p q = (RtoC (sg p * sg q) * h (pi p) (pi q))%C.
  Proof.
    intros Hp Hq. unfold T1. rewrite (csum_pick l (pi p)); [|apply Hpi, Hp|].
    - rewrite (csum_pick l (pi q)); [|apply Hpi, Hq|].
      + rewrite dag_at, turn_at. apply injective_projections; cbn; ring.
      + intros k Hk N. rewrite (turn_off k q N). apply Cmult_0_r.
    - intros k Hk N. apply csum_zero. intros k' _. rewrite (dag_off p k N). apply injective_projections; cbn; ring.
  Qed.
  Lemma tr2_turn u p q r s : (p < l)%nat -> (q < l)%nat -> (r < l)%nat -> (s < l)%nat -> tr2 l u turn (dag turn) p q r s = (RtoC (sg p * sg q * (sg r * sg s)) * u (pi p) (pi q) (pi r) (pi s))%C.
  Proof.
    intros Hp Hq Hr Hs. unfold T2. rewrite (csum_pick l (pi p)); [|apply Hpi, Hp|].
    - rewrite (csum_pick l (pi q)); [|apply Hpi, Hq|].
      + rewrite (csum_pick l (pi r)); [|apply Hpi, Hr|].
        * rewrite (csum_pick l (pi s)); [|apply Hpi, Hs|].
          -- rewrite !dag_at, !turn_at. apply injective_projections; cbn; ring.
          -- intros k Hk N. rewrite (turn_off k s N). apply Cmult_0_r.
        * intros k Hk N. apply csum_zero. intros k' _. rewrite (turn_off k r N). apply injective_projections; cbn; ring.
      + intros k Hk N. apply csum_zero. intros k1 _. apply csum_zero. intros k2 _. rewrite (dag_off q k N). apply injective_projections; cbn; ring.
    - intros k Hk N. apply csum_zero. intros k0 _. apply csum_zero. intros k1 _. apply csum_zero. intros k2 _. rewrite (dag_off p k N). apply injective_projections; cbn; ring.
  Qed.
End Turn.
Section Sign.
  Variables (l : nat) (t : label).
  Hypothesis H2 : modulus t = 2%Z.
  Definition sg (p : nat) : R := if Z.even (charge t p) then 1 else -1.
  Lemma sg_sq p : sg p * sg p = 1.
  Proof. unfold sg. destruct (Z.even _); ring. Qed.
  Lemma alike_even a b : alike t a b <-> Z.even a = Z.even b.
  Proof.
    unfold alike. rewrite H2. split.
    - intros [c E]. replace a with (b + 2 * c)%Z by lia. rewrite Z.even_add, Z.even_mul. cbn. destruct (Z.even b); reflexivity.
    - intros E. assert (Z.even (a - b) = true) as V by (rewrite Z.even_sub, E; apply eqb_reflx). apply Z.even_spec in V. destruct V as [c V]. exists c. lia.
  Qed.
  Lemma sg_alike p q : alike t (charge t p) (charge t q) -> sg p * sg q = 1.
  Proof. intros A. apply alike_even in A. unfold sg. destruct (Z.even (charge t p)), (Z.even (charge t q)); try discriminate A; lra. Qed.
  Lemma sg_unlike p q : ~ alike t (charge t p) (charge t q) -> sg p * sg q = -1.
  Proof. intros A. rewrite alike_even in A. unfold sg. destruct (Z.even (charge t p)), (Z.even (charge t q)); try lra; exfalso; apply A; reflexivity. Qed.
  Lemma sg_pairs p q r s : alike t (charge t p + charge t q)%Z (charge t r + charge t s)%Z -> sg p * sg q * (sg r * sg s) = 1.
  Proof.
    intros A. apply alike_even in A. rewrite !Z.even_add in A. unfold sg.
    destruct (Z.even (charge t p)), (Z.even (charge t q)), (Z.even (charge t r)), (Z.even (charge t s)); cbn in A; try discriminate A; lra.
  Qed.
End Sign.

Lemma field_hermitian l h d F : hermitian (K := CC) l h -> hermitian (K := CC) l d -> hermitian (K := CC) l (in_field h d F).
Proof. intros Hh Hd p q Hp Hq. unfold in_field. rewrite (Hh p q Hp Hq), (Hd p q Hp Hq). apply injective_projections; cbn; ring. Qed.
Lemma spectrum_same n X m d E E' Psi : spectrum n X m d E Psi -> (forall p, (p < d)%nat -> E p = E' p) -> spectrum n X m d E' Psi.
Proof.
  intros [P1 P2 P3 P4] Eq. split; try assumption.
  - intros p Hp. rewrite <- (Eq p Hp). apply P1, Hp.
  - intros p q Hpq Hq. rewrite <- (Eq p) by lia. rewrite <- (Eq q) by lia. apply P3; assumption.
Qed.
Section Field.
  Variables (k : kind) (l : nat) (h d : nat -> nat -> C) (u : nat -> nat -> nat -> nat -> C) (pi : nat -> nat) (sg : nat -> R).
  Hypothesis (Hpi : forall p, (p < l)%nat -> (pi p < l)%nat /\ pi (pi p) = p) (Hsg : forall p, sg p * sg p = 1).
  Hypothesis (Hh : hermitian (K := CC) l h) (Hu : hermitian2 (K := CC) l u) (Hd : hermitian (K := CC) l d).
  Hypothesis (Th : forall p q, (p < l)%nat -> (q < l)%nat -> (RtoC (sg p * sg q) * h (pi p) (pi q))%C = h p q).
  Hypothesis (Td : forall p q, (p < l)%nat -> (q < l)%nat -> (RtoC (sg p * sg q) * d (pi p) (pi q))%C = (- d p q)%C).
  Hypothesis (Tu : forall p q r s, (p < l)%nat -> (q < l)%nat -> (r < l)%nat -> (s < l)%nat -> (RtoC (sg p * sg q * (sg r * sg s)) * u (pi p) (pi q) (pi r) (pi s))%C = u p q r s).
  Local Notation n := (spin_orbitals k l).
  Local Notation X F := (many_body k l (in_field h d F) u).
  Lemma turned_levels F m d1 d2 E E' Psi Psi' : spectrum n (X F) m d1 E Psi -> spectrum n (X (- F)) m d2 E' Psi' -> d1 = d2 /\ forall p, (p < d1)%nat -> E p = E' p.
  Proof.
    apply (levels_rotated k l (turn pi sg) _ u _ u (turn_columns l pi sg Hpi Hsg) (field_hermitian l h d F Hh Hd) Hu (field_hermitian l h d (- F) Hh Hd) Hu).
    - intros p q Hp Hq. rewrite tr1_turn by assumption. unfold in_field. rewrite Cmult_plus_distr_l, (Th p q Hp Hq). f_equal.
      transitivity (RtoC F * (- d p q))%C; [apply injective_projections; cbn; ring|]. rewrite <- (Td p q Hp Hq). apply injective_projections; cbn; ring.
    - intros p q r s Hp Hq Hr Hs. rewrite tr2_turn by assumption. symmetry. apply Tu; assumption.
  Qed.
  Lemma turned_spectrum F m d1 E Psi : spectrum n (X F) m d1 E Psi -> exists Psi', spectrum n (X (- F)) m d1 E Psi'.
  Proof.
    intros Sp. destruct (spectrum_many k l _ u m (field_hermitian l h d (- F) Hh Hd) Hu) as (E' & Psi' & Sp'). destruct (turned_levels F m _ _ E E' Psi Psi' Sp Sp') as [Ed Ee]. subst d1.
    exists Psi'. apply (spectrum_same _ _ _ _ E'); [exact Sp'|]. intros p Hp. symmetry. apply Ee, Hp.
  Qed.
  Lemma turned_ground F F' m d1 d2 E E' Psi Psi' : (m <= n)%nat -> Rabs F <= Rabs F' -> spectrum n (X F) m d1 E Psi -> spectrum n (X F') m d2 E' Psi' -> E' O <= E O.
  Proof.
    intros Hm HF S1 S2. destruct (turned_spectrum F' m d2 E' Psi' S2) as (Psi2 & S3).
    destruct (Req_dec F' 0) as [Z|N].
    - assert (F = 0) by (subst F'; rewrite Rabs_R0 in HF; destruct (Req_dec F 0); [assumption | pose proof (Rabs_pos_lt F H); lra]). subst F F'.
      destruct (energies_unique k l _ u (field_hermitian l h d 0 Hh Hd) Hu m _ _ _ _ _ _ S1 S2) as [-> Ee]. rewrite Ee; [lra|].
      destruct (spectrum_many k l _ u m (field_hermitian l h d 0 Hh Hd) Hu) as (E3 & Psi3 & S4). destruct (energies_unique k l _ u (field_hermitian l h d 0 Hh Hd) Hu m _ _ _ _ _ _ S4 S2) as [<- _]. apply choose_pos, Hm.
    - set (c := (F / F' + 1) / 2).
      assert (Hr : -1 <= F / F' <= 1).
      { apply Rabs_le_between. unfold Rdiv. rewrite Rabs_mult, Rabs_inv. apply (Rmult_le_reg_r (Rabs F')); [apply Rabs_pos_lt, N|]. rewrite Rmult_assoc, Rinv_l by (apply Rabs_no_R0, N). lra. }
      assert (Hc : 0 <= c <= 1) by (unfold c; lra).
      pose proof (ground_average k l _ u _ u (in_field h d F) u c Hc (field_hermitian l h d (- F') Hh Hd) Hu (field_hermitian l h d F' Hh Hd) Hu) as G.
      assert (Q : (1 - c) * E' O + c * E' O <= E O); [|lra].
      refine (G _ _ m d2 d2 d1 E' E' E Psi2 Psi' Psi Hm S3 S2 S1).
      + intros p q _ _. assert (Ec : (1 - c) * - F' + c * F' = F) by (unfold c; field; exact N). unfold in_field. rewrite <- Ec. apply injective_projections; cbn; ring.
      + intros p q r s _ _ _ _. apply injective_projections; cbn; ring.
  Qed.
End Field.
Section Parity.
  Variables (k : kind) (l : nat) (h d : nat -> nat -> C) (u : nat -> nat -> nat -> nat -> C) (t : label).
  Hypothesis (H2 : modulus t = 2%Z) (Hh : hermitian (K := CC) l h) (Hu : hermitian2 (K := CC) l u) (Hd : hermitian (K := CC) l d) (Kh : keeps1 l t h) (Ku : keeps2 l t u) (Rd : reverses l t d).
  Local Notation n := (spin_orbitals k l).
  Local Notation X F := (many_body k l (in_field h d F) u).
  Lemma par_h p q : (p < l)%nat -> (q < l)%nat -> (RtoC (sg t p * sg t q) * h p q)%C = h p q.
  Proof.
    intros Hp Hq. destruct (Classical_Prop.classic (h p q = RtoC 0)) as [E0|N]; [rewrite E0; apply injective_projections; cbn; ring|].
    rewrite (sg_alike t H2 p q (Kh p q Hp Hq N)). apply injective_projections; cbn; ring.
  Qed.
  Lemma par_d p q : (p < l)%nat -> (q < l)%nat -> (RtoC (sg t p * sg t q) * d p q)%C = (- d p q)%C.
  Proof.
    intros Hp Hq. destruct (Classical_Prop.classic (d p q = RtoC 0)) as [E0|N]; [rewrite E0; apply injective_projections; cbn; ring|].
    rewrite (sg_unlike t H2 p q (Rd p q Hp Hq N)). apply injective_projections; cbn; ring.
  Qed.
  Lemma par_u p q r s : (p < l)%nat -> (q < l)%nat -> (r < l)%nat -> (s < l)%nat -> (RtoC (sg t p * sg t q * (sg t r * sg t s)) * u p q r s)%C = u p q r s.
  Proof.
    intros Hp Hq Hr Hs. destruct (Classical_Prop.classic (u p q r s = RtoC 0)) as [E0|N]; [rewrite E0; apply injective_projections; cbn; ring|].
    rewrite (sg_pairs t H2 p q r s (Ku p q r s Hp Hq Hr Hs N)). apply injective_projections; cbn; ring.
  Qed.
  Let same (p : nat) (H : (p < l)%nat) : (p < l)%nat /\ p = p := conj H eq_refl.
  Lemma spectrum_reversed F m d1 E Psi : spectrum n (X F) m d1 E Psi -> exists Psi', spectrum n (X (- F)) m d1 E Psi'.
  Proof. exact (turned_spectrum k l h d u (fun p => p) (sg t) same (sg_sq t) Hh Hu Hd par_h par_d par_u F m d1 E Psi). Qed.
  Lemma ground_lowered F F' m d1 d2 E E' Psi Psi' : (m <= n)%nat -> Rabs F <= Rabs F' -> spectrum n (X F) m d1 E Psi -> spectrum n (X F') m d2 E' Psi' -> E' O <= E O.
  Proof. exact (turned_ground k l h d u (fun p => p) (sg t) same (sg_sq t) Hh Hu Hd par_h par_d par_u F F' m d1 d2 E E' Psi Psi'). Qed.
End Parity.
(** ** No permanent dipole moment *)
Section Moment.
  Variables (l : nat) (t : label).
  Hypothesis H2 : modulus t = 2%Z.
  Lemma one_reversed D f : reverses l t D -> sharp l t f -> proper f -> inner l f (one_body (K := CC) l D f) = RtoC 0.
  Proof.
    intros Rd [M HM] Pf.
    assert (Hf : held l t (fun z => alike t z M) f).
    { intros o A N. apply Classical_Prop.NNPP. intros Nz. apply N, HM; assumption. }
    assert (Hg : forall o, among l o -> alike t (total_charge l (charge t) o) M -> one_body (K := CC) l D f o = RtoC 0).
    { intros o A Y. unfold one_body. apply csum_zero. intros p Hp. apply csum_zero. intros q Hq.
      destruct (Classical_Prop.classic (D p q = RtoC 0)) as [E|N]; [rewrite E; apply Cmult_0_l|].
      pose proof (held_create l t _ p _ Hp (held_annihilate l t _ q f Hq Hf) o A) as Hz. cbv beta in Hz. rewrite Hz; [apply Cmult_0_r|].
      intros Y2. apply (Rd p q Hp Hq N). apply (alike_even t H2). apply (alike_even t H2) in Y, Y2. rewrite <- Y in Y2. rewrite Z.even_add, Z.even_sub in Y2.
      destruct (Z.even (total_charge l (charge t) o)), (Z.even (charge t p)), (Z.even (charge t q)); cbn in Y2; congruence. }
    unfold InnerSpec.inner. etransitivity; [|exact (total_zero CC l (fun _ => false))]. apply (total_ext CC). intros o Ho.
    assert (A : among l o) by (intros p Hp; rewrite Ho by exact Hp; reflexivity).
    destruct (alike_dec t (total_charge l (charge t) o) M) as [Y|N]; [rewrite (Hg o A Y); apply Cmult_0_r|]. rewrite (Hf o A N). apply injective_projections; cbn; ring.
  Qed.
End Moment.
Lemma no_moment k l t D f : modulus t = 2%Z -> reverses l t D -> let n := spin_orbitals k l in let t' := match k with General => t | Spatial => of_orbital t end in
  proper f -> sharp n t' f -> inner n f (observable k l D f) = RtoC 0.
Proof.
  intros H2 Rd n t' Pf Sh. destruct k; cbn in *; [exact (one_reversed l t H2 D f Rd Sh Pf)|].
  apply (one_reversed (2 * l) (of_orbital t) H2); [|exact Sh | exact Pf]. intros P Q HP HQ N. unfold dbl1 in N. destruct (same_parity P Q); [|exfalso; apply N; reflexivity].
  apply (Rd (P / 2)%nat (Q / 2)%nat); [apply Nat.div_lt_upper_bound; lia | apply Nat.div_lt_upper_bound; lia | exact N].
Qed.
