(** Reversing the magnetic field. *)
From Coq Require Import List Arith ZArith Znumtheory Reals Lra Lia Bool.
From Coquelicot Require Import Coquelicot.
From Verif Require Import Scalar ScalarC Py Numpy BasisSet Spec BasisSpec OneDimSpec DotProofs Systems SpectralProofs.
From Verif Require Import TwoDim TwoDimProofs FieldProofs TwoDimExamples Orbitals Coulomb CoulombProofs Cache CacheProofs MatrixProofs TwoDimBasis PlaneProofs DipoleTheorems SymmetryProofs.
From Verif Require Import FockSpec InnerSpec RaiseSpec FockSpectrumSpec VariationalSpec VariationalTheorems SharpSpec SharpProofs SharpTheorems SharpSystems StaticProofs ReversalSpec ReversalProofs ReversalTheorems ReversalSystems.
Import ListNotations.
Open Scope R_scope.
Local Notation S_ := (sumn (K := CC)).
Local Notation tr1 := (T1 (K := CC)).
Local Notation tr2 := (T2 (K := CC)).
Local Notation dag := (adj (K := CC)).

(** Orbitals in another order *)
Section Order.
  Variables (l : nat) (sigma : nat -> nat).
  Hypothesis (In_range : forall p, (p < l)%nat -> (sigma p < l)%nat) (Inj : forall p q, (p < l)%nat -> (q < l)%nat -> sigma p = sigma q -> p = q).
  Definition place_at (p q : nat) : C := if (p =? sigma q)%nat then RtoC 1 else RtoC 0.
  Lemma place_on p : place_at (sigma p) p = RtoC 1.
  Proof. unfold place_at. rewrite Nat.eqb_refl. reflexivity. Qed.
  Lemma place_off k p : k <> sigma p -> place_at k p = RtoC 0.
  Proof. intros N. unfold place_at. destruct (Nat.eqb_spec k (sigma p)); [contradiction | reflexivity]. Qed.
  Lemma dag_on p : dag place_at p (sigma p) = RtoC 1.
  Proof. unfold adj. rewrite place_on. apply injective_projections; cbn; ring. Qed.
  Lemma dag_out p k : k <> sigma p -> dag place_at p k = RtoC 0.
  Proof. intros N. unfold adj. rewrite place_off by exact N. apply injective_projections; cbn; ring. Qed.
  Lemma place_columns : orthonormal_columns l l place_at.
  Proof.
    intros p q Hp Hq. unfold mmul. rewrite (csum_pick l (sigma p)); [|apply In_range, Hp|].
    - rewrite dag_on. unfold delta. destruct (Nat.eqb_spec p q) as [<-|N].
      + rewrite place_on. apply injective_projections; cbn; ring.
      + rewrite place_off; [apply Cmult_0_r|]. intros E. apply N, Inj; assumption.
    - intros k Hk N. rewrite dag_out by exact N. apply Cmult_0_l.
  Qed.
  Lemma tr1_place h p q : (p < l)%nat -> (q < l)%nat -> tr1 l h place_at (dag place_at) p q = h (sigma p) (sigma q).
  Proof.
    intros Hp Hq. unfold T1. rewrite (csum_pick l (sigma p)); [|apply In_range, Hp|].
    - rewrite (csum_pick l (sigma q)); [|apply In_range, Hq|].
      + rewrite dag_on, place_on. apply injective_projections; cbn; ring.
      + intros k Hk N. rewrite (place_off k q N). apply Cmult_0_r.
    - intros k Hk N. apply csum_zero. intros k' _. rewrite (dag_out p k N). apply injective_projections; cbn; ring.
  Qed.
  Lemma tr2_place u p q r s : (p < l)%nat -> (q < l)%nat -> (r < l)%nat -> (s < l)%nat -> tr2 l u place_at (dag place_at) p q r s = u (sigma p) (sigma q) (sigma r) (sigma s).
  Proof.
    intros Hp Hq Hr Hs. unfold T2. rewrite (csum_pick l (sigma p)); [|apply In_range, Hp|].
    - rewrite (csum_pick l (sigma q)); [|apply In_range, Hq|].
      + rewrite (csum_pick l (sigma r)); [|apply In_range, Hr|].
        * rewrite (csum_pick l (sigma s)); [|apply In_range, Hs|].
          -- rewrite !dag_on, !place_on. apply injective_projections; cbn; ring.
          -- intros k Hk N. rewrite (place_off k s N). apply Cmult_0_r.
        * intros k Hk N. apply csum_zero. intros k' _. rewrite (place_off k r N). apply injective_projections; cbn; ring.
      + intros k Hk N. apply csum_zero. intros k1 _. apply csum_zero. intros k2 _. rewrite (dag_out q k N). apply injective_projections; cbn; ring.
    - intros k Hk N. apply csum_zero. intros k0 _. apply csum_zero. intros k1 _. apply csum_zero. intros k2 _. rewrite (dag_out p k N). apply injective_projections; cbn; ring.
  Qed.
End Order.

Definition mirror (s : Z * Z) : Z * Z := (fst s, - snd s)%Z.
Lemma mirror_twice s : mirror (mirror s) = s.
Proof. unfold mirror. cbn. rewrite Z.opp_involutive. symmetry. apply surjective_pairing. Qed.
Lemma mirror_energy omega_0 omega_c s : field_energy omega_0 (- omega_c) (mirror s) = field_energy omega_0 omega_c s.
Proof. unfold field_energy, mirror. cbn [fst snd]. rewrite Z.abs_opp, opp_IZR. replace ((- omega_c) ^ 2) with (omega_c ^ 2) by ring. field. Qed.
Definition lower_than (omega_0 omega_c : R) (t s : Z * Z) : Prop :=
  field_energy omega_0 omega_c t < field_energy omega_0 omega_c s \/ (field_energy omega_0 omega_c t = field_energy omega_0 omega_c s /\ (snd t < snd s)%Z).
Lemma rows_lowest l omega_0 omega_c rows : omega_0 <> 0 -> field_states l omega_0 omega_c = Ok rows -> length rows = l /\
  forall p s, nth_error rows p = Some s -> (0 <= fst s)%Z /\ forall t, (0 <= fst t)%Z -> (lower_than omega_0 omega_c t s <-> exists q, (q < p)%nat /\ nth_error rows q = Some t).
Proof. intros H F. exact (field_lowest' l omega_0 omega_c rows H F). Qed.
Lemma rows_down l omega_0 omega_c rows s t : omega_0 <> 0 -> field_states l omega_0 omega_c = Ok rows -> In s rows -> (0 <= fst t)%Z -> lower_than omega_0 omega_c t s -> In t rows.
Proof.
  intros H F Hs Ht Lt. destruct (rows_lowest l omega_0 omega_c rows H F) as [_ R]. apply In_nth_error in Hs. destruct Hs as [p Hp]. destruct (proj1 (proj2 (R p s Hp) t Ht) Lt) as (q & _ & Q). exact (nth_error_In _ _ Q).
Qed.
Lemma rows_nonneg l omega_0 omega_c rows s : omega_0 <> 0 -> field_states l omega_0 omega_c = Ok rows -> In s rows -> (0 <= fst s)%Z.
Proof. intros H F Hs. destruct (rows_lowest l omega_0 omega_c rows H F) as [_ R]. apply In_nth_error in Hs. destruct Hs as [p Hp]. exact (proj1 (R p s Hp)). Qed.
Lemma rows_nodup l omega_0 omega_c rows : omega_0 <> 0 -> field_states l omega_0 omega_c = Ok rows -> NoDup rows.
Proof.
  intros H F. destruct (rows_lowest l omega_0 omega_c rows H F) as [_ R].
  assert (K : forall i j s, (i < j)%nat -> nth_error rows i = Some s -> nth_error rows j = Some s -> False).
  { intros i j s Hij Hi Hj. destruct (R j s Hj) as [Ns Q]. destruct (proj2 (Q s Ns) (ex_intro _ i (conj Hij Hi))) as [L|[_ L]]; [lra | lia]. }
  apply NoDup_nth_error. intros i j Hi E. apply nth_error_Some in Hi. destruct (nth_error rows i) as [s|] eqn:Ei; [|contradiction]. destruct (Nat.lt_trichotomy i j) as [L|[L|L]]; [|exact L|]; exfalso; [apply (K i j s) | apply (K j i s)]; auto.
Qed.
Lemma field_trichotomy omega_0 omega_c s t : omega_0 <> 0 -> (0 <= fst s)%Z -> (0 <= fst t)%Z -> s = t \/ lower_than omega_0 omega_c s t \/ lower_than omega_0 omega_c t s.
Proof.
  intros H Hs Ht. unfold lower_than. destruct (Rtotal_order (field_energy omega_0 omega_c s) (field_energy omega_0 omega_c t)) as [L|[E|L]]; [tauto | | unfold Rgt in L; tauto].
  destruct (Z.lt_trichotomy (snd s) (snd t)) as [L|[Em|L]]; [tauto | | right; right; right; split; [symmetry; exact E | exact L]].
  left. unfold field_energy in E. rewrite Em in E. set (w := sqrt (omega_0 ^ 2 + omega_c ^ 2 / 4)) in *. assert (W : 0 < w). { apply sqrt_lt_R0. pose proof (pow2_ge_0 omega_c). assert (0 < omega_0 ^ 2) by (rewrite <- Rsqr_pow2; apply Rsqr_pos_lt, H). lra. }
  assert (Q : w * (IZR (fst s) - IZR (fst t)) = 0) by lra. apply Rmult_integral in Q. destruct Q as [Q|Q]; [lra|]. assert (fst s = fst t) by (apply eq_IZR; lra). destruct s, t. cbn in *. congruence.
Qed.
Lemma reversed_rows l omega_0 omega_c rows rows' : omega_0 <> 0 -> field_states l omega_0 omega_c = Ok rows -> whole_levels omega_0 omega_c rows -> field_states l omega_0 (- omega_c) = Ok rows' ->
  forall t, In t rows' -> In (mirror t) rows.
Proof.
  intros H F Wh F' t Ht. set (B := map mirror rows). assert (NB : NoDup B). { apply FinFun.Injective_map_NoDup; [|exact (rows_nodup _ _ _ _ H F)]. intros a b E. apply (f_equal mirror) in E. rewrite !mirror_twice in E. exact E. }
  assert (MB : forall s, In s B -> In (mirror s) rows) by (intros s Hs; apply in_map_iff in Hs; destruct Hs as (r & <- & Hr); rewrite mirror_twice; exact Hr).
  assert (nt : (0 <= fst t)%Z) by exact (rows_nonneg _ _ _ _ _ H F' Ht).
  apply Classical_Prop.NNPP. intros No. assert (Nt : ~ In t B) by (intros C; apply No, MB, C).
  assert (Low : forall s, In s B -> lower_than omega_0 (- omega_c) s t).
  { intros s Hs. pose proof (MB s Hs) as Ms. pose proof (rows_nonneg _ _ _ _ _ H F Ms) as ns. cbn in ns. destruct (field_trichotomy omega_0 (- omega_c) s t H ns nt) as [->|[L|L]]; [contradiction | exact L|]. exfalso. apply No.
    assert (Et : field_energy omega_0 (- omega_c) t = field_energy omega_0 omega_c (mirror t)) by (rewrite <- (mirror_twice t) at 1; apply mirror_energy).
    assert (Es : field_energy omega_0 (- omega_c) s = field_energy omega_0 omega_c (mirror s)) by (rewrite <- (mirror_twice s) at 1; apply mirror_energy).
    destruct L as [L|[L _]]; rewrite Et, Es in L; [apply (rows_down l omega_0 omega_c rows (mirror s) (mirror t) H F Ms); [exact nt | left; exact L] | exact (Wh (mirror s) (mirror t) Ms nt L)]. }
  pose (dec := fun a b : Z * Z => ltac:(decide equality; apply Z.eq_dec) : {a = b} + {a <> b}).
  assert (Sub : incl B (remove dec t rows')). { intros s Hs. apply in_in_remove; [intros ->; contradiction|]. apply (rows_down l omega_0 (- omega_c) rows' t s H F' Ht); [|exact (Low s Hs)]. pose proof (rows_nonneg _ _ _ _ _ H F (MB s Hs)) as Q. exact Q. }
  pose proof (NoDup_incl_length NB Sub) as Le. pose proof (remove_length_lt dec rows' t Ht) as Lt. unfold B in Le. rewrite map_length in Le. pose proof (proj1 (rows_lowest _ _ _ _ H F)) as L1. pose proof (proj1 (rows_lowest _ _ _ _ H F')) as L2. unfold TwoDim.state in *. lia.
Qed.
Lemma field_element_energy nm omega_0 omega_c p q : field_element nm omega_0 omega_c p q = if (p =? q)%nat then field_energy omega_0 omega_c (nm p) else 0.
Proof. unfold field_element, shell_energy_B, field_energy. destruct (p =? q)%nat; [|reflexivity]. rewrite !plus_IZR, mult_IZR. reflexivity. Qed.
Lemma field_reversed npm spin anti l L N omega_0 mass omega_c rows b b' : omega_0 <> 0 -> field_states l omega_0 omega_c = Ok rows -> whole_levels omega_0 omega_c rows ->
  field_oscillator npm spin anti l L N omega_0 mass omega_c = (Ok tt, b) -> field_oscillator npm spin anti l L N omega_0 mass (- omega_c) = (Ok tt, b') -> same_energies l b b'.
Proof.
  intros H F Wh E E'. destruct (field_states l omega_0 (- omega_c)) as [rows'|y] eqn:F'; [|apply (field_raises npm spin anti l L N omega_0 mass (- omega_c) y) in F'; rewrite E' in F'; discriminate F'].
  pose proof (rows_lowest _ _ _ _ H F) as [Ln _]. pose proof (rows_lowest _ _ _ _ H F') as [Ln' _]. unfold TwoDim.state in Ln, Ln'. set (nm := fun p => nth p rows (0, 0)%Z). set (nm' := fun p => nth p rows' (0, 0)%Z).
  assert (Sg : exists sigma : nat -> nat, forall p, (p < l)%nat -> (sigma p < l)%nat /\ nm (sigma p) = mirror (nm' p)).
  { apply (choose_each l (fun p s => (s < l)%nat /\ nm s = mirror (nm' p)) 0%nat). intros p Hp. assert (I : In (nm' p) rows') by (apply nth_In; unfold TwoDim.state in *; lia). apply (reversed_rows _ _ _ _ _ H F Wh F') in I. destruct (In_nth _ _ (0, 0)%Z I) as (s & Hs & Q). exists s. split; [unfold TwoDim.state in *; lia | exact Q]. }
  destruct Sg as (sigma & Sg). assert (Rg : forall p, (p < l)%nat -> (sigma p < l)%nat) by (intros p Hp; apply Sg, Hp).
  assert (Inj : forall p q, (p < l)%nat -> (q < l)%nat -> sigma p = sigma q -> p = q).
  { intros p q Hp Hq Q. assert (Q' : mirror (nm' p) = mirror (nm' q)) by (rewrite <- (proj2 (Sg p Hp)), <- (proj2 (Sg q Hq)), Q; reflexivity). apply (f_equal mirror) in Q'. rewrite !mirror_twice in Q'. apply (proj1 (NoDup_nth rows' (0, 0)%Z) (rows_nodup _ _ _ _ H F')); unfold TwoDim.state in *; try lia. exact Q'. }
  destruct (field_conserved _ _ _ _ _ _ _ _ _ _ _ F E) as (h & u & Eh & Eu & Hh & Hu & _). destruct (field_conserved _ _ _ _ _ _ _ _ _ _ _ F' E') as (h' & u' & Eh' & Eu' & Hh' & Hu' & _).
  pose proof (field_holds _ _ _ _ _ _ _ _ _ _ _ F E) as HF. pose proof (field_holds _ _ _ _ _ _ _ _ _ _ _ F' E') as HF'. exists h, u, h', u'. split; [exact Eh|]. split; [exact Eu|]. split; [exact Eh'|]. split; [exact Eu'|]. intros k m n.
  destruct (spectrum_many k l (mat h) (ten u) m Hh Hu) as (En & Psi & Sp). destruct (spectrum_many k l (mat h') (ten u') m Hh' Hu') as (En' & Psi' & Sp').
  exists En, Psi, Psi'. split; [exact Sp|]. apply (spectrum_same _ _ _ _ En' En Psi' Sp'). intros p Hp. symmetry.
  refine (proj2 (levels_rotated k l (place_at sigma) (mat h) (ten u) (mat h') (ten u') (place_columns l sigma Rg Inj) Hh Hu Hh' Hu' _ _ m _ _ En En' Psi Psi' Sp Sp') p Hp).
  - intros a c Ha Hc. rewrite (tr1_place l sigma Rg) by assumption. destruct (ho_h _ _ _ _ _ _ _ _ _ _ _ HF) as (h0 & Eh0 & _ & Gh). rewrite Eh in Eh0. injection Eh0 as <-. destruct (ho_h _ _ _ _ _ _ _ _ _ _ _ HF') as (h0 & Eh0 & _ & Gh'). rewrite Eh' in Eh0. injection Eh0 as <-.
    unfold mat. rewrite Gh, Gh', !field_element_energy. f_equal. destruct (Nat.eqb_spec a c) as [->|Ne].
    + rewrite Nat.eqb_refl. fold (nm (sigma c)) (nm' c). rewrite (proj2 (Sg c Hc)). rewrite <- (mirror_energy omega_0 omega_c (mirror (nm' c))), mirror_twice. reflexivity.
    + rewrite (proj2 (Nat.eqb_neq (sigma a) (sigma c))); [reflexivity|]. intros Q. apply Ne, Inj; assumption.
  - intros a c r s Ha Hc Hr Hs. rewrite (tr2_place l sigma Rg) by assumption. destruct (ho_u _ _ _ _ _ _ _ _ _ _ _ HF) as (u0 & Eu0 & _ & Gu). rewrite Eu in Eu0. injection Eu0 as <-. destruct (ho_u _ _ _ _ _ _ _ _ _ _ _ HF') as (u0 & Eu0 & _ & Gu'). rewrite Eu' in Eu0. injection Eu0 as <-.
    unfold ten. rewrite Gu, Gu' by (assumption || apply Rg; assumption). f_equal. replace ((- omega_c) ^ 2) with (omega_c ^ 2) by ring. f_equal. fold nm nm'. unfold coulomb_of. rewrite !(fun p Hp => proj2 (Sg p Hp)) by assumption. cbn [mirror fst snd]. symmetry. apply coulomb_mirror.
Qed.
(** No two states have the same energy when omega_0 = 1 and omega_c = 2. *)
Lemma no_root n : forall a b, (Z.abs_nat a < n)%nat -> (2 * (a * a) = b * b)%Z -> a = 0%Z.
Proof.
  induction n as [|n IH]; intros a b Hn E; [lia|]. destruct (Z.eq_dec a 0) as [->|Na]; [reflexivity|]. exfalso.
  assert (Eb : Z.even b = true). { assert (Z.even (b * b) = true) as Q by (rewrite <- E, Z.even_mul; reflexivity). rewrite Z.even_mul in Q. destruct (Z.even b); [reflexivity | discriminate Q]. }
  apply Z.even_spec in Eb. destruct Eb as [c ->]. assert (E2 : (a * a = 2 * (c * c))%Z) by lia.
  assert (Ea : Z.even a = true). { assert (Z.even (a * a) = true) as Q by (rewrite E2, Z.even_mul; reflexivity). rewrite Z.even_mul in Q. destruct (Z.even a); [reflexivity | discriminate Q]. }
  apply Z.even_spec in Ea. destruct Ea as [d ->]. assert (d = 0)%Z by (apply (IH d c); lia). lia.
Qed.
Lemma simple_levels rows : whole_levels 1 2 rows.
Proof.
  intros s t Hs _ E. assert (Q : t = s); [|rewrite Q; exact Hs]. unfold field_energy in E. replace (1 ^ 2 + 2 ^ 2 / 4) with 2 in E by field.
  set (A := ((2 * fst t + Z.abs (snd t)) - (2 * fst s + Z.abs (snd s)))%Z). set (B := (snd t - snd s)%Z).
  assert (R : sqrt 2 * IZR A = IZR B). { unfold A, B. rewrite !minus_IZR, !plus_IZR, !mult_IZR. lra. }
  assert (A0 : A = 0%Z). { apply (no_root (S (Z.abs_nat A)) A B); [lia|]. apply eq_IZR. rewrite !mult_IZR, <- R. replace (sqrt 2 * IZR A * (sqrt 2 * IZR A)) with (sqrt 2 * sqrt 2 * (IZR A * IZR A)) by ring. rewrite sqrt_sqrt by lra. reflexivity. }
  rewrite A0, Rmult_0_r in R. assert (B0 : B = 0%Z) by (apply eq_IZR; lra). destruct s as [n m], t as [n' m']. unfold A, B in A0, B0. cbn [fst snd] in A0, B0. assert (m' = m) by lia. subst m'. f_equal. lia.
Qed.
Lemma reversal_instance : exists rows b b', field_states 6 1 2 = Ok rows /\ whole_levels 1 2 rows /\ field_oscillator 0 false false 6 8 201 1 1 2 = (Ok tt, b) /\ field_oscillator 0 false false 6 8 201 1 1 (- (2)) = (Ok tt, b').
Proof.
  assert (G : forall c, exists rows b, field_states 6 1 c = Ok rows /\ field_oscillator 0 false false 6 8 201 1 1 c = (Ok tt, b)).
  { intros c. destruct (field_succeeds 6 1 c ltac:(lia) ltac:(lra)) as (rows & F).
    - assert (1 <= sqrt (1 ^ 2 + c ^ 2 / 4)). { rewrite <- sqrt_1 at 1. apply sqrt_le_1_alt. pose proof (pow2_ge_0 c). lra. } cbn [INR]. lra.
    - destruct (field_setup_ok 0 false false 6 8 201 1 1 c rows F) as (b & E & _). exists rows, b. split; assumption. }
  destruct (G 2) as (rows & b & F & E). destruct (G (- (2))) as (rows' & b' & F' & E'). exists rows, b, b'. split; [exact F|]. split; [apply simple_levels|]. split; assumption.
Qed.
