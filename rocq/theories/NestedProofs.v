(** The constructors called with more orbitals keep the ones they had. *)
From Coq Require Import List Arith ZArith Reals Lra Lia Bool.
From Coquelicot Require Import Coquelicot.
From Verif Require Import Scalar ScalarC Py Numpy BasisSet Spec BasisSpec OneDim OneDimSpec OneDimProofs LineProofs DotProofs GridSpec GridProofs Systems.
From Verif Require Import TwoDim TwoDimProofs FieldProofs Orbitals Coulomb CoulombProofs Cache CacheProofs MatrixProofs TwoDimBasis PlaneProofs DipoleTheorems.
From Verif Require Import SincDvr SincProofs FockSpec RaiseSpec FockSpectrumSpec VariationalSpec VariationalTheorems VariationalSystems NestedSpec.
Import ListNotations.
Open Scope R_scope.

Lemma same_matrix l (a a' : arr CC) : (forall p q, (p < l)%nat -> (q < l)%nat -> get a [p; q] = get a' [p; q]) -> same_elements l (Some a) (Some a') (fun ps _ => ps) 2 0.
Proof.
  intros H. exists a, a'. split; [reflexivity|]. split; [reflexivity|]. intros ps is E _ F. destruct ps as [|p [|q [|]]]; try discriminate E.
  inversion F as [|? ? Hp F']. inversion F' as [|? ? Hq _]. apply H; assumption.
Qed.
Lemma same_tensor l (a a' : arr CC) : (forall p q r s, (p < l)%nat -> (q < l)%nat -> (r < l)%nat -> (s < l)%nat -> get a [p; q; r; s] = get a' [p; q; r; s]) -> same_elements l (Some a) (Some a') (fun ps _ => ps) 4 0.
Proof.
  intros H. exists a, a'. split; [reflexivity|]. split; [reflexivity|]. intros ps is E _ F. destruct ps as [|p [|q [|r [|s [|]]]]]; try discriminate E.
  inversion F as [|? ? Hp F1]. inversion F1 as [|? ? Hq F2]. inversion F2 as [|? ? Hr F3]. inversion F3 as [|? ? Hs _]. apply H; assumption.
Qed.
Lemma same_dipole l (a a' : arr CC) : (forall i p q, (p < l)%nat -> (q < l)%nat -> get a [i; p; q] = get a' [i; p; q]) -> same_elements l (Some a) (Some a') (fun ps is => is ++ ps) 2 1.
Proof.
  intros H. exists a, a'. split; [reflexivity|]. split; [reflexivity|]. intros ps is E I F. destruct ps as [|p [|q [|]]]; try discriminate E. destruct is as [|i [|]]; try discriminate I.
  inversion F as [|? ? Hp F']. inversion F' as [|? ? Hq _]. apply H; assumption.
Qed.
Lemma same_orbitals l n (a a' : arr CC) : (forall p is, length is = n -> (p < l)%nat -> get a (p :: is) = get a' (p :: is)) -> same_elements l (Some a) (Some a') (fun ps is => ps ++ is) 1 n.
Proof.
  intros H. exists a, a'. split; [reflexivity|]. split; [reflexivity|]. intros ps is E I F. destruct ps as [|p [|]]; try discriminate E.
  inversion F as [|? ? Hp _]. apply H; assumption.
Qed.

Lemma line_continues npm spin anti l l' L N omega a alpha beta b b' : (l <= l')%nat ->
  odho npm spin anti l L N omega a alpha beta = (Ok tt, b) -> odho npm spin anti l' L N omega a alpha beta = (Ok tt, b') -> continues l b b'.
Proof.
  intros Hl E E'. destruct (odho_result _ _ _ _ _ _ _ _ _ _ _ E) as (-> & _). destruct (odho_result _ _ _ _ _ _ _ _ _ _ _ E') as (-> & _).
  split; [reflexivity | apply same_matrix; reflexivity | apply same_matrix; reflexivity | apply same_tensor; reflexivity | apply same_dipole; reflexivity | apply same_orbitals; reflexivity].
Qed.
Lemma dot_continues npm spin anti l l' L N a alpha beta V eigh b b' : (l <= l')%nat ->
  odqd npm spin anti l L N a alpha beta V eigh = (Ok tt, b) -> odqd npm spin anti l' L N a alpha beta V eigh = (Ok tt, b') -> continues l b b'.
Proof.
  intros Hl E E'. destruct (dot_result _ _ _ _ _ _ _ _ _ _ _ _ E) as (-> & _). destruct (dot_result _ _ _ _ _ _ _ _ _ _ _ _ E') as (-> & _).
  split; [reflexivity | apply same_matrix; reflexivity | apply same_matrix; reflexivity | apply same_tensor; reflexivity | apply same_dipole; reflexivity |].
  apply same_orbitals. intros p is I Hp. destruct is as [|i [|]]; try discriminate I. cbn.
  destruct (Nat.eqb_spec l 1) as [->|N1]; destruct (Nat.eqb_spec l' 1) as [E1|N2]; [reflexivity | replace p with 0%nat by lia; reflexivity | exfalso; lia | reflexivity].
Qed.
Lemma plane_continues npm spin anti npm' spin' anti' l l' N L mass w nm nm' he he' b b' : (l <= l')%nat ->
  (forall p, (p < l)%nat -> nm p = nm' p) -> (forall p q, (p < l)%nat -> (q < l)%nat -> he p q = he' p q) ->
  holds npm spin anti l N L mass w nm he b -> holds npm' spin' anti' l' N L mass w nm' he' b' -> continues l b b'.
Proof.
  intros Hl En Eh H H'. split.
  - rewrite (ho_dim _ _ _ _ _ _ _ _ _ _ _ H), (ho_dim _ _ _ _ _ _ _ _ _ _ _ H'). reflexivity.
  - destruct (ho_h _ _ _ _ _ _ _ _ _ _ _ H) as (h & -> & _ & G). destruct (ho_h _ _ _ _ _ _ _ _ _ _ _ H') as (h' & -> & _ & G').
    apply same_matrix. intros p q Hp Hq. rewrite G, G', Eh by assumption. reflexivity.
  - destruct (ho_s _ _ _ _ _ _ _ _ _ _ _ H) as (h & -> & _ & G). destruct (ho_s _ _ _ _ _ _ _ _ _ _ _ H') as (h' & -> & _ & G').
    apply same_matrix. intros p q Hp Hq. rewrite G, G'. reflexivity.
  - destruct (ho_u _ _ _ _ _ _ _ _ _ _ _ H) as (u & -> & _ & G). destruct (ho_u _ _ _ _ _ _ _ _ _ _ _ H') as (u' & -> & _ & G').
    apply same_tensor. intros p q r s Hp Hq Hr Hs. rewrite G, G' by lia. unfold coulomb_of. rewrite !En by assumption. reflexivity.
  - destruct (ho_d _ _ _ _ _ _ _ _ _ _ _ H) as (d & -> & _ & G). destruct (ho_d _ _ _ _ _ _ _ _ _ _ _ H') as (d' & -> & _ & G').
    apply same_dipole. intros i p q Hp Hq. rewrite G, G'. unfold dipole_element. rewrite !En by assumption. reflexivity.
  - destruct (ho_spf _ _ _ _ _ _ _ _ _ _ _ H) as (a & -> & _ & G & _). destruct (ho_spf _ _ _ _ _ _ _ _ _ _ _ H') as (a' & -> & _ & G' & _).
    rewrite (ho_dim _ _ _ _ _ _ _ _ _ _ _ H). apply same_orbitals. intros p is I Hp. destruct is as [|i [|j [|]]]; try discriminate I. rewrite G, G', En by assumption. reflexivity.
Qed.
Lemma oscillator_continues npm spin anti l l' L N omega mass e e' (files files' : fs) b b' t t' : (l <= l')%nat -> sound files -> sound files' ->
  oscillator npm spin anti l L N omega mass e files = (Ok b, t) -> oscillator npm spin anti l' L N omega mass e' files' = (Ok b', t') -> continues l b b'.
Proof. intros Hl F F' E E'. eapply plane_continues; [exact Hl | | | exact (oscillator_holds _ _ _ _ _ _ _ _ _ _ _ _ F E) | exact (oscillator_holds _ _ _ _ _ _ _ _ _ _ _ _ F' E')]; reflexivity. Qed.
Lemma double_well_continues npm spin anti l l' L N omega mass e e' barrier axis (files files' : fs) b b' t t' : (l <= l')%nat -> sound files -> sound files' ->
  double_well npm spin anti l L N omega mass e barrier axis files = (Ok b, t) -> double_well npm spin anti l' L N omega mass e' barrier axis files' = (Ok b', t') -> continues l b b'.
Proof. intros Hl F F' E E'. eapply plane_continues; [exact Hl | | | exact (double_well_holds _ _ _ _ _ _ _ _ _ _ _ _ _ _ F E) | exact (double_well_holds _ _ _ _ _ _ _ _ _ _ _ _ _ _ F' E')]; reflexivity. Qed.

(** ** The table of states in a magnetic field *)
Lemma slt_total w omega_c s t : w <> 0 -> s = t \/ slt (shell_energy_B w omega_c) s t \/ slt (shell_energy_B w omega_c) t s.
Proof.
  intros Hw. set (e := shell_energy_B w omega_c). unfold slt. destruct (Rtotal_order (e s) (e t)) as [H|[H|H]]; [auto| |auto].
  destruct (Z.lt_trichotomy (snd s) (snd t)) as [G|[G|G]]; [auto 6| |auto 6]. left. destruct s as [n m], t as [n' m']. cbn [snd] in G. subst m'. f_equal.
  unfold e, shell_energy_B in H. cbn [fst snd] in H. assert (E : w * IZR (2 * n + Z.abs m + 1) = w * IZR (2 * n' + Z.abs m + 1)) by lra.
  apply Rmult_eq_reg_l in E; [|exact Hw]. apply eq_IZR in E. lia.
Qed.
Lemma field_prefix l l' omega_0 omega_c rows rows' p : omega_0 <> 0 -> field_states l omega_0 omega_c = Ok rows -> field_states l' omega_0 omega_c = Ok rows' ->
  (p < l)%nat -> (p < l')%nat -> nth_error rows p = nth_error rows' p.
Proof.
  intros H0 F F'. destruct (field_lowest l omega_0 omega_c rows H0 F) as [Hlen B]. destruct (field_lowest l' omega_0 omega_c rows' H0 F') as [Hlen' B'].
  destruct (frequency omega_0 omega_c H0) as (W & _). set (w := sqrt _) in *. induction p as [p IH] using (well_founded_induction lt_wf). intros Hp Hp'.
  destruct (nth_error rows p) as [s|] eqn:Es; [|apply nth_error_None in Es; lia]. destruct (nth_error rows' p) as [s'|] eqn:Es'; [|apply nth_error_None in Es'; lia].
  destruct (B p s Es) as [N0 R0]. destruct (B' p s' Es') as [N1 R1]. f_equal. destruct (slt_total w omega_c s s' ltac:(lra)) as [H|[H|H]]; [exact H| |]; exfalso.
  - apply R1 in H as (q & Hq & G); [|exact N0]. rewrite <- IH in G by lia. apply (slt_irrefl (shell_energy_B w omega_c) s). apply R0; [exact N0|]. exists q. auto.
  - apply R0 in H as (q & Hq & G); [|exact N1]. rewrite IH in G by lia. apply (slt_irrefl (shell_energy_B w omega_c) s'). apply R1; [exact N1|]. exists q. auto.
Qed.
Lemma field_continues npm spin anti l l' L N omega_0 mass omega_c b b' : omega_0 <> 0 -> (l <= l')%nat ->
  field_oscillator npm spin anti l L N omega_0 mass omega_c = (Ok tt, b) -> field_oscillator npm spin anti l' L N omega_0 mass omega_c = (Ok tt, b') -> continues l b b'.
Proof.
  intros H0 Hl E E'.
  destruct (field_states l omega_0 omega_c) as [rows|y] eqn:F; [|apply (field_raises npm spin anti l L N omega_0 mass omega_c y) in F; rewrite E in F; discriminate F].
  destruct (field_states l' omega_0 omega_c) as [rows'|y] eqn:F'; [|apply (field_raises npm spin anti l' L N omega_0 mass omega_c y) in F'; rewrite E' in F'; discriminate F'].
  assert (Q : forall p, (p < l)%nat -> nth p rows (0, 0)%Z = nth p rows' (0, 0)%Z).
  { intros p Hp. pose proof (field_prefix l l' omega_0 omega_c rows rows' p H0 F F' Hp ltac:(lia)) as G. destruct (field_lowest l omega_0 omega_c rows H0 F) as [Hlen _].
    destruct (nth_error rows p) as [s|] eqn:Es; [|apply nth_error_None in Es; lia]. rewrite (nth_error_nth _ _ _ Es), (nth_error_nth _ _ _ (eq_sym G)). reflexivity. }
  eapply plane_continues; [exact Hl | exact Q | | exact (field_holds _ _ _ _ _ _ _ _ _ _ _ F E) | exact (field_holds _ _ _ _ _ _ _ _ _ _ _ F' E')].
  intros p q Hp Hq. unfold field_element. rewrite Q by exact Hp. reflexivity.
Qed.
Lemma field_more npm spin anti l l' L N omega_0 mass omega_c b b' : omega_0 <> 0 -> (l <= l')%nat ->
  field_oscillator npm spin anti l L N omega_0 mass omega_c = (Ok tt, b) -> field_oscillator npm spin anti l' L N omega_0 mass omega_c = (Ok tt, b') -> never_raised l l' b b'.
Proof.
  intros H0 Hl E E'. destruct (field_continues _ _ _ _ _ _ _ _ _ _ _ _ H0 Hl E E') as [_ (h & h' & Eh & Eh' & Gh) _ (u & u' & Eu & Eu' & Gu) _ _].
  destruct (field_states l' omega_0 omega_c) as [rows'|y] eqn:F'; [|apply (field_raises npm spin anti l' L N omega_0 mass omega_c y) in F'; rewrite E' in F'; discriminate F'].
  pose proof (field_holds _ _ _ _ _ _ _ _ _ _ _ F' E') as H'.
  destruct (ho_h _ _ _ _ _ _ _ _ _ _ _ H') as (h2 & Eh2 & _ & Gh2). rewrite Eh' in Eh2. injection Eh2 as <-.
  destruct (ho_u _ _ _ _ _ _ _ _ _ _ _ H') as (u2 & Eu2 & _ & Gu2). rewrite Eu' in Eu2. injection Eu2 as <-.
  eapply never_raised_of; [exact Hl | exact Eh | exact Eu | exact Eh' | exact Eu' | | | |].
  - intros p q _ _. unfold mat. rewrite !Gh2. unfold field_element. rewrite (Nat.eqb_sym q p). destruct (Nat.eqb_spec p q) as [->|_]; cbn; unfold Cconj, RtoC; cbn; f_equal; ring.
  - intros p q r s Hp Hq Hr Hs'. unfold ten. rewrite !Gu2 by assumption. set (nm := fun p => nth p rows' (0, 0)%Z). assert (Ct : coulomb_of nm r s p q = coulomb_of nm p q r s) by exact (coulomb_transpose _ _ _ _ _ _ _ _). rewrite Ct. cbn. unfold Cconj, RtoC. cbn. f_equal. ring.
  - intros p q Hp Hq. apply (Gh [p; q] []); auto.
  - intros p q r s Hp Hq Hr Hs. apply (Gu [p; q; r; s] []); auto 6.
Qed.

(** ** The grid of the sinc-DVR basis set *)
Lemma dvr_differs npm spin anti l l' L a alpha beta V repr b b' : (l < l')%nat -> 0 < L ->
  odsincdvr npm spin anti l L a alpha beta V repr = (Ok tt, b) -> odsincdvr npm spin anti l' L a alpha beta V repr = (Ok tt, b') -> ~ continues l b b'.
Proof.
  intros Hl HL E E' [_ _ _ _ _ (f & f' & Ef & Ef' & G)].
  destruct (dvr_result _ _ _ _ _ _ _ _ _ _ _ E) as (O & _ & H2). destruct (dvr_result _ _ _ _ _ _ _ _ _ _ _ E') as (O' & _).
  destruct (dvr_one_body _ _ _ _ _ _ _ _ _ _ _ E HL) as (_ & _ & _ & f1 & _ & _ & _ & Ef1 & _ & _ & _ & _ & _ & _ & _ & Gf).
  destruct (dvr_one_body _ _ _ _ _ _ _ _ _ _ _ E' HL) as (_ & _ & _ & f2 & _ & _ & _ & Ef2 & _ & _ & _ & _ & _ & _ & _ & Gf').
  rewrite Ef in Ef1. injection Ef1 as <-. rewrite Ef' in Ef2. injection Ef2 as <-.
  pose proof (G [0%nat] [0%nat] eq_refl) as G0. cbn [app length] in G0. rewrite (do_dim _ _ _ _ _ _ _ _ _ _ _ O) in G0. specialize (G0 eq_refl). rewrite Gf, Gf' in G0 by lia.
  assert (P : forall n, (2 <= n)%nat -> 0 < INR (n - 1)) by (intros n Hn; apply lt_0_INR; lia).
  assert (Q : forall n, (2 <= n)%nat -> 0 < spacing L n). { intros n Hn. unfold spacing. apply Rdiv_lt_0_compat; [lra | apply P, Hn]. }
  assert (D : spacing L l' < spacing L l).
  { unfold spacing. apply Rmult_lt_compat_l; [lra|]. apply Rinv_lt_contravar; [apply Rmult_lt_0_compat; apply P; lia | apply lt_INR; lia]. }
  assert (I : / sqrt (spacing L l) = / sqrt (spacing L l')).
  { specialize (G0 ltac:(repeat constructor; lia)). unfold kronecker in G0. cbn [Nat.eqb] in G0. unfold Cmult, RtoC in G0. cbn in G0. injection G0 as G0. lra. }
  apply (f_equal Rinv) in I. rewrite !Rinv_inv in I. apply sqrt_inj in I; [lra | |]; left; apply Q; lia.
Qed.
