(** Ladders of spin states. *)
From Coq Require Import List Arith ZArith Znumtheory Reals Lra Lia Bool.
From Coquelicot Require Import Coquelicot.
From Verif Require Import Scalar ScalarC Spec OneDimSpec OneDimProofs DotProofs GridSpec GridProofs PositiveForms SpectralSpec SpectralProofs SpinProofs.
From Verif Require Import FockSpec FockProofs FockSystem InnerSpec InnerProofs RaiseSpec RaiseProofs RaiseFock RaiseTheorems FockSpectrumSpec FockSpectrum GroundTheorems Systems SharpSpec SharpProofs SharpTheorems EvolutionProofs MultipletSpec MultipletProofs.
Import ListNotations.
Open Scope R_scope.
Local Notation S_ := (sumn (K := CC)).
Local Notation state := (FockSpec.state CC).
Local Notation inner := (InnerSpec.inner (K := CC)).

Section Ladder.
  Variable l : nat.
  Notation n := (2 * l)%nat.
  Notation so := (spin_op l).
  Notation up := MultipletProofs.up.
  Notation down := MultipletProofs.down.
  Notation zed := MultipletProofs.zed.
  Notation sc := (total_charge n (charge spin_label)).
  (** ** The projection counts spins. *)
  Lemma mod2_even_nat P : Nat.even P = (P mod 2 =? 0)%nat.
  Proof.
    pose proof (Nat.div_mod P 2 ltac:(lia)) as E. pose proof (Nat.mod_upper_bound P 2 ltac:(lia)) as B. rewrite E at 1. rewrite Nat.even_add, Nat.even_mul. cbn [Nat.even orb].
    destruct (P mod 2)%nat as [|[|k]]; [reflexivity | reflexivity | lia].
  Qed.
  Lemma zed_at f o : proper f -> so zed f o = (RtoC (IZR (sc o) / 2) * f o)%C.
  Proof.
    intros Pf. unfold spin_op, one_body.
    transitivity (S_ n (fun P => (RtoC (IZR (charge spin_label P) / 2) * (if o P then f o else RtoC 0))%C)).
    - apply csum_ext. intros P HP. rewrite (csum_pick n P); [|exact HP|].
      + rewrite Nat.eqb_refl. rewrite (number_at CC P f o Pf). cbn [smul CC s0]. f_equal. unfold zed. cbn [charge spin_label]. rewrite mod2_even_nat.
        pose proof (Nat.mod_upper_bound P 2 ltac:(lia)). destruct (P mod 2)%nat as [|[|k]]; [| |lia]; cbn; apply injective_projections; cbn; lra.
      + intros Q HQ Ne. destruct (Nat.eqb_spec (P / 2) (Q / 2)) as [E|_]; [|apply injective_projections; cbn; ring].
        assert (N : (P mod 2 <> Q mod 2)%nat) by (intros E'; apply Ne; symmetry; rewrite (Nat.div_mod P 2), (Nat.div_mod Q 2) by lia; congruence).
        pose proof (Nat.mod_upper_bound P 2 ltac:(lia)). pose proof (Nat.mod_upper_bound Q 2 ltac:(lia)).
        assert (Z : zed (P mod 2) (Q mod 2) = RtoC 0); [|rewrite Z; apply injective_projections; cbn; ring]. unfold zed. destruct (P mod 2)%nat as [|[|k]], (Q mod 2)%nat as [|[|k']]; try lia; cbn; apply injective_projections; cbn; ring.
    - generalize n as k. induction k as [|k IH]; cbn [sumn total_charge].
      + cbn. apply injective_projections; cbn; lra.
      + cbn [sadd CC]. rewrite IH, plus_IZR. destruct (o k); cbn; apply injective_projections; cbn; lra.
  Qed.
  Lemma projection_held M f : proper f -> projection l M f <-> held n spin_label (fun z => z = M) f.
  Proof.
    intros Pf. split; intros H o A.
    - intros Ne. specialize (H o A). change (S_z l f o) with (so zed f o) in H. rewrite zed_at in H by exact Pf.
      assert (Z : (RtoC (IZR (sc o) / 2 - IZR M / 2) * f o)%C = RtoC 0). { rewrite RtoC_minus. replace ((RtoC (IZR (sc o) / 2) - RtoC (IZR M / 2)) * f o)%C with (RtoC (IZR (sc o) / 2) * f o - RtoC (IZR M / 2) * f o)%C by cring. rewrite H. cring. }
      apply Classical_Prop.NNPP. intros C. refine (Cmult_neq_0 _ _ _ C Z). intros C'. apply RtoC_inj in C'. apply Ne. apply eq_IZR. lra.
    - change (S_z l f o) with (so zed f o). rewrite zed_at by exact Pf. destruct (Z.eq_dec (sc o) M) as [->|Ne]; [reflexivity|]. rewrite (H o A Ne). cring.
  Qed.
  (** ** Norms *)
  Lemma norm_real f : inner n f f = RtoC (Re (inner n f f)).
  Proof. apply nonneg_re, inner_nonneg. Qed.
  Lemma lower_adjoint f g : proper f -> proper g -> inner n f (so up g) = inner n (so down f) g.
  Proof.
    intros Pf Pg. rewrite so_adjoint by assumption. apply inner_ext_l. intros o _. apply so_ext. intros i j Hi Hj. destruct i as [|[|i]]; [| |lia]; (destruct j as [|[|j]]; [| |lia]); cbn; apply injective_projections; cbn; ring.
  Qed.
  Lemma raise_adjoint f g : proper f -> proper g -> inner n f (so down g) = inner n (so up f) g.
  Proof.
    intros Pf Pg. rewrite so_adjoint by assumption. apply inner_ext_l. intros o _. apply so_ext. intros i j Hi Hj. destruct i as [|[|i]]; [| |lia]; (destruct j as [|[|j]]; [| |lia]); cbn; apply injective_projections; cbn; ring.
  Qed.
  Lemma norm_scaled f g (a : R) : (forall o, among n o -> g o = (RtoC a * f o)%C) -> Re (inner n f g) = a * Re (inner n f f).
  Proof.
    intros E. rewrite (inner_ext_among CC n f g (fun o => (RtoC a * f o)%C) E). pose proof (inner_scal CC n f (RtoC a) f) as Q. cbn [smul CC] in Q. rewrite Q. destruct (inner n f f) as [x y]. unfold Re. cbn. ring.
  Qed.
  (** S^2 f = b f *)
  Definition squared_is (b : R) (f : state) : Prop := forall o, among n o -> S_squared l f o = (RtoC b * f o)%C.
  Lemma zed_zed M f : proper f -> projection l M f -> forall o, among n o -> so zed (so zed f) o = (RtoC (IZR M / 2 * (IZR M / 2)) * f o)%C.
  Proof.
    intros Pf H o A. rewrite (so_agree l zed (so zed f) (fun o => (RtoC (IZR M / 2) * f o)%C) H o A), so_scal. change (so zed f o) with (S_z l f o). rewrite (H o A), RtoC_mult. cring.
  Qed.
  Lemma raise_norm b M f : proper f -> squared_is b f -> projection l M f ->
    Re (inner n (so up f) (so up f)) = (b - IZR M / 2 * (IZR M / 2 + 1)) * Re (inner n f f).
  Proof.
    intros Pf Hb H. rewrite <- raise_adjoint by (try apply so_proper; exact Pf). apply norm_scaled. intros o A.
    pose proof (squared_so l f Pf o) as E. rewrite (Hb o A), (zed_zed M f Pf H o A) in E. change (so zed f o) with (S_z l f o) in E. rewrite (H o A) in E.
    set (a := so down (so up f) o) in *. clearbody a. assert (a = (RtoC b * f o - RtoC (IZR M / 2 * (IZR M / 2)) * f o - RtoC (IZR M / 2) * f o)%C) as -> by (rewrite E; cring). cring.
  Qed.
  Lemma lower_norm b M f : proper f -> squared_is b f -> projection l M f ->
    Re (inner n (so down f) (so down f)) = (b - IZR M / 2 * (IZR M / 2 - 1)) * Re (inner n f f).
  Proof.
    intros Pf Hb H. rewrite <- lower_adjoint by (try apply so_proper; exact Pf). apply norm_scaled. intros o A.
    pose proof (squared_so' l f Pf o) as E. rewrite (Hb o A), (zed_zed M f Pf H o A) in E. change (so zed f o) with (S_z l f o) in E. rewrite (H o A) in E.
    set (a := so up (so down f) o) in *. clearbody a. assert (a = (RtoC b * f o - RtoC (IZR M / 2 * (IZR M / 2)) * f o + RtoC (IZR M / 2) * f o)%C) as -> by (rewrite E; cring). cring.
  Qed.
  Lemma squared_raised b f : proper f -> squared_is b f -> squared_is b (so up f).
  Proof. intros Pf H o A. rewrite squared_up by exact Pf. rewrite (so_agree l up _ _ H o A). apply so_scal. Qed.
  Lemma squared_lowered b f : proper f -> squared_is b f -> squared_is b (so down f).
  Proof. intros Pf H o A. rewrite squared_down by exact Pf. rewrite (so_agree l down _ _ H o A). apply so_scal. Qed.
  Lemma projection_raised M f : proper f -> projection l M f -> projection l (M + 2) (so up f).
  Proof.
    intros Pf H o A. change (S_z l (so up f) o) with (so zed (so up f) o). rewrite zed_up by exact Pf. rewrite (so_agree l up (so zed f) (fun o => (RtoC (IZR M / 2) * f o)%C) H o A), so_scal, plus_IZR. cbn. apply injective_projections; cbn; field.
  Qed.
  Lemma projection_lowered M f : proper f -> projection l M f -> projection l (M - 2) (so down f).
  Proof.
    intros Pf H o A. change (S_z l (so down f) o) with (so zed (so down f) o). rewrite zed_down by exact Pf. rewrite (so_agree l down (so zed f) (fun o => (RtoC (IZR M / 2) * f o)%C) H o A), so_scal, minus_IZR. cbn. apply injective_projections; cbn; field.
  Qed.
  Definition nonzero (f : state) : Prop := exists o, among n o /\ f o <> RtoC 0.
  Lemma nonzero_norm f : proper f -> nonzero f <-> 0 < Re (inner n f f).
  Proof.
    intros Pf. split.
    - intros (o & A & N). destruct (Rlt_le_dec 0 (Re (inner n f f))) as [H|H]; [exact H|]. exfalso. apply N, (inner_null n f Pf H o A).
    - intros H. apply Classical_Prop.NNPP. intros No. assert (Z : Re (inner n f f) = 0); [|lra].
      replace 0 with (0 * Re (inner n f f)) by ring. apply norm_scaled. intros o A. apply Classical_Prop.NNPP. intros C. apply No. exists o. split; [exact A|]. intros Z. apply C. rewrite Z. cring.
  Qed.
  (** ** Possible values *)
  Fixpoint ups (k : nat) (o : occupation) : nat := match k with O => O | S j => (ups j o + if Nat.even j && o j then 1 else 0)%nat end.
  Lemma charge_ups k o : total_charge k (charge spin_label) o = (2 * Z.of_nat (ups k o) - Z.of_nat (particles k o))%Z.
  Proof. induction k as [|k IH]; [reflexivity|]. cbn [total_charge ups particles]. rewrite IH. cbn [charge spin_label]. destruct (Nat.even k), (o k); cbn [andb]; lia. Qed.
  Lemma ups_le_particles k o : (ups k o <= particles k o)%nat.
  Proof. induction k as [|k IH]; [apply Nat.le_0_l|]. cbn [ups particles]. destruct (Nat.even k), (o k); cbn [andb]; lia. Qed.
  Lemma ups_le k o : (ups (2 * k) o <= k)%nat.
  Proof.
    induction k as [|k IH]; [apply Nat.le_0_l|]. replace (2 * S k)%nat with (S (S (2 * k))) by lia. cbn [ups]. rewrite Nat.even_succ, Nat.odd_mul. cbn [Nat.odd Nat.even negb andb].
    destruct (Nat.even (2 * k) && o (2 * k)%nat); lia.
  Qed.
  Lemma projection_bounds N M f : particle_state n N f -> nonzero f -> projection l M f ->
    (M <= Z.of_nat N)%Z /\ (M <= Z.of_nat (2 * l) - Z.of_nat N)%Z /\ Z.even (Z.of_nat N - M) = true.
  Proof.
    intros [Pf Hf] (o & A & Nz) H. apply (projection_held M f Pf) in H.
    assert (P : particles n o = N). { apply Classical_Prop.NNPP. intros C. apply Nz, (Hf o A C). }
    assert (Q : sc o = M). { apply Classical_Prop.NNPP. intros C. apply Nz, (H o A C). }
    rewrite <- Q, charge_ups, P. pose proof (ups_le_particles n o). pose proof (ups_le l o). split; [lia|]. split; [lia|].
    replace (Z.of_nat N - (2 * Z.of_nat (ups n o) - Z.of_nat N))%Z with (2 * (Z.of_nat N - Z.of_nat (ups n o)))%Z by lia. rewrite Z.even_mul. reflexivity.
  Qed.
  Definition value_of (s : nat) : R := INR s / 2 * (INR s / 2 + 1).
  Lemma spin_number_from N b : forall k M f, (Z.of_nat N - M <= Z.of_nat k)%Z -> particle_state n N f -> nonzero f -> squared_is b f -> projection l M f ->
    exists s, b = value_of s /\ in_multiplet s M /\ (s <= N)%nat /\ (s + N <= 2 * l)%nat /\ Nat.even (N - s) = true.
  Proof.
    induction k as [|k IH]; intros M f Hk Hf Nf Hb HM; destruct Hf as [Pf Hp].
    all: destruct (projection_bounds N M f (conj Pf Hp) Nf HM) as (B1 & B2 & B3).
    all: pose proof (proj1 (nonzero_norm f Pf) Nf) as Pos.
    all: assert (Top : ~ nonzero (so up f) -> exists s, b = value_of s /\ in_multiplet s M /\ (s <= N)%nat /\ (s + N <= 2 * l)%nat /\ Nat.even (N - s) = true).
    1,3: intros No; pose proof (raise_norm b M f Pf Hb HM) as R1; pose proof (lower_norm b M f Pf Hb HM) as R2;
      assert (Z : Re (inner n (so up f) (so up f)) = 0) by (pose proof (inner_nonneg n (so up f)) as [_ G]; apply Rle_antisym; [apply Rnot_lt_le; intros C; apply No, nonzero_norm; [apply so_proper, Pf | exact C] | exact G]);
      rewrite Z in R1; symmetry in R1; apply Rmult_integral in R1; destruct R1 as [R1|R1]; [|lra];
      pose proof (proj2 (inner_nonneg n (so down f))) as G; rewrite R2 in G;
      assert (M0 : (0 <= M)%Z) by (apply Z.nlt_ge; intros C; apply (IZR_lt M 0) in C; assert ((b - IZR M / 2 * (IZR M / 2 - 1)) * Re (inner n f f) < 0 * Re (inner n f f)) by (apply Rmult_lt_compat_r; [exact Pos | lra]); lra);
      exists (Z.to_nat M); unfold value_of, in_multiplet; rewrite INR_IZR_INZ, Z2Nat.id by exact M0; split; [lra|]; split; [split; [lia | rewrite Z.sub_diag; reflexivity]|]; split; [lia|]; split; [lia|].
    1,2: rewrite <- (Nat2Z.id (N - Z.to_nat M)); rewrite Nat2Z.inj_sub, Z2Nat.id by lia; destruct (Z.even_spec (Z.of_nat N - M)) as [F _]; destruct (F B3) as [j Hj]; apply Nat.even_spec; exists (Z.to_nat j); lia.
    - apply Top. intros Nu. destruct (projection_bounds N (M + 2) (so up f)) as (C1 & _ & _); [apply so_particles; split; assumption | exact Nu | apply projection_raised; assumption | lia].
    - destruct (Classical_Prop.classic (nonzero (so up f))) as [Nu|No]; [|apply Top, No].
      destruct (IH (M + 2)%Z (so up f)) as (s & Eb & [Mb Me] & S1 & S2 & S3); [lia | apply so_particles; split; assumption | exact Nu | apply squared_raised; assumption | apply projection_raised; assumption|].
      exists s. split; [exact Eb|]. split; [|split; [exact S1 | split; assumption]].
      assert (Me' : Z.even (Z.of_nat s - M) = true) by (replace (Z.of_nat s - M)%Z with (Z.of_nat s - (M + 2) + 2)%Z by lia; rewrite Z.even_add, Me; reflexivity).
      split; [|exact Me']. split; [|lia]. destruct (Z.eq_dec M (- Z.of_nat s - 2)) as [E|E].
      + exfalso. pose proof (raise_norm b M f Pf Hb HM) as R1. pose proof (proj1 (nonzero_norm _ (so_proper l up f Pf)) Nu) as P1. rewrite R1, Eb, E in P1. unfold value_of in P1. rewrite minus_IZR, opp_IZR, <- INR_IZR_INZ in P1.
        replace (INR s / 2 * (INR s / 2 + 1) - (- INR s - 2) / 2 * ((- INR s - 2) / 2 + 1)) with 0 in P1 by field. lra.
      + destruct (Z.eq_dec M (- Z.of_nat s - 1)) as [E'|E']; [|lia]. exfalso. rewrite E' in Me'. replace (Z.of_nat s - (- Z.of_nat s - 1))%Z with (2 * Z.of_nat s + 1)%Z in Me' by lia. rewrite Z.even_add, Z.even_mul in Me'. discriminate.
  Qed.
  Lemma spin_number N b M f : particle_state n N f -> nonzero f -> squared_is b f -> projection l M f ->
    exists s, b = value_of s /\ in_multiplet s M /\ (s <= N)%nat /\ (s + N <= 2 * l)%nat /\ Nat.even (N - s) = true.
  Proof. intros Hf. apply (spin_number_from N b (Z.to_nat (Z.of_nat N - M)) M f); [lia | exact Hf]. Qed.
End Ladder.
