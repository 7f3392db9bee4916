(** compute_particle_density on spin-doubled basis sets. *)
From Coq Require Import List Arith Lia Bool.
From Verif Require Import Scalar Py Numpy Spec BasisSet BasisSpec Examples DensitySpec DensityProofs SpinFacts DoubleFacts SpinProofs SpinDensitySpec.
Import ListNotations.

Section Spin.
  Variable K : scalar.
  Local Open Scope K_scope.
  Add Ring KringSD : (s_ring K).
  Lemma half_even p : (2 * p / 2 = p)%nat.
  Proof. rewrite Nat.mul_comm. apply Nat.div_mul. discriminate. Qed.
  Lemma half_odd p : ((2 * p + 1) / 2 = p)%nat.
  Proof. rewrite Nat.add_comm, Nat.mul_comm, Nat.div_add by discriminate. reflexivity. Qed.
  Lemma ev n : Nat.even (2 * n) = true.
  Proof. rewrite Nat.even_mul. reflexivity. Qed.
  Lemma od n : Nat.even (2 * n + 1) = false.
  Proof. rewrite Nat.add_comm, Nat.even_add_mul_2. reflexivity. Qed.
  Lemma density_doubled l (rho : nat -> nat -> K) bra ket bra' ket' : (forall P, bra' P = bra (P / 2)%nat) -> (forall P, ket' P = ket (P / 2)%nat) ->
    density_at (2 * l) rho bra' ket' = spin_density l rho bra ket + spin_mixing l rho bra ket.
  Proof.
    intros Hb Hk. unfold density_at. rewrite sumn_double. unfold spin_density, spin_mixing. rewrite <- sumn_add. apply sumn_ext. intros p _. rewrite !sumn_double, <- !sumn_add. apply sumn_ext. intros q _.
    rewrite !Hb, !Hk, !half_even, !half_odd. ring.
  Qed.
  Lemma doubled_density ab anti b l s ket bra g (rho : arr K) :
    (b_cls b = SincDVR -> ab = None) ->
    orthonormal_pair (match ab with Some p => fst p | None => default_a K end) (match ab with Some p => snd p | None => default_b K end) ->
    ready b l -> b_spin b = false -> b_arr b F_s = Some s -> b_arr b F_spf = Some ket -> bra_view b = Some bra -> shape ket = l :: g -> shape bra = l :: g ->
    shape rho = [2 * l; 2 * l]%nat ->
    exists b1 d b2, change_to_general ab anti b = (Ok true, b1) /\ compute_particle_density rho None None b1 = (Ok d, b2) /\ shape d = g /\
      forall x, valid g x -> get d x = spin_density l (mat rho) (orb bra x) (orb ket x) + spin_mixing l (mat rho) (orb bra x) (orb ket x).
  Proof.
    intros Hab ON R Hsp Hs Hk Hb Sk Sb Sr.
    destruct (change_to_general_ok K ab anti b l s Hab (orthonormal_accepted K _ _ ON) R Hsp Hs) as (b1 & E & D). exists b1.
    pose proof (sd_spf D) as G1. pose proof (sd_bra D ltac:(congruence)) as G2. rewrite Hk in G1. rewrite Hb in G2.
    destruct (b_arr b1 F_spf) as [ket'|] eqn:E1; [|destruct G1]. destruct (b_arr b1 F_bra) as [bra'|] eqn:E2; [|destruct G2].
    destruct G1 as [S1 G1], G2 as [S2 G2]. rewrite Sk in S1. rewrite Sb in S2. cbn [tl] in S1, S2.
    pose proof (sd_complex D F_spf ket' ltac:(cbn; tauto) E1) as D1. pose proof (sd_complex D F_bra bra' ltac:(cbn; tauto) E2) as D2.
    destruct (r_np _ _ _ R) as (m & Hm).
    destruct (density_formula K b1 rho ket' bra' (2 * l) g) as (d & b2 & Ed & _ & Sd & Gd); try assumption.
    - exists m. rewrite (sd_np D). exact Hm.
    - unfold bra_view. rewrite E2. reflexivity.
    - congruence.
    - rewrite D1. destruct (dt rho); reflexivity.
    - exists d, b2. split; [exact E|]. split; [exact Ed|]. split; [exact Sd|]. intros x Hx. rewrite (Gd x Hx).
      apply density_doubled; intros P; unfold orb; [apply G2 | apply G1].
  Qed.
  Lemma mixing_zero l rho bra ket : spin_diagonal l rho -> spin_mixing l rho bra ket = (0 : K).
  Proof.
    intros H. unfold spin_mixing. apply sumn_zero'. intros p Hp. apply sumn_zero'. intros q Hq.
    destruct (H p q Hp Hq) as [-> ->]. ring.
  Qed.
  Lemma diagonal_density ab anti b l s ket bra g (rho : arr K) :
    (b_cls b = SincDVR -> ab = None) ->
    orthonormal_pair (match ab with Some p => fst p | None => default_a K end) (match ab with Some p => snd p | None => default_b K end) ->
    ready b l -> b_spin b = false -> b_arr b F_s = Some s -> b_arr b F_spf = Some ket -> bra_view b = Some bra -> shape ket = l :: g -> shape bra = l :: g ->
    shape rho = [2 * l; 2 * l]%nat -> spin_diagonal l (mat rho) ->
    exists b1 d b2, change_to_general ab anti b = (Ok true, b1) /\ compute_particle_density rho None None b1 = (Ok d, b2) /\ shape d = g /\
      forall x, valid g x -> get d x = spin_density l (mat rho) (orb bra x) (orb ket x).
  Proof.
    intros Hab ON R Hsp Hs Hk Hb Sk Sb Sr Hd. destruct (doubled_density ab anti b l s ket bra g rho Hab ON R Hsp Hs Hk Hb Sk Sb Sr) as (b1 & d & b2 & E1 & E2 & E3 & G).
    exists b1, d, b2. split; [exact E1|]. split; [exact E2|]. split; [exact E3|]. intros x Hx. rewrite (G x Hx), (mixing_zero _ _ _ _ Hd). ring.
  Qed.
  (** Closed shells *)
  Lemma closed_density ab anti b l s ket bra g (rho gamma : arr K) :
    (b_cls b = SincDVR -> ab = None) ->
    orthonormal_pair (match ab with Some p => fst p | None => default_a K end) (match ab with Some p => snd p | None => default_b K end) ->
    ready b l -> b_spin b = false -> b_arr b F_s = Some s -> b_arr b F_spf = Some ket -> bra_view b = Some bra -> shape ket = l :: g -> shape bra = l :: g ->
    dt bra = dt ket -> castable (dt gamma) (dt ket) = true -> shape gamma = [l; l] ->
    shape rho = [2 * l; 2 * l]%nat -> (forall Q P, mat rho Q P = dbl1 (mat gamma) Q P) ->
    exists b1 d b2 d0 b0, change_to_general ab anti b = (Ok true, b1) /\ compute_particle_density rho None None b1 = (Ok d, b2) /\
      compute_particle_density gamma None None b = (Ok d0, b0) /\ shape d = g /\ shape d0 = g /\ forall x, valid g x -> get d x = get d0 x + get d0 x.
  Proof.
    intros Hab ON R Hsp Hs Hk Hb Sk Sb Hdt Hc Sg Sr Hr. destruct (r_np _ _ _ R) as (m & Hm).
    destruct (density_formula K b gamma ket bra l g ltac:(eauto) Hk Hb Sk Sb Sg Hdt Hc) as (d0 & b0 & E0 & _ & S0 & G0).
    destruct (diagonal_density ab anti b l s ket bra g rho Hab ON R Hsp Hs Hk Hb Sk Sb Sr) as (b1 & d & b2 & E1 & E2 & E3 & G).
    { intros p q _ _. rewrite !Hr. unfold dbl1, same_parity. rewrite !ev, !od. split; reflexivity. }
    exists b1, d, b2, d0, b0. split; [exact E1|]. split; [exact E2|]. split; [exact E0|]. split; [exact E3|]. split; [exact S0|]. intros x Hx. rewrite (G x Hx), (G0 x Hx).
    unfold spin_density, density_at. rewrite <- sumn_add. apply sumn_ext. intros p _. rewrite <- sumn_add. apply sumn_ext. intros q _. rewrite !Hr. unfold dbl1.
    unfold same_parity. rewrite !ev, !od, !half_even, !half_odd. cbn [eqb]. ring.
  Qed.
  (** One particle with a tilted spin *)
  Lemma tilted_density ab anti b l s ket bra g (rho : arr K) k x y :
    (b_cls b = SincDVR -> ab = None) ->
    orthonormal_pair (match ab with Some p => fst p | None => default_a K end) (match ab with Some p => snd p | None => default_b K end) ->
    ready b l -> b_spin b = false -> b_arr b F_s = Some s -> b_arr b F_spf = Some ket -> bra_view b = Some bra -> shape ket = l :: g -> shape bra = l :: g ->
    shape rho = [2 * l; 2 * l]%nat -> (k < l)%nat -> (forall Q P, mat rho Q P = one_particle k x y Q P) ->
    exists b1 d b2, change_to_general ab anti b = (Ok true, b1) /\ compute_particle_density rho None None b1 = (Ok d, b2) /\ shape d = g /\
      forall z, valid g z -> spin_density l (mat rho) (orb bra z) (orb ket z) = (x * sconj x + y * sconj y) * (orb bra z k * orb ket z k) /\
        get d z = (x + y) * sconj (x + y) * (orb bra z k * orb ket z k).
  Proof.
    intros Hab ON R Hsp Hs Hk Hb Sk Sb Sr Hkl Hr. destruct (doubled_density ab anti b l s ket bra g rho Hab ON R Hsp Hs Hk Hb Sk Sb Sr) as (b1 & d & b2 & E1 & E2 & E3 & G).
    exists b1, d, b2. split; [exact E1|]. split; [exact E2|]. split; [exact E3|]. intros z Hz.
    assert (V : forall i j, (i < 2)%nat -> (j < 2)%nat -> forall q p, mat rho (2 * q + i) (2 * p + j) = if ((q =? k)%nat && (p =? k)%nat) then (if (i =? 0)%nat then x else y) * sconj (if (j =? 0)%nat then x else y) else 0).
    { intros i j Hi Hj q p. rewrite Hr. unfold one_particle.
      assert (Dv : forall n i, (i < 2)%nat -> ((2 * n + i) / 2 = n)%nat) by (intros n i0 H0; rewrite Nat.add_comm, Nat.mul_comm, Nat.div_add by discriminate; rewrite Nat.div_small by exact H0; reflexivity).
      rewrite !Dv by assumption. rewrite !(Nat.add_comm (2 * _)), !Nat.even_add_mul_2. destruct i as [|[|i]], j as [|[|j]]; try lia; reflexivity. }
    assert (V00 : forall q p, mat rho (2 * q) (2 * p) = if ((q =? k)%nat && (p =? k)%nat) then x * sconj x else 0) by (intros q p; rewrite <- (V 0 0)%nat by lia; rewrite !Nat.add_0_r; reflexivity).
    assert (V11 : forall q p, mat rho (2 * q + 1) (2 * p + 1) = if ((q =? k)%nat && (p =? k)%nat) then y * sconj y else 0) by (intros q p; apply (V 1 1)%nat; lia).
    assert (V01 : forall q p, mat rho (2 * q) (2 * p + 1) = if ((q =? k)%nat && (p =? k)%nat) then x * sconj y else 0) by (intros q p; rewrite <- (V 0 1)%nat by lia; rewrite !Nat.add_0_r; reflexivity).
    assert (V10 : forall q p, mat rho (2 * q + 1) (2 * p) = if ((q =? k)%nat && (p =? k)%nat) then y * sconj x else 0) by (intros q p; rewrite <- (V 1 0)%nat by lia; rewrite !Nat.add_0_r; reflexivity).
    assert (Pick : forall c (f h : nat -> K), sumn l (fun p => sumn l (fun q => f p * (if ((q =? k)%nat && (p =? k)%nat) then c else 0) * h q)) = c * (f k * h k)).
    { intros c f h. rewrite (sumn_pick K l k); [|exact Hkl|].
      - rewrite (sumn_pick K l k); [rewrite Nat.eqb_refl; cbn [andb]; ring | exact Hkl |]. intros q _ Hq. apply Nat.eqb_neq in Hq. rewrite Hq. cbn [andb]. ring.
      - intros p _ Hp. apply sumn_zero'. intros q _. apply Nat.eqb_neq in Hp. rewrite Hp, andb_false_r. ring. }
    assert (Sd : spin_density l (mat rho) (orb bra z) (orb ket z) = (x * sconj x + y * sconj y) * (orb bra z k * orb ket z k)).
    { rewrite <- Pick. unfold spin_density. apply sumn_ext. intros p _. apply sumn_ext. intros q _. rewrite V00, V11. destruct ((q =? k)%nat && (p =? k)%nat); ring. }
    split; [exact Sd|]. rewrite (G z Hz), Sd.
    assert (Sm : spin_mixing l (mat rho) (orb bra z) (orb ket z) = (x * sconj y + y * sconj x) * (orb bra z k * orb ket z k)).
    { rewrite <- Pick. unfold spin_mixing. apply sumn_ext. intros p _. apply sumn_ext. intros q _. rewrite V01, V10. destruct ((q =? k)%nat && (p =? k)%nat); ring. }
    rewrite Sm, conj_add. ring.
  Qed.
End Spin.
