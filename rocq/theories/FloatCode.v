(** Rounding in the basis changes, anti-symmetrization, spin doubling and energies. *)
From Coq Require Import List Arith ZArith Reals Permutation Lra Lia Bool.
From Flocq Require Import Core Relative Plus_error.
From Coquelicot Require Import Coquelicot.
From Verif Require Import Scalar ScalarC Spec EnergySpec GridSpec FloatModel FloatSpec FloatProofs.
Import ListNotations.
Open Scope R_scope.

Local Notation U := unit_roundoff.
Local Notation T := underflow.

Ltac cc := change (@sadd CC) with Cplus in *; change (@smul CC) with Cmult in *; change (@ssub CC) with Cminus in *;
  change (@sopp CC) with Copp in *; change (@s0 CC) with (RtoC 0) in *; change (@s1 CC) with (RtoC 1) in *.

Lemma csumn_ext n (f g : nat -> C) : (forall k, (k < n)%nat -> f k = g k) -> sumn (K := CC) n f = sumn (K := CC) n g.
Proof. intros. apply (@sumn_ext CC). assumption. Qed.
Lemma csumn_mul_l n c (f : nat -> C) : Cmult c (sumn (K := CC) n f) = sumn (K := CC) n (fun k => Cmult c (f k)).
Proof. apply (sumn_mul_l CC). Qed.
Lemma csumn_mul_r n c (f : nat -> C) : Cmult (sumn (K := CC) n f) c = sumn (K := CC) n (fun k => Cmult (f k) c).
Proof. apply (sumn_mul_r CC). Qed.
Lemma cgood_eq n m t t' s s' a a' v : n = m -> t = t' -> s = s' -> a = a' -> cgood n t s a v -> cgood m t' s' a' v.
Proof. intros; subst; assumption. Qed.

(** A dot product with one exact factor *)
Lemma dot_left n m (v s d : nat -> C) (t a : nat -> R) z :
  cdotted (map (fun k => (d k, v k)) (seq 0 n)) z ->
  (forall k, (k < n)%nat -> cgood m (t k) (s k) (a k) (v k)) ->
  cgood (2 * n + m) (rsum n (fun k => size (d k) * t k) + 4 * INR n * T)
    (sumn (K := CC) n (fun k => Cmult (d k) (s k))) (rsum n (fun k => size (d k) * a k)) z.
Proof.
  intros D H. apply (dot_good n m d v (fun k => Cmult (d k) (s k)) _ _ z D). intros k Hk.
  pose proof (pgood_intro _ _ _ _ _ _ _ _ _ _ (cgood_self (d k)) (H k Hk)) as P.
  rewrite !Rmult_0_l, !Rplus_0_r in P. exact P.
Qed.
Lemma dot_right n m (v s d : nat -> C) (t a : nat -> R) z :
  cdotted (map (fun k => (v k, d k)) (seq 0 n)) z ->
  (forall k, (k < n)%nat -> cgood m (t k) (s k) (a k) (v k)) ->
  cgood (2 * n + m) (rsum n (fun k => t k * size (d k)) + 4 * INR n * T)
    (sumn (K := CC) n (fun k => Cmult (s k) (d k))) (rsum n (fun k => a k * size (d k))) z.
Proof.
  intros D H. apply (dot_good n m v d (fun k => Cmult (s k) (d k)) _ _ z D). intros k Hk.
  pose proof (pgood_intro _ _ _ _ _ _ _ _ _ _ (H k Hk) (cgood_self (d k))) as P.
  rewrite !Rmult_0_r, Rplus_0_l, Rplus_0_r, Nat.add_0_r in P. exact P.
Qed.

(** One-body elements *)
Lemma transform1_good l k h c d t p q : transform1 l k h c d t -> (p < k)%nat -> (q < k)%nat ->
  cgood (4 * l) (4 * INR l * T * (1 + total l (d p))) (T1 (K := CC) l h c d p q) (T1_size l h c d p q) (t p q).
Proof.
  intros (m & H1 & H2) Hp Hq.
  assert (G := dot_left l (2 * l) (fun a => m a q) (fun a => sumn (K := CC) l (fun b => Cmult (h a b) (c b q))) (d p)
    (fun _ => 4 * INR l * T) (fun a => rsum l (fun b => size (h a b) * size (c b q))) (t p q) (H2 p q Hp Hq)).
  eapply cgood_eq; [| | | |apply G].
  - lia.
  - unfold total. rewrite Rmult_plus_distr_l, <- rsum_scal, Rmult_1_r, Rplus_comm. f_equal. apply rsum_ext. intros. ring.
  - unfold T1. apply csumn_ext. intros a Ha. rewrite csumn_mul_l. apply csumn_ext. intros b Hb. cc. ring.
  - unfold T1_size. apply rsum_ext. intros a Ha. rewrite <- rsum_scal. apply rsum_ext. intros. ring.
  - intros a Ha.
    pose proof (dot_right l 0 (h a) (h a) (fun b => c b q) (fun _ => 0) (fun b => size (h a b)) (m a q)
      (H1 a q Ha Hq) (fun b _ => cgood_self (h a b))) as D.
    eapply cgood_eq; [| | | |exact D]; [lia| |reflexivity|reflexivity].
    rewrite (rsum_ext l _ (fun _ => 0)) by (intros; ring). rewrite rsum_const. ring.
Qed.

(** Two-body elements *)
Lemma transform2_good l k u c d t p q r s : transform2 l k u c d t -> (p < k)%nat -> (q < k)%nat -> (r < k)%nat -> (s < k)%nat ->
  cgood (8 * l) (4 * INR l * T * (1 + total l (d p) * (1 + total l (d q) * (1 + total l (fun g => c g r)))))
    (T2 (K := CC) l u c d p q r s) (T2_size l u c d p q r s) (t p q r s).
Proof.
  intros (u1 & u2 & u3 & H1 & H2 & H3 & H4) Hp Hq Hr Hs.
  set (x1 a b g := sumn (K := CC) l (fun e => Cmult (u a b g e) (c e s))).
  set (y1 a b g := rsum l (fun e => size (u a b g e) * size (c e s))).
  assert (G1 : forall a b g, (a < l)%nat -> (b < l)%nat -> (g < l)%nat ->
    cgood (2 * l) (4 * INR l * T) (x1 a b g) (y1 a b g) (u1 a b g s)).
  { intros a b g Ha Hb Hg.
    pose proof (dot_right l 0 (u a b g) (u a b g) (fun e => c e s) (fun _ => 0) (fun e => size (u a b g e)) (u1 a b g s)
      (H1 a b g s Ha Hb Hg Hs) (fun e _ => cgood_self (u a b g e))) as D.
    eapply cgood_eq; [| | | |exact D]; [lia| |reflexivity|reflexivity].
    rewrite (rsum_ext l _ (fun _ => 0)) by (intros; ring). rewrite rsum_const. ring. }
  set (x2 a b := sumn (K := CC) l (fun g => Cmult (x1 a b g) (c g r))).
  set (y2 a b := rsum l (fun g => y1 a b g * size (c g r))).
  set (t2 := 4 * INR l * T * (1 + total l (fun g => c g r))).
  assert (G2 : forall a b, (a < l)%nat -> (b < l)%nat -> cgood (4 * l) t2 (x2 a b) (y2 a b) (u2 a b r s)).
  { intros a b Ha Hb.
    pose proof (dot_right l (2 * l) (fun g => u1 a b g s) (x1 a b) (fun g => c g r) (fun _ => 4 * INR l * T) (y1 a b) (u2 a b r s)
      (H2 a b r s Ha Hb Hr Hs) (fun g Hg => G1 a b g Ha Hb Hg)) as D.
    eapply cgood_eq; [| | | |exact D]; [lia| |reflexivity|reflexivity].
    unfold t2, total. rewrite rsum_scal. ring. }
  set (x3 a := sumn (K := CC) l (fun b => Cmult (x2 a b) (d q b))).
  set (y3 a := rsum l (fun b => y2 a b * size (d q b))).
  set (t3 := 4 * INR l * T * (1 + total l (d q) * (1 + total l (fun g => c g r)))).
  assert (G3 : forall a, (a < l)%nat -> cgood (6 * l) t3 (x3 a) (y3 a) (u3 a q r s)).
  { intros a Ha.
    pose proof (dot_right l (4 * l) (fun b => u2 a b r s) (x2 a) (d q) (fun _ => t2) (y2 a) (u3 a q r s)
      (H3 a q r s Ha Hq Hr Hs) (fun b Hb => G2 a b Ha Hb)) as D.
    eapply cgood_eq; [| | | |exact D]; [lia| |reflexivity|reflexivity].
    unfold t3, t2, total. rewrite rsum_scal. ring. }
  pose proof (dot_left l (6 * l) (fun a => u3 a q r s) x3 (d p) (fun _ => t3) y3 (t p q r s)
    (H4 p q r s Hp Hq Hr Hs) G3) as D.
  eapply cgood_eq; [| | | |exact D]; [lia| | |].
  - rewrite (rsum_ext l _ (fun k0 => t3 * size (d p k0))) by (intros; ring). rewrite rsum_scal. unfold t3, total. ring.
  - unfold T2. apply csumn_ext. intros a Ha. unfold x3. rewrite csumn_mul_l. apply csumn_ext. intros b Hb.
    unfold x2. rewrite csumn_mul_r, csumn_mul_l. apply csumn_ext. intros g Hg.
    unfold x1. rewrite !csumn_mul_r, csumn_mul_l. apply csumn_ext. intros e He. cc. ring.
  - unfold T2_size. apply rsum_ext. intros a Ha. unfold y3. rewrite <- rsum_scal. apply rsum_ext. intros b Hb.
    unfold y2. rewrite (Rmult_comm (rsum _ _)), <- !rsum_scal. apply rsum_ext. intros g Hg.
    unfold y1. rewrite (Rmult_comm (rsum _ _)), <- !rsum_scal. apply rsum_ext. intros e He. ring.
Qed.

(** Single-particle functions *)
Lemma transform_spf_good l k f c t p : transform_spf l k f c t -> (p < k)%nat ->
  cgood (2 * l) (4 * INR l * T) (sumn (K := CC) l (fun a => Cmult (c a p) (f a))) (rsum l (fun a => size (c a p) * size (f a))) (t p).
Proof.
  intros H Hp.
  pose proof (dot_left l 0 f f (fun a => c a p) (fun _ => 0) (fun a => size (f a)) (t p) (H p Hp) (fun a _ => cgood_self (f a))) as D.
  eapply cgood_eq; [| | | |exact D]; [lia| |reflexivity|reflexivity].
  rewrite (rsum_ext l _ (fun _ => 0)) by (intros; ring). rewrite rsum_const. ring.
Qed.
Lemma transform_bra_good l k f d t p : transform_bra l k f d t -> (p < k)%nat ->
  cgood (2 * l) (4 * INR l * T) (sumn (K := CC) l (fun a => Cmult (d p a) (f a))) (rsum l (fun a => size (d p a) * size (f a))) (t p).
Proof.
  intros H Hp.
  pose proof (dot_left l 0 f f (d p) (fun _ => 0) (fun a => size (f a)) (t p) (H p Hp) (fun a _ => cgood_self (f a))) as D.
  eapply cgood_eq; [| | | |exact D]; [lia| |reflexivity|reflexivity].
  rewrite (rsum_ext l _ (fun _ => 0)) by (intros; ring). rewrite rsum_const. ring.
Qed.

(** Anti-symmetrization and spin doubling, bit by bit *)
Lemma csub_opp z w : csub z w = Copp (csub w z).
Proof.
  unfold csub, Copp, fsub. cbn. rewrite <- !fl_opp. f_equal; f_equal; ring.
Qed.
Lemma anti_ket u p q r s : anti_symmetrize u p q r s = Copp (anti_symmetrize u p q s r).
Proof. apply csub_opp. Qed.
Lemma anti_bra u p q r s : u q p r s = u p q s r -> u q p s r = u p q r s ->
  anti_symmetrize u q p r s = Copp (anti_symmetrize u p q r s).
Proof. intros E1 E2. unfold anti_symmetrize. rewrite E1, E2. apply csub_opp. Qed.
Local Instance prec_pos' : Prec_gt_0 53 := eq_refl.
Lemma fsub_eq_0 x y : float x -> float y -> fsub x y = 0 -> x = y.
Proof.
  intros Fx Fy E. apply Rminus_diag_uniq. unfold fsub, fl in E.
  apply (round_plus_eq_0 radix2 (FLT_exp (-1074) 53) ZnearestE x (- y) Fx (float_opp _ Fy) E).
Qed.
Lemma csub_eq_0 z w : cfloat z -> cfloat w -> csub z w = RtoC 0 <-> z = w.
Proof.
  intros (A & B) (A' & B'). split.
  - unfold csub. intros E. injection E as E1 E2. apply fsub_eq_0 in E1; [|assumption..]. apply fsub_eq_0 in E2; [|assumption..].
    destruct z, w. cbn in *. congruence.
  - intros ->. unfold csub, fsub. rewrite !Rminus_eq_0, fl_0. reflexivity.
Qed.
Lemma anti_exch u p q r s : cfloat (u p q r s) -> cfloat (u p q s r) ->
  size (Cminus (anti_symmetrize u p q r s) (exch (K := CC) u p q r s)) <= U * size (exch (K := CC) u p q r s).
Proof.
  intros F F'. unfold anti_symmetrize, exch. cc. rewrite csub_cadd. unfold Cminus at 2 3.
  apply cadd_err; [assumption | apply cfloat_opp; assumption].
Qed.
Lemma float_1 : float 1.
Proof. change 1 with (bpow radix2 0). apply generic_format_bpow. unfold f64, FLT_exp. lia. Qed.
Lemma rscale_1 z : cfloat z -> rscale 1 z = z.
Proof. intros (A & B). unfold rscale, fmul. rewrite !Rmult_1_l, !fl_id by assumption. symmetry. apply surjective_pairing. Qed.
Lemma rscale_0 z : rscale 0 z = RtoC 0.
Proof. unfold rscale, fmul. rewrite !Rmult_0_l, !fl_0. reflexivity. Qed.
Lemma parity_mod p : (p mod 2)%nat = if Nat.even p then 0%nat else 1%nat.
Proof.
  pose proof (Nat.div_mod p 2 ltac:(lia)) as E. pose proof (Nat.mod_upper_bound p 2 ltac:(lia)).
  destruct (Nat.even p) eqn:Ev.
  - apply Nat.even_spec in Ev. destruct Ev as (m & ->). rewrite Nat.mul_comm. apply Nat.mod_mul. lia.
  - assert (O : Nat.odd p = true) by (unfold Nat.odd; rewrite Ev; reflexivity). apply Nat.odd_spec in O. destruct O as (m & ->).
    rewrite Nat.add_comm, Nat.mul_comm, Nat.mod_add by lia. reflexivity.
Qed.
Lemma eye_parity p q : eye (p mod 2) (q mod 2) = if same_parity p q then 1 else 0.
Proof. rewrite !parity_mod. unfold eye, same_parity. destruct (Nat.even p), (Nat.even q); reflexivity. Qed.
Lemma spin1_exact h p q : cfloat (h (p / 2) (q / 2))%nat -> add_spin1 h p q = dbl1 (K := CC) h p q.
Proof.
  intros F. unfold add_spin1, dbl1. rewrite eye_parity. destruct same_parity; [apply rscale_1; assumption | apply rscale_0].
Qed.
Lemma spin2_exact u p q r s : cfloat (u (p / 2) (q / 2) (r / 2) (s / 2))%nat -> add_spin2 u p q r s = dbl2 (K := CC) u p q r s.
Proof.
  intros F. unfold add_spin2, dbl2. rewrite !eye_parity. unfold fmul.
  destruct (same_parity p r), (same_parity q s); cbn [andb];
    rewrite ?Rmult_0_l, ?Rmult_0_r, ?Rmult_1_l, ?fl_0, ?(fl_id 1 float_1);
    first [apply rscale_1; assumption | apply rscale_0].
Qed.

(** Energies and Fock matrices *)
Lemma summed_float' n (f : nat -> C) z : (forall i, (i < n)%nat -> cfloat (f i)) -> csummed (map f (seq 0 n)) z -> cfloat z.
Proof.
  intros F (A & B). split; [eapply summed_float; [|exact A] | eapply summed_float; [|exact B]];
    rewrite map_map, Forall_map, Forall_forall; intros i Hi; apply in_seq in Hi; apply F; lia.
Qed.
Lemma trace_good n (f : nat -> C) z : (forall i, (i < n)%nat -> cfloat (f i)) -> csummed (map f (seq 0 n)) z ->
  cgood (n - 1) 0 (sumn (K := CC) n f) (rsum n (fun i => size (f i))) z.
Proof.
  intros F H. pose proof (sum_good n 0 f f (fun _ => 0) (fun i => size (f i)) z F H (fun i _ => cgood_self (f i))) as G.
  eapply cgood_eq; [| | | |exact G]; [lia| |reflexivity|reflexivity]. rewrite rsum_const. ring.
Qed.
Lemma trace2_float n w z : (forall i j, (i < n)%nat -> (j < n)%nat -> cfloat (w i j)) -> trace2 n w z -> cfloat z.
Proof.
  intros F (row & R1 & R2). eapply summed_float'; [|exact R2]. intros i Hi. eapply summed_float'; [|apply R1; exact Hi].
  intros j Hj. apply F; assumption.
Qed.
Lemma trace2_good n w z : (forall i j, (i < n)%nat -> (j < n)%nat -> cfloat (w i j)) -> trace2 n w z ->
  cgood (2 * (n - 1)) 0 (sumn (K := CC) n (fun i => sumn (K := CC) n (w i))) (rsum2 n n (fun i j => size (w i j))) z.
Proof.
  intros F (row & R1 & R2).
  assert (G := sum_good n (n - 1) row (fun i => sumn (K := CC) n (w i)) (fun _ => 0) (fun i => rsum n (fun j => size (w i j))) z).
  eapply cgood_eq; [| | | |apply G]; [lia| |reflexivity|reflexivity| |exact R2|].
  - rewrite rsum_const. ring.
  - intros i Hi. eapply summed_float'; [|apply R1; exact Hi]. intros j Hj. apply F; assumption.
  - intros i Hi. apply trace_good; [|apply R1; exact Hi]. intros j Hj. apply F; assumption.
Qed.
Lemma scale_good n t s a v x : cgood n t s a v -> cgood (S n) (Rabs x * t + 2 * T) (Cmult (RtoC x) s) (Rabs x * a) (rscale x v).
Proof.
  intros G. apply rscale_good.
  pose proof (pgood_intro _ _ _ _ _ _ _ _ _ _ (cgood_self (RtoC x)) G) as P.
  rewrite !Rmult_0_l, !Rplus_0_r, size_R in P. exact P.
Qed.
Lemma energy_good n h u e :
  (forall i, (i < n)%nat -> cfloat (h i i)) -> (forall i j, (i < n)%nat -> (j < n)%nat -> cfloat (u i j i j)) ->
  reference_energy n h u e -> cgood (2 * n + 2) (2 * T) (E_general (K := CC) n h u) (E_size n h u) e.
Proof.
  intros Fh Fu (t1 & t2 & H1 & H2 & ->).
  pose proof (trace_good n _ t1 Fh H1) as G1. pose proof (trace2_good n _ t2 Fu H2) as G2.
  pose proof (scale_good _ _ _ _ _ (1 / 2) G2) as G3.
  pose proof (cadd_good _ _ _ _ _ _ _ _ _ _ (summed_float' n _ t1 Fh H1) (rscale_float (1 / 2) t2) G1 G3) as G.
  eapply cgood_mono; [| | |eapply cgood_eq; [reflexivity|reflexivity| |reflexivity|exact G]]; [lia|rewrite Rmult_0_r; lra| |].
  - unfold E_size. rewrite Rabs_right by lra. lra.
  - unfold E_general. cc. change (@shalf CC) with (RtoC (/ 2)). replace (1 / 2) with (/ 2) by lra. reflexivity.
Qed.
Lemma cplus2 z : Cplus z z = Cmult (RtoC 2) z.
Proof. unfold Cplus, Cmult, RtoC. cbn. f_equal; ring. Qed.
Lemma restricted_sum n (v w : nat -> C) :
  sumn (K := CC) n (fun i => Cminus (Cmult (Cplus (RtoC 1) (RtoC 1)) (v i)) (w i))
  = Cminus (Cmult (RtoC 2) (sumn (K := CC) n v)) (sumn (K := CC) n w).
Proof.
  rewrite csumn_mul_l, sumn_minus. apply csumn_ext. intros k Hk. f_equal. unfold Cplus, Cmult, RtoC. cbn. f_equal; ring.
Qed.
Lemma energy_restricted_good n h u e :
  (forall i, (i < n)%nat -> cfloat (h i i)) -> (forall i j, (i < n)%nat -> (j < n)%nat -> cfloat (u i j i j)) ->
  (forall i j, (i < n)%nat -> (j < n)%nat -> cfloat (u i j j i)) ->
  reference_energy_restricted n h u e ->
  cgood (2 * n + 3) (4 * T) (E_restricted (K := CC) n h u) (E_size_restricted n h u) e.
Proof.
  intros Fh Fu Fu' (t1 & t2 & t3 & H1 & H2 & H3 & ->).
  pose proof (scale_good _ _ _ _ _ 2 (trace_good n _ t1 Fh H1)) as G1.
  pose proof (scale_good _ _ _ _ _ 2 (trace2_good n _ t2 Fu H2)) as G2.
  pose proof (trace2_good n _ t3 Fu' H3) as G3. rewrite Rabs_right, Rmult_0_r in G1, G2 by lra.
  pose proof (cadd_good _ _ _ _ _ _ _ _ _ _ (rscale_float 2 t1) (rscale_float 2 t2) G1 G2) as G12.
  pose proof (csub_good _ _ _ _ _ _ _ _ _ _ (cadd_float _ _) (trace2_float n _ t3 Fu' H3) G12 G3) as G.
  eapply cgood_mono; [| | |eapply cgood_eq; [reflexivity|reflexivity| |reflexivity|exact G]]; [lia|lra| |].
  - unfold E_size_restricted, rsum2.
    rewrite (rsum_ext n (fun i => rsum n (fun j => 2 * size (u i j i j) + size (u i j j i)))
      (fun i => 2 * rsum n (fun j => size (u i j i j)) + rsum n (fun j => size (u i j j i)))).
    + rewrite rsum_plus, rsum_scal. lra.
    + intros i Hi. rewrite rsum_plus, rsum_scal. reflexivity.
  - unfold E_restricted. cc.
    rewrite (csumn_ext n (fun i => sumn (K := CC) n (fun j => Cminus (Cmult (Cplus (RtoC 1) (RtoC 1)) (u i j i j)) (u i j j i)))
      (fun i => Cminus (Cmult (RtoC 2) (sumn (K := CC) n (fun j => u i j i j))) (sumn (K := CC) n (fun j => u i j j i)))).
    + rewrite <- sumn_minus, <- csumn_mul_l. replace (Cplus (RtoC 1) (RtoC 1)) with (RtoC 2); [unfold Cminus; ring|].
      unfold Cplus, RtoC. cbn. f_equal; lra.
    + intros i Hi. apply (restricted_sum n (fun j => u i j i j) (fun j => u i j j i)).
Qed.
Lemma cadd_0_l z : cfloat z -> cadd (RtoC 0) z = z.
Proof. intros (A & B). unfold cadd. cbn. rewrite !fadd_0_l by assumption. symmetry. apply surjective_pairing. Qed.
Lemma fock_good l n h u f p q : fock_matrix l n h u f -> (p < l)%nat -> (q < l)%nat ->
  cfloat (h p q) -> (forall i, (i < n)%nat -> cfloat (u p i q i)) ->
  cgood (n + 1) 0 (F_general (K := CC) n h u p q) (size (h p q) + rsum n (fun i => size (u p i q i))) (f p q).
Proof.
  intros H Hp Hq Fh Fu. destruct (H p q Hp Hq) as (t & Ht & ->). rewrite cadd_0_l by assumption.
  pose proof (cadd_good _ _ _ _ _ _ _ _ _ _ Fh (summed_float' n _ t Fu Ht) (cgood_self (h p q)) (trace_good n _ t Fu Ht)) as G.
  eapply cgood_mono; [| | |exact G]; [lia|lra|lra].
Qed.
Lemma fock_restricted_good l n h u f p q : fock_matrix_restricted l n h u f -> (p < l)%nat -> (q < l)%nat ->
  cfloat (h p q) -> (forall i, (i < n)%nat -> cfloat (u p i q i)) -> (forall i, (i < n)%nat -> cfloat (u p i i q)) ->
  cgood (n + 3) (2 * T) (F_restricted (K := CC) n h u p q)
    (size (h p q) + rsum n (fun i => 2 * size (u p i q i) + size (u p i i q))) (f p q).
Proof.
  intros H Hp Hq Fh Fu Fu'. destruct (H p q Hp Hq) as (t & t' & Ht & Ht' & ->). rewrite cadd_0_l by assumption.
  pose proof (scale_good _ _ _ _ _ 2 (trace_good n _ t Fu Ht)) as G1. rewrite Rabs_right, Rmult_0_r in G1 by lra.
  pose proof (cadd_good _ _ _ _ _ _ _ _ _ _ Fh (rscale_float 2 t) (cgood_self (h p q)) G1) as G2.
  pose proof (csub_good _ _ _ _ _ _ _ _ _ _ (cadd_float _ _) (summed_float' n _ t' Fu' Ht') G2 (trace_good n _ t' Fu' Ht')) as G.
  eapply cgood_mono; [| | |eapply cgood_eq; [reflexivity|reflexivity| |reflexivity|exact G]]; [lia|lra| |].
  - rewrite rsum_plus, rsum_scal. lra.
  - unfold F_restricted. cc. rewrite (restricted_sum n (fun i => u p i q i) (fun i => u p i i q)). unfold Cminus. ring.
Qed.
