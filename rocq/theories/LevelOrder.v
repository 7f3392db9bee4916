(** Levels of a dot and its potential. *)
From Coq Require Import List Arith ZArith Reals Lra Lia Bool.
From Coquelicot Require Import Coquelicot.
From Verif Require Import Scalar ScalarC Py Numpy BasisSet OneDim OneDimSpec OneDimProofs DotProofs GridSpec GridProofs NodeSpec NodeProofs SpectrumProofs ParitySpec BoxProofs BoxTheorems.
Import ListNotations.
Open Scope R_scope.

(** ** Min-max *)
Section MinMax.
  Variables (n n' k : nat) (h h' : nat -> nat -> R) (w w' : nat -> R) (v v' : nat -> nat -> R) (c : R).
  Hypothesis H : eigenbasis n h w v.
  Hypothesis H' : eigenbasis n' h' w' v'.
  Hypothesis Sy : forall i j, h i j = h j i.
  Hypothesis Sy' : forall i j, h' i j = h' j i.
  Hypothesis Hk : (k + n' <= n)%nat.
  (** The vector x at the places k, ..., k + n' - 1 *)
  Definition moved (x : nat -> R) (i : nat) : R := if (k <=? i)%nat && (i <? k + n')%nat then x (i - k)%nat else 0.
  Hypothesis Le : forall x, dotp n (moved x) (apply_h n h (moved x)) <= dotp n' x (apply_h n' h' x) + c * dotp n' x x.
  Lemma moved_sum (f : nat -> R) : (forall i, (i < n)%nat -> (i < k \/ k + n' <= i)%nat -> f i = 0) -> rsum n f = rsum n' (fun i => f (k + i)%nat).
  Proof.
    intros Z. replace n with (k + n' + (n - (k + n')))%nat by lia. assert (Q : forall a b g, rsum (a + b) g = rsum a g + rsum b (fun i => g (a + i)%nat)).
    { intros a b g. induction b as [|b IH]; [rewrite Nat.add_0_r; cbn; ring|]. rewrite Nat.add_succ_r. cbn [rsum]. rewrite IH. ring. }
    rewrite !Q. rewrite (rsum_ext k f (fun _ => 0)) by (intros i Hi; apply Z; lia). rewrite (rsum_ext _ (fun i => f (k + n' + i)%nat) (fun _ => 0)) by (intros i Hi; apply Z; lia).
    assert (O : forall m, rsum m (fun _ => 0) = 0) by (induction m as [|m IH]; cbn [rsum]; [reflexivity | rewrite IH; ring]). rewrite !O. ring.
  Qed.
  Lemma moved_in x i : (i < n')%nat -> moved x (k + i)%nat = x i.
  Proof. intros Hi. unfold moved. destruct (Nat.leb_spec k (k + i)); [|lia]. destruct (Nat.ltb_spec (k + i) (k + n')); [|lia]. cbn [andb]. f_equal. lia. Qed.
  Lemma moved_out x i : (i < k \/ k + n' <= i)%nat -> moved x i = 0.
  Proof. intros Hi. unfold moved. destruct (Nat.leb_spec k i); [|reflexivity]. destruct (Nat.ltb_spec i (k + n')); [lia | reflexivity]. Qed.
  Lemma moved_dot x y : dotp n (moved x) (moved y) = dotp n' x y.
  Proof.
    unfold dotp. rewrite moved_sum by (intros i _ Hi; rewrite (moved_out x i Hi); ring). apply rsum_ext. intros i Hi. rewrite !moved_in by exact Hi. reflexivity.
  Qed.
  Lemma level_order p : (p < n')%nat -> w p <= w' p + c.
  Proof.
    intros Hp. destruct (null_vector (S p) (map (fun j q => coef n v (moved (fun i => v' i q)) j) (seq 0 p))) as (x & (q0 & Hq0 & Nq0) & Z); [rewrite map_length, seq_length; lia|].
    set (phi := fun i => rsum (S p) (fun q => x q * v' i q)).
    assert (Zc : forall j, (j < p)%nat -> coef n v (moved phi) j = 0).
    { intros j Hj. rewrite <- (Z (fun q => coef n v (moved (fun i => v' i q)) j)) by (apply in_map_iff; exists j; split; [reflexivity | apply in_seq; lia]).
      unfold coef. rewrite (rsum_ext n _ (fun i => rsum (S p) (fun q => v i j * (x q * moved (fun i => v' i q) i)))).
      - rewrite rsum_swap. apply rsum_ext. intros q _. rewrite Rmult_comm, <- rsum_scal. apply rsum_ext. intros i _. ring.
      - intros i _. unfold moved. destruct ((k <=? i)%nat && (i <? k + n')%nat); [unfold phi; rewrite <- rsum_scal; reflexivity|].
        rewrite Rmult_0_r. symmetry. rewrite (rsum_ext (S p) _ (fun q => 0 * x q)) by (intros; ring). rewrite rsum_scal. ring. }
    assert (Cq : forall q, (q < n')%nat -> coef n' v' phi q = if (q <? S p)%nat then x q else 0).
    { intros q Hq. unfold coef, phi. rewrite (rsum_ext n' _ (fun i => rsum (S p) (fun j => x j * (v' i q * v' i j)))) by (intros i _; rewrite <- rsum_scal; apply rsum_ext; intros; ring).
      rewrite rsum_swap. rewrite (rsum_ext (S p) _ (fun j => rdelta q j * x j)) by (intros j Hj; rewrite rsum_scal, (eb_o n' h' w' v' H') by lia; ring).
      destruct (Nat.ltb_spec q (S p)) as [L|L]; [apply rsum_delta; exact L|]. rewrite (rsum_ext (S p) _ (fun j => 0 * x j)); [rewrite rsum_scal; ring|]. intros j Hj. unfold rdelta. destruct (Nat.eqb_spec q j); [lia | ring]. }
    set (T := rsum n' (fun q => coef n' v' phi q ^ 2)).
    assert (N2 : dotp n' phi phi = T) by (unfold T; rewrite <- (parseval n' v' (eb_o n' h' w' v' H') phi phi); apply rsum_ext; intros; ring).
    assert (N1 : rsum n (fun j => coef n v (moved phi) j ^ 2) = T) by (rewrite <- N2, <- moved_dot, <- (parseval n v (eb_o n h w v H) (moved phi) (moved phi)); apply rsum_ext; intros; ring).
    assert (Tp : 0 < T).
    { assert (T0 : 0 <= T) by (apply rsum_nonneg; intros; apply pow2_ge_0). destruct (Req_dec T 0) as [T1|T1]; [|lra]. exfalso.
      pose proof (rsum_null n' _ (fun q _ => pow2_ge_0 _) T1 q0 ltac:(lia)) as Q. cbv beta in Q. rewrite Cq in Q by lia. destruct (Nat.ltb_spec q0 (S p)); [|lia]. apply (pow_nonzero _ 2) in Nq0. contradiction. }
    pose proof (Le phi) as M. rewrite (SpectrumProofs.expectation n h w v H Sy), (SpectrumProofs.expectation n' h' w' v' H' Sy'), N2 in M.
    assert (Up : rsum n' (fun q => w' q * coef n' v' phi q ^ 2) <= w' p * T).
    { unfold T. rewrite <- rsum_scal. apply rsum_le. intros q Hq. rewrite Cq by exact Hq. destruct (Nat.ltb_spec q (S p)) as [L|L].
      - apply Rmult_le_compat_r; [apply pow2_ge_0|]. apply (eb_ascending _ _ _ _ H'); lia.
      - right. ring. }
    assert (Lo : w p * T <= rsum n (fun j => w j * coef n v (moved phi) j ^ 2)).
    { rewrite <- N1, <- rsum_scal. apply rsum_le. intros j Hj. destruct (le_lt_dec p j) as [L|L]; [|rewrite (Zc j L); right; ring].
      apply Rmult_le_compat_r; [apply pow2_ge_0|]. apply (eb_ascending _ _ _ _ H); lia. }
    apply Rmult_le_reg_r with T; [exact Tp|]. lra.
  Qed.
End MinMax.

(** ** The matrix of the dot *)
Lemma moved_form n n' k (h : nat -> nat -> R) x : (k + n' <= n)%nat ->
  dotp n (moved n' k x) (apply_h n h (moved n' k x)) = rsum n' (fun i => rsum n' (fun j => x i * (h (k + i)%nat (k + j)%nat * x j))).
Proof.
  intros Hk. rewrite (moved_sum n n' k Hk) by (intros i _ Hi; rewrite (moved_out n n' k Hk x i Hi); ring). apply rsum_ext. intros i Hi. rewrite (moved_in n n' k Hk x i Hi).
  unfold apply_h. rewrite (moved_sum n n' k Hk) by (intros j _ Hj; rewrite (moved_out n n' k Hk x j Hj); ring). rewrite <- rsum_scal. apply rsum_ext. intros j Hj. rewrite (moved_in n n' k Hk x j Hj). reflexivity.
Qed.
Lemma shifted_point L L' N k i : (2 <= N)%nat -> spacing L' (N + 2 * k) = spacing L N -> point L' (N + 2 * k) (k + i) = point L N i.
Proof.
  intros HN Hs. unfold point, spacing in *. set (d := 2 * L / INR (N - 1)) in *.
  assert (P : 0 < INR (N - 1)) by (apply lt_0_INR; lia). assert (P' : 0 < INR (N + 2 * k - 1)) by (apply lt_0_INR; lia).
  assert (E : L = d * INR (N - 1) / 2) by (unfold d; field; lra). assert (E' : L' = d * INR (N + 2 * k - 1) / 2) by (rewrite <- Hs; field; lra).
  assert (I : INR (N + 2 * k - 1) = INR (N - 1) + 2 * INR k) by (replace (N + 2 * k - 1)%nat with (N - 1 + 2 * k)%nat by lia; rewrite plus_INR, mult_INR; cbn [INR]; ring).
  rewrite E', E. rewrite !plus_INR, I in *. field. lra.
Qed.
Lemma matrix_order L L' N k V V' c x : (3 <= N)%nat -> spacing L' (N + 2 * k) = spacing L N ->
  (forall i, (0 < i)%nat -> (i + 1 < N)%nat -> V' (point L N i) <= V (point L N i) + c) ->
  dotp (N + 2 * k - 2) (moved (N - 2) k x) (apply_h (N + 2 * k - 2) (grid_hamiltonian L' (N + 2 * k) V') (moved (N - 2) k x)) <=
  dotp (N - 2) x (apply_h (N - 2) (grid_hamiltonian L N V) x) + c * dotp (N - 2) x x.
Proof.
  intros HN Hs HV. rewrite moved_form by lia. rewrite <- rsum_scal, <- rsum_add. apply rsum_le. intros i Hi. unfold apply_h. rewrite <- rsum_scal.
  replace (c * (x i * x i)) with (rsum (N - 2) (fun j => if (i =? j)%nat then c * (x i * x i) else 0)).
  2: { rewrite (rsum_pick (N - 2) i); [rewrite Nat.eqb_refl; reflexivity | exact Hi|]. intros j _ Nj. destruct (Nat.eqb_spec i j); [lia | reflexivity]. }
  rewrite <- rsum_add. apply rsum_le. intros j Hj. unfold grid_hamiltonian. rewrite !linspace_spacing, Hs, !linspace_point.
  assert (E1 : (k + i =? k + j)%nat = (i =? j)%nat) by (destruct (Nat.eqb_spec (k + i) (k + j)), (Nat.eqb_spec i j); lia || reflexivity).
  assert (E2 : (k + j + 1 =? k + i)%nat = (j + 1 =? i)%nat) by (destruct (Nat.eqb_spec (k + j + 1) (k + i)), (Nat.eqb_spec (j + 1) i); lia || reflexivity).
  assert (E3 : (k + i + 1 =? k + j)%nat = (i + 1 =? j)%nat) by (destruct (Nat.eqb_spec (k + i + 1) (k + j)), (Nat.eqb_spec (i + 1) j); lia || reflexivity).
  rewrite E1, E2, E3. destruct (Nat.eqb_spec i j) as [->|_]; [|right; ring].
  replace (S (k + j))%nat with (k + S j)%nat by lia. rewrite (shifted_point L L' N k (S j)) by (exact Hs || lia).
  specialize (HV (S j) ltac:(lia) ltac:(lia)). pose proof (pow2_ge_0 (x j)). nra.
Qed.
Lemma dot_level npm spin anti l L N a alpha beta V eigh b : odqd npm spin anti l L N a alpha beta V eigh = (Ok tt, b) ->
  (3 <= N)%nat /\ (l <= N - 2)%nat /\ exists h, b_arr b F_h = Some h /\ forall p, (p < l)%nat -> Re (mat h p p) = fst (eigh (N - 2)%nat (grid_hamiltonian L N V)) p.
Proof.
  intros E. destruct (dot_result _ _ _ _ _ _ _ _ _ _ _ _ E) as (-> & H3 & Hl). split; [exact H3|]. split; [exact Hl|]. eexists. split; [reflexivity|].
  intros p Hp. cbn [mat get diag arr2]. rewrite Nat.eqb_refl. reflexivity.
Qed.
Lemma dot_order npm spin anti npm' spin' anti' l l' L L' N k a a' alpha alpha' beta beta' V V' c eigh eigh' b b' :
  odqd npm spin anti l L N a alpha beta V eigh = (Ok tt, b) -> odqd npm' spin' anti' l' L' (N + 2 * k) a' alpha' beta' V' eigh' = (Ok tt, b') ->
  solves L N V eigh -> solves L' (N + 2 * k) V' eigh' -> spacing L' (N + 2 * k) = spacing L N ->
  (forall i, (0 < i)%nat -> (i + 1 < N)%nat -> V' (point L N i) <= V (point L N i) + c) ->
  exists h h', b_arr b F_h = Some h /\ b_arr b' F_h = Some h' /\ forall p, (p < l)%nat -> (p < l')%nat -> Re (mat h' p p) <= Re (mat h p p) + c.
Proof.
  intros E E' S S' Hs HV. destruct (dot_level _ _ _ _ _ _ _ _ _ _ _ _ E) as (H3 & Hl & h & Eh & Gh). destruct (dot_level _ _ _ _ _ _ _ _ _ _ _ _ E') as (H3' & Hl' & h' & Eh' & Gh').
  exists h, h'. do 2 (split; [assumption|]). intros p Hp Hp'. rewrite Gh, Gh' by assumption.
  apply (level_order (N + 2 * k - 2) (N - 2) k _ _ _ _ _ _ c S' S); try (intros; apply grid_hamiltonian_sym); try lia. intros x. apply matrix_order; assumption.
Qed.
(** Between two boxes *)
Lemma dot_boxes npm spin anti l L N a alpha beta V eigh b m M : odqd npm spin anti l L N a alpha beta V eigh = (Ok tt, b) -> 0 < L -> solves L N V eigh ->
  (forall i, (0 < i)%nat -> (i + 1 < N)%nat -> m <= V (point L N i) <= M) ->
  exists h, b_arr b F_h = Some h /\ forall p, (p < l)%nat ->
    let e := (1 - cos (INR (p + 1) * PI / INR (N - 1))) / spacing L N ^ 2 in m + e <= Re (mat h p p) <= M + e.
Proof.
  intros E HL S HV. destruct (dot_level _ _ _ _ _ _ _ _ _ _ _ _ E) as (H3 & Hl & h & Eh & Gh). exists h. split; [exact Eh|]. intros p Hp e. rewrite Gh by exact Hp.
  assert (B : forall c, box_level L N c p = c + e) by (intros c; unfold box_level, box_angle, e; rewrite (Nat.add_1_r p); reflexivity).
  assert (Q : forall c, solves L N (fun _ => c) (box_solver L c)) by (intros c; apply box_solver_right; exact HL). unfold solves, box_solver in Q. cbn [fst snd] in Q. replace (N - 2 + 2)%nat with N in Q by lia.
  assert (K : (N + 2 * 0)%nat = N) by lia.
  rewrite <- !B. split.
  - assert (O : box_level L N m p <= fst (eigh (N - 2)%nat (grid_hamiltonian L N V)) p + 0); [|lra].
    apply (level_order (N - 2) (N - 2) 0 _ _ _ _ _ _ 0 (Q m) S); try (intros; apply grid_hamiltonian_sym); try lia.
    intros x. pose proof (matrix_order L L N 0 V (fun _ => m) 0 x H3) as O. rewrite K in O. apply O; [reflexivity|]. intros i Hi Hi'. pose proof (HV i Hi Hi'). lra.
  - assert (O : fst (eigh (N - 2)%nat (grid_hamiltonian L N V)) p <= box_level L N M p + 0); [|lra].
    apply (level_order (N - 2) (N - 2) 0 _ _ _ _ _ _ 0 S (Q M)); try (intros; apply grid_hamiltonian_sym); try lia.
    intros x. pose proof (matrix_order L L N 0 (fun _ => M) V 0 x H3) as O. rewrite K in O. apply O; [reflexivity|]. intros i Hi Hi'. pose proof (HV i Hi Hi'). lra.
Qed.
Lemma dot_close npm spin anti npm' spin' anti' l l' L N a a' alpha alpha' beta beta' V V' c eigh eigh' b b' :
  odqd npm spin anti l L N a alpha beta V eigh = (Ok tt, b) -> odqd npm' spin' anti' l' L N a' alpha' beta' V' eigh' = (Ok tt, b') ->
  solves L N V eigh -> solves L N V' eigh' -> (forall i, (0 < i)%nat -> (i + 1 < N)%nat -> Rabs (V' (point L N i) - V (point L N i)) <= c) ->
  exists h h', b_arr b F_h = Some h /\ b_arr b' F_h = Some h' /\ forall p, (p < l)%nat -> (p < l')%nat -> Rabs (Re (mat h' p p) - Re (mat h p p)) <= c.
Proof.
  intros E E' S S' HV. assert (K : (N + 2 * 0)%nat = N) by lia.
  pose proof (dot_order npm spin anti npm' spin' anti' l l' L L N 0 a a' alpha alpha' beta beta' V V' c eigh eigh' b b') as O1.
  pose proof (dot_order npm' spin' anti' npm spin anti l' l L L N 0 a' a alpha' alpha beta' beta V' V c eigh' eigh b' b) as O2. rewrite K in O1, O2.
  destruct O1 as (h & h' & Eh & Eh' & O1); try assumption; [reflexivity | intros i Hi Hi'; specialize (HV i Hi Hi'); apply Rabs_le_between in HV; lra |].
  destruct O2 as (h2' & h2 & Eh2' & Eh2 & O2); try assumption; [reflexivity | intros i Hi Hi'; specialize (HV i Hi Hi'); apply Rabs_le_between in HV; lra |].
  rewrite Eh in Eh2. injection Eh2 as <-. rewrite Eh' in Eh2'. injection Eh2' as <-. exists h, h'. do 2 (split; [assumption|]). intros p Hp Hp'.
  specialize (O1 p Hp Hp'). specialize (O2 p Hp' Hp). apply Rabs_le. lra.
Qed.
Lemma dot_shift npm spin anti npm' spin' anti' l l' L N a a' alpha alpha' beta beta' V V' c eigh eigh' b b' :
  odqd npm spin anti l L N a alpha beta V eigh = (Ok tt, b) -> odqd npm' spin' anti' l' L N a' alpha' beta' V' eigh' = (Ok tt, b') ->
  solves L N V eigh -> solves L N V' eigh' -> (forall i, (0 < i)%nat -> (i + 1 < N)%nat -> V' (point L N i) = V (point L N i) + c) ->
  exists h h', b_arr b F_h = Some h /\ b_arr b' F_h = Some h' /\ forall p, (p < l)%nat -> (p < l')%nat -> Re (mat h' p p) = Re (mat h p p) + c.
Proof.
  intros E E' S S' HV. assert (K : (N + 2 * 0)%nat = N) by lia.
  pose proof (dot_order npm spin anti npm' spin' anti' l l' L L N 0 a a' alpha alpha' beta beta' V V' c eigh eigh' b b') as O1.
  pose proof (dot_order npm' spin' anti' npm spin anti l' l L L N 0 a' a alpha' alpha beta' beta V' V (- c) eigh' eigh b' b) as O2. rewrite K in O1, O2.
  destruct O1 as (h & h' & Eh & Eh' & O1); try assumption; [reflexivity | intros i Hi Hi'; rewrite (HV i Hi Hi'); lra |].
  destruct O2 as (h2' & h2 & Eh2' & Eh2 & O2); try assumption; [reflexivity | intros i Hi Hi'; rewrite (HV i Hi Hi'); lra |].
  rewrite Eh in Eh2. injection Eh2 as <-. rewrite Eh' in Eh2'. injection Eh2' as <-. exists h, h'. do 2 (split; [assumption|]). intros p Hp Hp'.
  specialize (O1 p Hp Hp'). specialize (O2 p Hp' Hp). lra.
Qed.
