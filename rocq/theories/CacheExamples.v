(** Concrete elements and interleavings for Prop_Coulomb.v. *)
From Coq Require Import List Arith ZArith Lia Bool Reals Lra.
From Verif Require Import Py TwoDim TwoDimProofs Coulomb CoulombSpec CoulombProofs Cache CacheProofs.
Import ListNotations.
Open Scope R_scope.

(** The element of four ground states. *)
Lemma ground_element : coulomb_ho 0 0 0 0 0 0 0 0 = sqrt (PI / 2).
Proof.
  rewrite coulomb_closed by reflexivity. unfold closed, norm4, weight, term, inner_sum.
  cbn [rsum Nat.add mplus mminus Z.to_nat Z.opp Z.abs_nat Nat.sub fact INR].
  destruct (Nat.eq_dec 0 0) as [_|H]; [|contradiction]. cbn [gamma2 pow Nat.sub Nat.add]. unfold Binomial.C. cbn [fact Nat.sub INR].
  replace (1 * 1 * 1 * 1 / (1 * 1 * 1 * 1)) with 1 by field. rewrite sqrt_1.
  rewrite sqrt_div_alt by lra. replace (2 * 1) with 2 by ring. field. apply Rgt_not_eq, sqrt_lt_R0. lra.
Qed.
Lemma ground_nonzero : coulomb_ho 0 0 0 0 0 0 0 0 <> 0.
Proof. rewrite ground_element. apply Rgt_not_eq, sqrt_lt_R0. pose proof PI_RGT_0. lra. Qed.
Lemma array_head n : (1 <= n)%nat -> exists xs, coulomb_array n = coulomb_ho 0 0 0 0 0 0 0 0 :: xs.
Proof. intros H. destruct n as [|n]; [lia|]. unfold coulomb_array. cbn [seq flat_map map app]. eexists. reflexivity. Qed.
Lemma array_length n : length (coulomb_array n) = (n * n * n * n)%nat.
Proof.
  assert (F : forall (A B : Type) (f : A -> list B) l k, (forall x, length (f x) = k) -> length (flat_map f l) = (length l * k)%nat).
  { intros A B f l k H. induction l as [|x l IH]; [reflexivity|]. cbn. rewrite app_length, H, IH. reflexivity. }
  unfold coulomb_array. rewrite (F _ _ _ _ (n * n * n)%nat); [rewrite seq_length; lia|]. intros p.
  rewrite (F _ _ _ _ (n * n)%nat); [rewrite seq_length; lia|]. intros q. rewrite (F _ _ _ _ n); [rewrite seq_length; lia|].
  intros r. rewrite map_length, seq_length. reflexivity.
Qed.

Definition here : setting := Setting true 0 true.
Definition no_files : fs := fun _ _ => None.
Lemma no_files_sound : sound no_files.
Proof. intros d n f H. discriminate H. Qed.

(** Process 0 writes all but the last entry; process 1, which also found no file, reopens
    it and writes the header; process 0 writes the last entry and returns; then the file
    is loaded by process 2. *)
Definition torn_trace (n : nat) : list action :=
  [Spawn here n; Run 0 0; Spawn here n; Run 1 0; Run 0 0; Run 0 (n * n * n * n - 1);
   Run 1 0; Run 1 0; Run 0 0; Run 0 0; Spawn here n; Run 2 0; Run 2 0].
Lemma torn_load n ys y : coulomb_array n = ys ++ [y] ->
  nth_error (m_procs (run (torn_trace n) (Machine no_files []))) 2 = Some (Process here n (Returned (Ok (repeat 0 (length ys) ++ [y])))).
Proof.
  intros E. assert (EN : (n * n * n * n = S (length ys))%nat) by (rewrite <- array_length, E, app_length; cbn; lia).
  assert (EI : image n = Header n :: map Datum ys ++ [Datum y]) by (unfold image; rewrite E, map_app; reflexivity).
  unfold torn_trace. rewrite EN. cbn [Nat.sub].
  set (A q := Process here n q).
  assert (S1 : run [Spawn here n; Run 0 0; Spawn here n; Run 1 0; Run 0 0] (Machine no_files []) = Machine (fs_set no_files 0 n []) [A (Writing 0); A Computed]) by reflexivity.
  change (run (Spawn here n :: ?t) ?m) with (run t (act (Spawn here n) m)).
  match goal with |- nth_error (m_procs ?r) 2 = _ => change r with (run [Run 0 (length ys - 0); Run 1 0; Run 1 0; Run 0 0; Run 0 0; Spawn here n; Run 2 0; Run 2 0] (run [Spawn here n; Run 0 0; Spawn here n; Run 1 0; Run 0 0] (Machine no_files []))) end.
  rewrite S1. clear S1.
  assert (S2 : act (Run 0 (length ys - 0)) (Machine (fs_set no_files 0 n []) [A (Writing 0); A Computed])
    = Machine (fs_set (fs_set no_files 0 n []) 0 n (Header n :: map Datum ys)) [A (Writing (S (length ys))); A Computed]).
  { cbn [act nth_error m_procs m_fs]. unfold advance, A. cbn [p_at p_env p_n]. rewrite EI. cbn [skipn firstn].
    replace (length ys - 0)%nat with (length (map Datum ys)) by (rewrite map_length; lia). rewrite firstn_app, firstn_all, Nat.sub_diag. cbn [firstn]. rewrite app_nil_r.
    cbn [replace_at length Nat.add dir here]. rewrite map_length, fs_set_same. unfold write_at. cbn [length Nat.sub repeat app firstn]. rewrite skipn_nil, app_nil_r. reflexivity. }
  cbn [run fold_left]. rewrite S2. clear S2.
  set (s2 := fs_set (fs_set no_files 0 n []) 0 n _).
  assert (S3 : act (Run 1 0) (Machine s2 [A (Writing (S (length ys))); A Computed]) = Machine (fs_set s2 0 n []) [A (Writing (S (length ys))); A (Writing 0)]) by reflexivity.
  rewrite S3. clear S3. set (s3 := fs_set s2 0 n []).
  assert (S4 : act (Run 1 0) (Machine s3 [A (Writing (S (length ys))); A (Writing 0)]) = Machine (fs_set s3 0 n [Header n]) [A (Writing (S (length ys))); A (Writing 1)]).
  { cbn [act nth_error m_procs m_fs]. unfold advance, A. cbn [p_at p_env p_n]. rewrite EI. cbn [skipn firstn replace_at length Nat.add dir here]. unfold s3 at 2. rewrite fs_set_same. reflexivity. }
  rewrite S4. clear S4. set (s4 := fs_set s3 0 n [Header n]).
  set (f := Header n :: repeat Hole (length ys) ++ [Datum y]).
  assert (S5 : act (Run 0 0) (Machine s4 [A (Writing (S (length ys))); A (Writing 1)]) = Machine (fs_set s4 0 n f) [A (Writing (S (S (length ys)))); A (Writing 1)]).
  { cbn [act nth_error m_procs m_fs]. unfold advance, A. cbn [p_at p_env p_n]. rewrite EI. cbn [skipn].
    replace (length ys) with (length (map Datum ys)) at 1 by apply map_length. rewrite skipn_app, skipn_all, Nat.sub_diag. cbn [skipn app firstn replace_at length dir here].
    unfold s4 at 2. rewrite fs_set_same. rewrite Nat.add_1_r. f_equal. f_equal. unfold write_at, f. cbn [length app firstn Nat.sub]. rewrite Nat.sub_0_r.
    rewrite (firstn_all2 (repeat Hole (length ys))) by (rewrite repeat_length; lia). cbn [Nat.add skipn]. rewrite skipn_nil. reflexivity. }
  rewrite S5. clear S5. set (s5 := fs_set s4 0 n f).
  assert (S6 : act (Run 0 0) (Machine s5 [A (Writing (S (S (length ys)))); A (Writing 1)]) = Machine s5 [A (Returned (Ok (coulomb_array n))); A (Writing 1)]).
  { cbn [act nth_error m_procs m_fs]. unfold advance, A. cbn [p_at p_env p_n]. rewrite (skipn_all2 (image n)) by (rewrite EI; cbn [length]; rewrite app_length, map_length; cbn; lia). reflexivity. }
  rewrite S6. clear S6. assert (F5 : s5 0%nat n = Some f) by apply fs_set_same.
  set (R0 := A (Returned (Ok (coulomb_array n)))).
  change (act (Spawn here n) (Machine s5 [R0; A (Writing 1)])) with (Machine s5 [R0; A (Writing 1); A Begin]).
  assert (S7 : act (Run 2 0) (Machine s5 [R0; A (Writing 1); A Begin]) = Machine s5 [R0; A (Writing 1); A Found]).
  { cbn [act nth_error m_procs m_fs]. unfold advance. cbn [A p_at p_env p_n here cached negb dir]. rewrite F5. reflexivity. }
  rewrite S7. clear S7.
  assert (S8 : act (Run 2 0) (Machine s5 [R0; A (Writing 1); A Found]) = Machine s5 [R0; A (Writing 1); A (Returned (np_load f))]).
  { cbn [act nth_error m_procs m_fs]. unfold advance. cbn [A p_at p_env p_n here cached negb dir]. rewrite F5. reflexivity. }
  rewrite S8. clear S8. cbn [m_procs nth_error]. unfold A.
  do 3 f_equal. unfold np_load, f. rewrite E, !app_length, repeat_length. cbn [length]. rewrite Nat.leb_refl. rewrite firstn_all2 by (rewrite app_length, repeat_length; cbn; lia).
  rewrite map_app. cbn [map number]. do 2 f_equal. clear. induction (length ys) as [|k IH]; [reflexivity|]. cbn. rewrite IH. reflexivity.
Qed.

Lemma crash_refuted : ~ (forall t e n, cached e = true -> writable e = true ->
  fst (get_coulomb_elements e n (m_fs (run t (Machine no_files [])))) = Ok (coulomb_array n)).
Proof.
  intros H. pose proof (crash_poisons here 1 no_files [0%nat; 0%nat] [(here, 1%nat)] 0 eq_refl eq_refl ltac:(cbn; lia) 0%nat here eq_refl eq_refl eq_refl) as P.
  specialize (H [Spawn here 1; Run 0 0; Run 0 0; Crash 0] here 1%nat eq_refl eq_refl).
  change (run [Spawn here 1; Run 0 0; Run 0 0; Crash 0] (Machine no_files [])) with (act (Crash 0) (run (Spawn here 1 :: map (Run 0) [0%nat; 0%nat]) (Machine no_files []))) in H.
  set (m := act _ _) in *. cbn [calls fst] in P. destruct (get_coulomb_elements here 1 (m_fs m)) as [r s]. cbn in H, P. rewrite H in P. discriminate P.
Qed.
Lemma array_last n : (1 <= n)%nat -> exists ys y, coulomb_array n = ys ++ [y].
Proof.
  intros H. destruct (array_head n H) as (xs & E). destruct (exists_last (l := coulomb_array n)) as (ys & y & E'); [rewrite E; discriminate|]. exists ys, y. exact E'.
Qed.
Lemma torn_wrong n ys y : (2 <= n)%nat -> coulomb_array n = ys ++ [y] -> repeat 0 (length ys) ++ [y] <> coulomb_array n.
Proof.
  intros Hn E H. destruct (array_head n ltac:(lia)) as (xs & Ex). assert (length ys = n * n * n * n - 1)%nat by (rewrite <- array_length, E, app_length; cbn; lia).
  destruct (length ys) as [|k]; [nia|]. rewrite Ex in H. cbn in H. injection H as H1 _. apply ground_nonzero. auto.
Qed.
Lemma concurrent_refuted : ~ (forall t i p r, crash_free t -> nth_error (m_procs (run t (Machine no_files []))) i = Some p -> p_at p = Returned r ->
  writable (p_env p) = true -> r = Ok (coulomb_array (p_n p))).
Proof.
  intros H. destruct (array_last 2 ltac:(lia)) as (ys & y & E). pose proof (torn_load 2 ys y E) as T.
  specialize (H (torn_trace 2) 2%nat _ _ ltac:(repeat constructor) T eq_refl eq_refl). cbn [p_n] in H. injection H as H. apply (torn_wrong 2 ys y ltac:(lia) E H).
Qed.
Lemma Int_part_IZR z : Int_part (IZR z) = z.
Proof.
  destruct (base_Int_part (IZR z)) as [A B]. apply le_IZR in A. assert (IZR z < IZR (Int_part (IZR z) + 1)) as C by (rewrite plus_IZR; lra). apply lt_IZR in C. lia.
Qed.
(** The hypotheses of the formula theorem can be met. *)
Definition half_gamma (x : R) : R := if Req_EM_T (2 * x) (IZR (Int_part (2 * x))) then gamma2 (Z.to_nat (Int_part (2 * x))) else 0.
Lemma half_gamma_at k : half_gamma (INR k / 2) = gamma2 k.
Proof.
  unfold half_gamma. replace (2 * (INR k / 2)) with (INR k) by field. rewrite INR_IZR_INZ, Int_part_IZR.
  destruct (Req_EM_T (IZR (Z.of_nat k)) (IZR (Z.of_nat k))) as [_|H]; [rewrite Nat2Z.id; reflexivity | contradiction].
Qed.
Lemma half_gamma_ok : is_gamma half_gamma.
Proof.
  split; [|split].
  - replace (1 / 2) with (INR 1 / 2) by (cbn; field). apply half_gamma_at.
  - replace 1 with (INR 2 / 2) at 1 by (cbn; field). rewrite half_gamma_at. reflexivity.
  - intros x Hx. unfold half_gamma at 2. destruct (Req_EM_T (2 * x) (IZR (Int_part (2 * x)))) as [E|E].
    + set (z := Int_part (2 * x)) in *. assert (Hz : (0 < z)%Z) by (apply lt_IZR; lra).
      destruct (Z.to_nat z) as [|k] eqn:Ek; [lia|]. assert (Ez : IZR z = INR (S k)) by (rewrite INR_IZR_INZ; f_equal; lia).
      replace (x + 1) with (INR (S (S (S k))) / 2) by (rewrite !S_INR in *; lra). rewrite half_gamma_at.
      change (gamma2 (S (S (S k)))) with (INR (S k) / 2 * gamma2 (S k)). f_equal. lra.
    + rewrite Rmult_0_r. unfold half_gamma. destruct (Req_EM_T (2 * (x + 1)) (IZR (Int_part (2 * (x + 1))))) as [E'|]; [|reflexivity].
      exfalso. apply E. replace (2 * x) with (IZR (Int_part (2 * (x + 1)) - 2)) by (rewrite minus_IZR, <- E'; ring). rewrite Int_part_IZR. reflexivity.
Qed.
Lemma mirror (nm nm' : nat -> Z * Z) p q r s : (forall x, nm' x = (fst (nm x), - snd (nm x))%Z) -> coulomb_of nm' p q r s = coulomb_of nm p q r s.
Proof. intros H. unfold coulomb_of. rewrite !H. cbn [fst snd]. apply coulomb_mirror. Qed.
Lemma angular (nm : nat -> Z * Z) p q r s : (snd (nm p) + snd (nm q) <> snd (nm r) + snd (nm s))%Z -> coulomb_of nm p q r s = 0.
Proof. intros H. apply coulomb_zero. cbn [snd]. lia. Qed.
