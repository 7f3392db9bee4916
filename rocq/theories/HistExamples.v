(** Concrete histories: witnesses for the refutations of C07, C11, C32 and
    instances of the hypotheses of the theorems that hold. *)
From Coq Require Import List Arith ZArith Lia Bool.
From Verif Require Import Scalar Py Numpy Spec BasisSet BasisSpec Examples Histories SizeProofs.
Import ListNotations.

Lemma core_sizes_from_new (K : scalar) (ops : list (op K)) c m l dim i s b' :
  run_ok ops (new_basis K c m l dim i s) = Some b' ->
  forall f, In f [F_h; F_s; F_u; F_dip; F_spf; F_sp2tb] -> size_ok b' f.
Proof.
  intros E. eapply hist_core; [exact E | apply new_spin_inv |]. intros f _. exact I.
Qed.
Lemma all_sizes_from_new (K : scalar) (ops : list (op K)) c m l dim i s b' :
  run_ok ops (new_basis K c m l dim i s) = Some b' -> along resize_safe ops (new_basis K c m l dim i s) ->
  forall f, size_ok b' f.
Proof.
  intros E A. eapply hist_full; [exact E | apply new_spin_inv | exact A |]. intros f. exact I.
Qed.

(** Read something off the result of a successful history. *)
Lemma run_ok_read {A} (ops : list (op QI)) b (g : basis QI -> A) (v : A) :
  option_map g (run_ok ops b) = Some v -> exists b', run_ok ops b = Some b' /\ g b' = v.
Proof. destruct (run_ok ops b) as [b'|]; cbn; [|discriminate]. intros E. injection E as E. eauto. Qed.
Lemma opt_map_some {A B} (f : A -> B) x v : option_map f x = Some v -> exists a, x = Some a /\ f a = v.
Proof. destruct x; cbn; [|discriminate]. intros E. injection E as E. eauto. Qed.

Lemma isset_neq (x : option (arr QI)) : (if x then true else false) = true -> x <> None.
Proof. destruct x; discriminate. Qed.

Definition fresh : basis QI := new_basis QI Base 0 2 1 false false.
Definition setup_ops : list (op QI) :=
  [OSetH ex_h; OSetS ex_s; OSetU ex_u; OSetDip ex_dip; OSetSpf (Some ex_spf)].
Definition ex_history : list (op QI) := setup_ops ++ [OReadBra; OChange ex_X None; ODouble None true; OCast; OChange ex_flip None].

Lemma sizes_refuted : ~ (forall (K : scalar) (ops : list (op K)) c m l dim i s b',
  run_ok ops (new_basis K c m l dim i s) = Some b' -> forall f, size_ok b' f).
Proof.
  intros H.
  destruct (run_ok_read (setup_ops ++ [ODouble None true; OChange ex_cut None]) fresh
              (fun b => (b_l b, option_map shape (b_arr b F_spz))) (3, Some [4; 4])) as (b' & E & G);
    [vm_compute; reflexivity|].
  injection G as Gl Gs. apply opt_map_some in Gs as (z & Ez & Sz).
  specialize (H QI _ _ _ _ _ _ _ b' E F_spz). unfold size_ok in H. rewrite Ez, Sz, Gl in H.
  specialize (H 4 (or_introl eq_refl)). discriminate H.
Qed.
Lemma sizes_refuted_bra : exists (ops : list (op QI)) b',
  run_ok ops (new_basis QI Base 0 2 1 false false) = Some b' /\ ~ size_ok b' F_bra.
Proof.
  exists [OSetH ex_h; OSetU ex_u; OSetBra (Some ex_spf); OChange ex_R None].
  destruct (run_ok_read [OSetH ex_h; OSetU ex_u; OSetBra (Some ex_spf); OChange ex_R None] fresh
              (fun b => (b_l b, option_map shape (b_arr b F_bra))) (3, Some [2; 3])) as (b' & E & G);
    [vm_compute; reflexivity|].
  exists b'. split; [exact E|]. injection G as Gl Gs. apply opt_map_some in Gs as (z & Ez & Sz).
  unfold size_ok. rewrite Ez, Sz, Gl. intros (g & Eg & _). discriminate Eg.
Qed.

Lemma not_antisym_diag (u : arr QI) n p : shape u = [n; n; n; n] -> p < n -> ten u p p p p = s1 -> ~ antisymmetric_array u.
Proof.
  intros S Hp Hu (n' & S' & A). rewrite S in S'. injection S' as ->.
  specialize (A p p p p Hp Hp Hp Hp). rewrite Hu in A. revert A. apply qi_eqb_neq. vm_compute. reflexivity.
Qed.
Lemma not_truthful (b : basis QI) u : b_asym b = true -> b_arr b F_u = Some u -> ~ antisymmetric_array u -> ~ flag_truthful b.
Proof. intros F E N T. apply N, (T F _ E). Qed.

Lemma flag_refuted : ~ (forall (K : scalar) (ops : list (op K)) c m l dim i,
  flag_truthful (run_any ops (new_basis K c m l dim i false))).
Proof.
  intros H. specialize (H QI [OSetU ex_u; OAntiSym; OSetU ex_u] Base 0 2 1 false).
  revert H. apply (not_truthful _ ex_u); [vm_compute; reflexivity | reflexivity |].
  apply (not_antisym_diag _ 2 0); [reflexivity | lia |]. apply qi_eqb_eq. vm_compute. reflexivity.
Qed.
Lemma flag_refuted_dvr : exists b' : basis QI,
  run_ok [OSetH ex_h; OSetU ex_h; OAntiSym; OChange (eye 2) None] (new_basis QI SincDVR 0 2 1 false false) = Some b' /\
  ~ flag_truthful b'.
Proof.
  destruct (run_ok_read [OSetH ex_h; OSetU ex_h; OAntiSym; OChange (eye 2) None] (new_basis QI SincDVR 0 2 1 false false)
              (fun b => (b_asym b, option_map (fun u => (shape u, qi_eqb (ten u 0 0 0 0) s1)) (b_arr b F_u)))
              (true, Some ([2; 2; 2; 2], true))) as (b' & E & G);
    [vm_compute; reflexivity|].
  exists b'. split; [exact E|]. injection G as Ga Gs. apply opt_map_some in Gs as (u & Eu & Su). injection Su as Su Hu.
  apply (not_truthful _ u Ga Eu), (not_antisym_diag _ 2 0 Su); [lia|]. apply qi_eqb_eq. exact Hu.
Qed.
Lemma flag_refuted_double : exists b' : basis QI,
  run_ok [OSetH ex_h; OSetS ex_s; OSetU ex_u; OAntiSym; ODouble None true] (new_basis QI Base 0 2 1 false false) = Some b' /\
  ~ flag_truthful b'.
Proof.
  destruct (run_ok_read [OSetH ex_h; OSetS ex_s; OSetU ex_u; OAntiSym; ODouble None true] fresh
              (fun b => (b_asym b, option_map (fun u => (shape u, qi_eqb (ten u 0 3 0 3) s1, qi_eqb (ten u 0 3 3 0) s0)) (b_arr b F_u)))
              (true, Some ([4; 4; 4; 4], true, true))) as (b' & E & G);
    [vm_compute; reflexivity|].
  exists b'. split; [exact E|]. injection G as Ga Gs. apply opt_map_some in Gs as (u & Eu & Su). injection Su as Su H1 H0.
  apply qi_eqb_eq in H1, H0.
  apply (not_truthful _ u Ga Eu). intros (n & S & A). rewrite Su in S. injection S as <-.
  specialize (A 0 3 0 3). rewrite H1, H0 in A. specialize (A ltac:(lia) ltac:(lia) ltac:(lia) ltac:(lia)).
  revert A. apply qi_eqb_neq. vm_compute. reflexivity.
Qed.

Lemma bra_refuted : ~ (forall (K : scalar) (ops : list (op K)) c m l dim i s,
  (forall x, ~ In (OSetBra x) ops) -> bra_follows (run_any ops (new_basis K c m l dim i s))).
Proof.
  intros H. specialize (H QI [OSetSpf (Some ex_spf); OReadBra; OSetSpf (Some (aconj ex_spf))] Base 0 2 1%nat false false).
  assert (H1 : forall x, ~ In (OSetBra x) [OSetSpf (Some ex_spf); OReadBra; OSetSpf (Some (aconj ex_spf))]).
  { intros x [E|[E|[E|[]]]]; discriminate. }
  specialize (H H1).
  assert (A : aeq (aconj ex_spf) (aconj (aconj ex_spf))) by exact H.
  destruct A as (_ & G). specialize (G [0; 1]%nat).
  assert (V : valid (shape (aconj ex_spf)) [0; 1]%nat) by (repeat constructor).
  specialize (G V). revert G. apply qi_eqb_neq. vm_compute. reflexivity.
Qed.

Lemma ex_history_safe : along resize_safe ex_history fresh /\
  exists b', run_ok ex_history fresh = Some b' /\ b_l b' = 4 /\
    option_map shape (b_arr b' F_spz) = Some [4; 4] /\ option_map shape (b_arr b' F_bra) = Some [4; 3].
Proof.
  split.
  - unfold ex_history, setup_ops. cbn [app]. repeat split.
    + left. reflexivity.
    + right. intros _. apply isset_neq. vm_compute. reflexivity.
    + left. vm_compute. reflexivity.
  - destruct (run_ok_read ex_history fresh (fun b => (b_l b, option_map shape (b_arr b F_spz), option_map shape (b_arr b F_bra)))
                (4, Some [4; 4], Some [4; 3])) as (b' & E & G); [vm_compute; reflexivity|].
    injection G as G1 G2 G3. exists b'. auto.
Qed.
Lemma ex_history_flag : along flag_safe ex_history fresh /\ b_asym (run_any ex_history fresh) = true.
Proof.
  split; [|vm_compute; reflexivity].
  unfold ex_history, setup_ops. cbn [app]. repeat split.
  - intros E. vm_compute in E. discriminate E.
  - right. split; [vm_compute; reflexivity|]. intros _ E. vm_compute in E. discriminate E.
Qed.
Lemma ex_history_bra : along bra_safe ex_history fresh /\
  option_map shape (b_arr (run_any ex_history fresh) F_bra) = Some [4; 3].
Proof.
  split; [|vm_compute; reflexivity].
  unfold ex_history, setup_ops. cbn [app]. repeat split.
  - exists 2, 2. split; [reflexivity | exact I].
  - exists 4, 4. split; [reflexivity | exact I].
Qed.
