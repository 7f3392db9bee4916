(** Reference energies and Fock matrices of the model against the formulas. *)
From Coq Require Import List Arith ZArith Lia Bool.
From Verif Require Import Scalar Py Numpy Spec NumpyFacts BasisSet Systems EnergySpec.
Import ListNotations.

Section EnergyFacts.
  Variable K : scalar.
  Add Ring Kring : (s_ring K).
  Local Open Scope K_scope.
  Local Open Scope nat_scope.
  Notation arr := (arr K).
  Implicit Types (h u f a : arr).

  Definition occ (N : nat) : pyslice := PySlice 0 (Z.of_nat N).
  Lemma occ_first N l : sl_first l (occ N) = 0.
  Proof. unfold sl_first, occ, sl_clip. cbn. lia. Qed.
  Lemma occ_count N l : N <= l -> sl_count l (occ N) = N.
  Proof.
    intros H. unfold sl_count. rewrite occ_first. unfold occ, sl_clip. cbn.
    destruct (Z.ltb_spec (Z.of_nat N) 0); lia.
  Qed.

  Lemma slice_hoo N h l : shape h = [l; l] -> N <= l ->
    exists r, slice [Some (occ N); Some (occ N)] h = Ok r /\ shape r = [N; N] /\ dt r = dt h /\
      forall p q, mat r p q = mat h p q.
  Proof.
    intros S H. unfold slice. rewrite S. cbn [slice_shape rbind]. rewrite occ_count by exact H.
    eexists. split; [reflexivity|]. cbn [shape dt]. split; [reflexivity|]. split; [reflexivity|].
    intros p q. unfold mat. cbn [get slice_index]. rewrite occ_first. reflexivity.
  Qed.
  Lemma slice_uoooo N u l : shape u = [l; l; l; l] -> N <= l ->
    exists r, slice [Some (occ N); Some (occ N); Some (occ N); Some (occ N)] u = Ok r /\
      shape r = [N; N; N; N] /\ dt r = dt u /\ forall p q r' s, ten r p q r' s = ten u p q r' s.
  Proof.
    intros S H. unfold slice. rewrite S. cbn [slice_shape rbind]. rewrite occ_count by exact H.
    eexists. split; [reflexivity|]. cbn [shape dt]. split; [reflexivity|]. split; [reflexivity|].
    intros p q r s. unfold ten. cbn [get slice_index]. rewrite occ_first. reflexivity.
  Qed.
  Lemma slice_direct N u l : shape u = [l; l; l; l] -> N <= l ->
    exists r, slice [None; Some (occ N); None; Some (occ N)] u = Ok r /\
      shape r = [l; N; l; N] /\ dt r = dt u /\ forall p q r' s, ten r p q r' s = ten u p q r' s.
  Proof.
    intros S H. unfold slice. rewrite S. cbn [slice_shape rbind]. rewrite occ_count by exact H.
    eexists. split; [reflexivity|]. cbn [shape dt]. split; [reflexivity|]. split; [reflexivity|].
    intros p q r s. unfold ten. cbn [get slice_index]. rewrite occ_first. reflexivity.
  Qed.
  Lemma slice_exchange N u l : shape u = [l; l; l; l] -> N <= l ->
    exists r, slice [None; Some (occ N); Some (occ N); None] u = Ok r /\
      shape r = [l; N; N; l] /\ dt r = dt u /\ forall p q r' s, ten r p q r' s = ten u p q r' s.
  Proof.
    intros S H. unfold slice. rewrite S. cbn [slice_shape rbind]. rewrite occ_count by exact H.
    eexists. split; [reflexivity|]. cbn [shape dt]. split; [reflexivity|]. split; [reflexivity|].
    intros p q r s. unfold ten. cbn [get slice_index]. rewrite occ_first. reflexivity.
  Qed.

  Lemma trace_num_ok a n : shape a = [n; n] -> trace_num a = Ok (sumn n (fun i => mat a i i)).
  Proof.
    intros S. unfold trace_num, trace. rewrite S. cbn [nth_error rbind shape remove_at firstn skipn app].
    unfold remove_at, insert_at. cbn. rewrite Nat.min_id. reflexivity.
  Qed.
  Lemma trace13_ok u n : shape u = [n; n; n; n] ->
    exists t, trace 1 3 u = Ok t /\ shape t = [n; n] /\ forall p q, mat t p q = sumn n (fun j => ten u p j q j).
  Proof.
    intros S. unfold trace. rewrite S. cbn [nth_error]. eexists. split; [reflexivity|].
    unfold remove_at, insert_at. cbn. rewrite Nat.min_id. split; [reflexivity|]. reflexivity.
  Qed.
  Lemma trace12_ok u n : shape u = [n; n; n; n] ->
    exists t, trace 1 2 u = Ok t /\ shape t = [n; n] /\ forall p q, mat t p q = sumn n (fun j => ten u p j j q).
  Proof.
    intros S. unfold trace. rewrite S. cbn [nth_error]. eexists. split; [reflexivity|].
    unfold remove_at, insert_at. cbn. rewrite Nat.min_id. split; [reflexivity|]. reflexivity.
  Qed.

  Lemma energy_general_ok N h u l : shape h = [l; l] -> shape u = [l; l; l; l] -> N <= l ->
    energy_general (occ N) h u = Ok (E_general N (mat h) (ten u)).
  Proof.
    intros Sh Su H. unfold energy_general.
    destruct (slice_hoo N h l Sh H) as (r & -> & Sr & _ & Gr). cbn [rbind].
    rewrite (trace_num_ok r N Sr). cbn [rbind].
    destruct (slice_uoooo N u l Su H) as (w & -> & Sw & _ & Gw). cbn [rbind].
    destruct (trace13_ok w N Sw) as (t & -> & St & Gt). cbn [rbind].
    rewrite (trace_num_ok t N St). cbn [rbind]. f_equal. unfold E_general. f_equal.
    - apply sumn_ext. intros. apply Gr.
    - f_equal. apply sumn_ext; intros i _. rewrite Gt. apply sumn_ext; intros j _. apply Gw.
  Qed.
  Lemma energy_spatial_ok N h u l : shape h = [l; l] -> shape u = [l; l; l; l] -> N <= l ->
    energy_spatial (occ N) h u = Ok (E_restricted N (mat h) (ten u)).
  Proof.
    intros Sh Su H. unfold energy_spatial.
    destruct (slice_hoo N h l Sh H) as (r & -> & Sr & _ & Gr). cbn [rbind].
    rewrite (trace_num_ok r N Sr). cbn [rbind].
    destruct (slice_uoooo N u l Su H) as (w & -> & Sw & _ & Gw). cbn [rbind].
    destruct (trace13_ok w N Sw) as (t & -> & St & Gt). cbn [rbind].
    rewrite (trace_num_ok t N St). cbn [rbind].
    destruct (trace12_ok w N Sw) as (t' & -> & St' & Gt'). cbn [rbind].
    rewrite (trace_num_ok t' N St'). cbn [rbind]. f_equal. unfold E_restricted.
    rewrite (sumn_ext K N (fun i => mat r i i) (fun i => mat h i i)) by (intros; apply Gr).
    rewrite (sumn_ext K N (fun i => sumn N (fun j => (1 + 1) * ten u i j i j - ten u i j j i))%K
               (fun i => (1 + 1) * mat t i i - mat t' i i)%K).
    - rewrite sumn_sub, <- sumn_mul_l. ring.
    - intros i _. rewrite sumn_sub, <- sumn_mul_l, Gt, Gt'. f_equal; [f_equal|]; apply sumn_ext; intros; rewrite Gw; reflexivity.
  Qed.

  (** The buffer must have h's shape and absorb h and u. *)
  Definition buffer_ok (b : buffer K) h u : Prop :=
    match b with
    | NoBuffer => castable (dt u) (dt h) = true
    | Buffer f => shape f = shape h /\ castable (dt h) (dt f) = true /\ castable (dt u) (dt f) = true
    | SameAsH => False
    end.
  Lemma fock_init (b : buffer K) h u : buffer_ok b h u ->
    exists d, castable (dt u) d = true /\ fst (fock_start h b) = zeros (shape h) d /\ snd (fock_start h b) = h /\
      castable (dt h) d = true.
  Proof.
    destruct b as [|f|]; cbn; intros H; [|destruct H as (H1 & H2 & H3)|contradiction].
    - exists (dt h). split; [exact H|]. split; [reflexivity|]. split; [reflexivity|]. destruct (dt h); reflexivity.
    - exists (dt f). unfold zeros_like. rewrite H1. auto.
  Qed.
  Lemma einsum_piqi_ok a l N : shape a = [l; N; l; N] ->
    exists e, einsum_piqi a = Ok e /\ shape e = [l; l] /\ dt e = dt a /\ forall p q, mat e p q = sumn N (fun k => ten a p k q k).
  Proof.
    intros S. unfold einsum_piqi. rewrite S, Nat.eqb_refl. eexists. split; [reflexivity|]. cbn. auto.
  Qed.
  Lemma einsum_piiq_ok a l N : shape a = [l; N; N; l] ->
    exists e, einsum_piiq a = Ok e /\ shape e = [l; l] /\ dt e = dt a /\ forall p q, mat e p q = sumn N (fun k => ten a p k k q).
  Proof.
    intros S. unfold einsum_piiq. rewrite S, Nat.eqb_refl. eexists. split; [reflexivity|]. cbn. auto.
  Qed.
  Lemma inplace_mat g a (b : arr) l d : shape a = [l; l] -> shape b = [l; l] -> dt a = d -> castable (dt b) d = true ->
    exists c, inplace g a b = Ok c /\ shape c = [l; l] /\ dt c = d /\
      forall p q, p < l -> q < l -> mat c p q = g (mat a p q) (mat b p q).
  Proof.
    intros Sa Sb Da Db. destruct (inplace_same K g a b) as (c & E & Sc & Dc & Gc); [congruence | congruence |].
    exists c. split; [exact E|]. split; [congruence|]. split; [congruence|].
    intros p q Hp Hq. unfold mat. apply Gc. rewrite Sa. repeat constructor; assumption.
  Qed.

  Lemma fock_general_ok N h u b l : shape h = [l; l] -> shape u = [l; l; l; l] -> N <= l -> buffer_ok b h u ->
    exists f, fock_general (occ N) h u b = Ok f /\ shape f = [l; l] /\
      forall p q, p < l -> q < l -> mat f p q = F_general N (mat h) (ten u) p q.
  Proof.
    intros Sh Su H Hb. destruct (fock_init b h u Hb) as (d & Hd & E1 & E2 & Hhd).
    unfold fock_general, iadd. destruct (fock_start h b) as [f0 h0]. cbn in E1, E2. subst f0 h0. rewrite Sh.
    destruct (inplace_mat sadd (zeros [l; l] d) h l d) as (f1 & -> & S1 & D1 & G1); auto. cbn [rbind].
    destruct (slice_direct N u l Su H) as (w & -> & Sw & Dw & Gw). cbn [rbind].
    destruct (einsum_piqi_ok w l N Sw) as (e & -> & Se & De & Ge). cbn [rbind].
    destruct (inplace_mat sadd f1 e l d) as (f2 & -> & S2 & D2 & G2); auto; [congruence|].
    exists f2. split; [reflexivity|]. split; [exact S2|]. intros p q Hp Hq.
    rewrite G2, G1, Ge by assumption. unfold F_general. cbn [mat zeros get].
    rewrite (sumn_ext K N _ (fun i => ten u p i q i)) by (intros; apply Gw). ring.
  Qed.
  Lemma fock_spatial_ok N h u b l : shape h = [l; l] -> shape u = [l; l; l; l] -> N <= l -> buffer_ok b h u ->
    exists f, fock_spatial (occ N) h u b = Ok f /\ shape f = [l; l] /\
      forall p q, p < l -> q < l -> mat f p q = F_restricted N (mat h) (ten u) p q.
  Proof.
    intros Sh Su H Hb. destruct (fock_init b h u Hb) as (d & Hd & E1 & E2 & Hhd).
    unfold fock_spatial, iadd, isub. destruct (fock_start h b) as [f0 h0]. cbn in E1, E2. subst f0 h0. rewrite Sh.
    destruct (inplace_mat sadd (zeros [l; l] d) h l d) as (f1 & -> & S1 & D1 & G1); auto. cbn [rbind].
    destruct (slice_direct N u l Su H) as (w & -> & Sw & Dw & Gw). cbn [rbind].
    destruct (einsum_piqi_ok w l N Sw) as (e & -> & Se & De & Ge). cbn [rbind].
    destruct (inplace_mat sadd f1 (scale Int64 (1 + 1)%K e) l d) as (f2 & -> & S2 & D2 & G2); auto.
    { cbn. rewrite De, Dw. destruct (dt u); exact Hd. }
    cbn [rbind].
    destruct (slice_exchange N u l Su H) as (w' & -> & Sw' & Dw' & Gw'). cbn [rbind].
    destruct (einsum_piiq_ok w' l N Sw') as (e' & -> & Se' & De' & Ge'). cbn [rbind].
    destruct (inplace_mat ssub f2 e' l d) as (f3 & E3 & S3 & D3 & G3); auto; [congruence|].
    exists f3. split; [exact E3|]. split; [exact S3|]. intros p q Hp Hq.
    rewrite G3, G2, G1, Ge' by assumption. unfold F_restricted.
    change (mat (scale Int64 (1 + 1)%K e) p q) with ((1 + 1) * mat e p q)%K. rewrite Ge. cbn [mat zeros get].
    rewrite sumn_sub, <- sumn_mul_l.
    rewrite (sumn_ext K N _ (fun i => ten u p i q i)) by (intros; apply Gw).
    rewrite (sumn_ext K N (fun k => ten w' p k k q) (fun i => ten u p i i q)) by (intros; apply Gw'). ring.
  Qed.
End EnergyFacts.
Arguments buffer_ok {K}.
