(** Properties of basis changes: C01-C06, C08, C67, C69. *)
From Coq Require Import List Arith ZArith Lia Bool.
From Verif Require Import Scalar Py Numpy Spec BasisSet BasisSpec ChangeProofs Examples.
Import ListNotations.

(** C01: transform_one_body_elements computes sum_ab Ct[p,a] h[a,b] C[b,q]
    for every size and rectangular C, Ct (default: conjugate transpose). *)
Theorem C01_one_body_formula : forall (K : scalar) (h C : arr K) (Ct : option (arr K)) (l k k' : nat),
  shape h = [l; l] -> shape C = [l; k] -> tilde_shape C Ct k' l ->
  exists r, transform_one_body h C Ct = Ok r /\ shape r = [k'; k] /\
    forall p q, p < k' -> q < k -> mat r p q = T1 l (mat h) (mat C) (tilde C Ct) p q.
Proof. exact one_body_formula. Qed.
Print Assumptions C01_one_body_formula.
Example C01_instance : shape ex_h = [2; 2] /\ shape ex_R = [2; 3] /\ tilde_shape ex_R None 3 2 /\
  exists r, transform_one_body ex_h ex_R None = Ok r /\ mat r 2 1 <> mat ex_h 0 0.
Proof. repeat split. eexists. split; [apply the_ok_spec; vm_compute; reflexivity|]. qi. Qed.

(** C01, the other half: incompatible shapes raise ValueError. *)
Theorem C01_one_body_mismatch : forall (K : scalar) (h C : arr K) (Ct : option (arr K)) (l n k k' n' : nat),
  shape h = [l; l] -> shape C = [n; k] ->
  match Ct with None => k' = k /\ n' = n | Some D => shape D = [k'; n'] end ->
  n <> l \/ n' <> l -> transform_one_body h C Ct = Err ValueError.
Proof. exact one_body_mismatch. Qed.
Print Assumptions C01_one_body_mismatch.
Example C01_mismatch_instance : transform_one_body ex_h (eye 3) None = Err ValueError.
Proof. reflexivity. Qed.

(** C02: transform_two_body_elements computes
    sum_abcd Ct[p,a] Ct[q,b] u[a,b,c,d] C[c,r] C[d,s]. *)
Theorem C02_two_body_formula : forall (K : scalar) (u C : arr K) (Ct : option (arr K)) (l k : nat),
  shape u = [l; l; l; l] -> shape C = [l; k] -> tilde_shape C Ct k l ->
  exists r, transform_two_body_base u C Ct = Ok r /\ shape r = [k; k; k; k] /\
    forall p q r' s, p < k -> q < k -> r' < k -> s < k ->
      ten r p q r' s = T2 l (ten u) (mat C) (tilde C Ct) p q r' s.
Proof. exact two_body_formula. Qed.
Print Assumptions C02_two_body_formula.
Example C02_instance : shape ex_u = [2; 2; 2; 2] /\ tilde_shape ex_R None 3 2 /\
  T2 2 (ten ex_u) (mat ex_R) (tilde ex_R None) 0 1 2 1 <> T2 2 (ten ex_u) (mat ex_R) (tilde ex_R None) 1 0 2 1.
Proof. repeat split. qi. Qed.

(** C03: two basis changes equal one change by the product.  [same_values]
    compares l, flags and every array element a user can read. *)
Theorem C03_basis_changes_compose :
  forall (K : scalar) (C1 D1 C2 D2 C3 D3 : arr K) (b : basis K) (l k m : nat),
  shape C1 = [l; k] -> shape D1 = [k; l] -> shape C2 = [k; m] -> shape D2 = [m; k] ->
  shape C3 = [l; m] -> shape D3 = [m; l] ->
  (forall a q, a < l -> q < m -> mat C3 a q = mmul k (mat C1) (mat C2) a q) ->
  (forall p a, p < m -> a < l -> mat D3 p a = mmul k (mat D2) (mat D1) p a) ->
  ready b l -> spin_mats_ok b l k -> (b_arr b F_spf = None -> b_arr b F_bra = None) ->
  exists b1 b2 b3,
    change_basis C1 (Some D1) b = (Ok tt, b1) /\ change_basis C2 (Some D2) b1 = (Ok tt, b2) /\
    change_basis C3 (Some D3) b = (Ok tt, b3) /\ same_values b2 b3.
Proof. exact compose_default. Qed.
Print Assumptions C03_basis_changes_compose.
Example C03_instance : ready ex_basis 2 /\ spin_mats_ok ex_basis 2 3 /\
  (b_arr ex_basis F_spf = None -> b_arr ex_basis F_bra = None) /\ shape ex_R = [2; 3] /\
  spin_mats_ok ex_gos 4 4.
Proof.
  split; [exact ex_ready|]. split; [right; intros f H; cbn in H; destruct H as [<-|[<-|[<-|[<-|[]]]]]; reflexivity|].
  split; [discriminate|]. split; [reflexivity|]. left. reflexivity.
Qed.

(** C04: a change of basis by C is undone by its inverse. *)
Theorem C04_inverse_round_trip : forall (K : scalar) (C D : arr K) (b : basis K) (l k : nat),
  shape C = [l; k] -> shape D = [k; l] ->
  (forall a q, a < l -> q < l -> mmul k (mat C) (mat D) a q = delta a q) ->
  ready b l -> spin_mats_ok b l k -> (b_arr b F_spf = None -> b_arr b F_bra = None) ->
  exists b1 b2, change_basis C (Some D) b = (Ok tt, b1) /\ change_basis D (Some C) b1 = (Ok tt, b2) /\
    same_values b2 b.
Proof. exact inverse_round_trip. Qed.
Print Assumptions C04_inverse_round_trip.
Example C04_instance :
  forall a q, a < 2 -> q < 2 -> mmul 2 (mat ex_C) (mat ex_Cinv) a q = delta a q.
Proof. intros [|[|a]] [|[|q]] Ha Hq; try lia; qi. Qed.

(** C05: with the default C_tilde, Hermitian elements stay Hermitian, the
    two-body symmetries survive, and a unitary-column C keeps s = 1. *)
Theorem C05_hermiticity_preserved : forall (K : scalar) (C : arr K) (b : basis K) (l k : nat),
  shape C = [l; k] -> ready b l ->
  exists b', change_basis C None b = (Ok tt, b') /\
    (arr_sat (b_arr b F_h) (fun h => hermitian l (mat h)) ->
     arr_sat (b_arr b' F_h) (fun h => hermitian k (mat h))) /\
    (arr_sat (b_arr b F_s) (fun s => hermitian l (mat s)) ->
     arr_sat (b_arr b' F_s) (fun s => hermitian k (mat s))) /\
    (arr_sat (b_arr b F_dip) (fun d => forall i, i < b_dim b -> hermitian l (fun p q => get d [i; p; q])) ->
     arr_sat (b_arr b' F_dip) (fun d => forall i, i < b_dim b -> hermitian k (fun p q => get d [i; p; q]))) /\
    (arr_sat (b_arr b F_u) (fun u => particle_sym l (ten u)) ->
     arr_sat (b_arr b' F_u) (fun u => particle_sym k (ten u))) /\
    (arr_sat (b_arr b F_u) (fun u => hermitian2 l (ten u)) ->
     arr_sat (b_arr b' F_u) (fun u => hermitian2 k (ten u))) /\
    (arr_sat (b_arr b F_s) (fun s => forall p q, p < l -> q < l -> mat s p q = delta p q) ->
     (forall p q, p < k -> q < k -> mmul l (adj (mat C)) (mat C) p q = delta p q) ->
     arr_sat (b_arr b' F_s) (fun s => forall p q, p < k -> q < k -> mat s p q = delta p q)).
Proof. exact hermiticity_preserved. Qed.
Print Assumptions C05_hermiticity_preserved.
Example C05_instance : ready ex_basis 2 /\ hermitian 2 (mat ex_h) /\ hermitian2 2 (ten ex_u) /\
  particle_sym 2 (ten ex_u) /\ (forall p q, p < 1 -> q < 1 -> mmul 2 (adj (mat ex_col)) (mat ex_col) p q = delta p q).
Proof.
  split; [exact ex_ready|]. split; [|split; [|split]].
  - intros [|[|p]] [|[|q]] Hp Hq; try lia; qi.
  - intros [|[|p]] [|[|q]] [|[|r]] [|[|s]] Hp Hq Hr Hs; try lia; qi.
  - intros [|[|p]] [|[|q]] [|[|r]] [|[|s]] Hp Hq Hr Hs; try lia; qi.
  - intros [|p] [|q] Hp Hq; try lia; qi.
Qed.

(** C06 fails: the claim that the spin matrices follow a basis change. *)
Definition C06_claim : Prop :=
  forall (K : scalar) (b : basis K) (C : arr K) (l k : nat) (b' : basis K) (f : field) (S S' : arr K),
  ready b l -> b_spin b = true -> shape C = [l; k] -> change_basis C None b = (Ok tt, b') ->
  In f [F_spx; F_spy; F_spz; F_sp2] -> b_arr b f = Some S -> b_arr b' f = Some S' ->
  shape S' = [k; k] /\
  forall p q, p < k -> q < k -> mat S' p q = T1 l (mat S) (mat C) (adj (mat C)) p q.
Theorem C06_refuted : ~ C06_claim.
Proof.
  intros H.
  destruct (spin_matrices_untouched QI ex_flip (dagger ex_flip) ex_gos 4 4) as (b' & E & _ & Same);
    [reflexivity | reflexivity | exact ex_gos_ready |].
  destruct (H QI ex_gos ex_flip 4 4 b' F_spz (the (b_arr ex_gos F_spz)) (the (b_arr ex_gos F_spz))) as [_ G].
  - exact ex_gos_ready.
  - vm_compute. reflexivity.
  - reflexivity.
  - rewrite change_basis_default. exact E.
  - cbn. tauto.
  - apply the_some. vm_compute. reflexivity.
  - rewrite Same by (cbn; tauto). apply the_some. vm_compute. reflexivity.
  - specialize (G 0 0 ltac:(lia) ltac:(lia)). revert G. apply qi_eqb_neq. vm_compute. reflexivity.
Qed.
Print Assumptions C06_refuted.
(** What happens instead, for every basis and every C: the four matrices keep
    their old values and size while l becomes k; only spin_2_tb follows. *)
Theorem C06_spin_matrices_untouched : forall (K : scalar) (C D : arr K) (b : basis K) (l k : nat),
  shape C = [l; k] -> shape D = [k; l] -> ready b l ->
  exists b', change_basis C (Some D) b = (Ok tt, b') /\ b_l b' = k /\
    forall f, In f [F_spx; F_spy; F_spz; F_sp2] -> b_arr b' f = b_arr b f.
Proof. exact spin_matrices_untouched. Qed.
Print Assumptions C06_spin_matrices_untouched.
Theorem C06_spin_2_tb_follows : forall (K : scalar) (C D : arr K) (b : basis K) (l k : nat) (t : arr K),
  shape C = [l; k] -> shape D = [k; l] -> ready b l -> b_arr b F_sp2tb = Some t ->
  exists b' t', change_basis C (Some D) b = (Ok tt, b') /\ b_arr b' F_sp2tb = Some t' /\
    shape t' = [k; k; k; k] /\
    forall p q r s, p < k -> q < k -> r < k -> s < k -> ten t' p q r s = T2 l (ten t) (mat C) (mat D) p q r s.
Proof. exact spin_2_tb_transformed. Qed.
Print Assumptions C06_spin_2_tb_follows.
Example C06_instance : ready ex_gos 4 /\ exists t, b_arr ex_gos F_sp2tb = Some t.
Proof. split; [exact ex_gos_ready|]. eexists. apply the_some. vm_compute. reflexivity. Qed.

(** C08 fails: a rejected change_basis does not leave the object as it was. *)
Definition C08_claim : Prop :=
  forall (K : scalar) (b : basis K) (C : arr K) (Ct : option (arr K)) (l : nat) (e : exn) (b' : basis K),
  ready b l -> change_basis C Ct b = (Err e, b') -> b_l b' = b_l b.
Theorem C08_refuted : ~ C08_claim.
Proof.
  intros H.
  destruct (change_basis_rejected QI (eye 3) (eye 3) ex_basis 2 3 3 3 3) as (e & E & _);
    [exact ex_ready | reflexivity | reflexivity | lia |].
  specialize (H QI ex_basis (eye 3) (Some (eye 3)) 2 e _ ex_ready E). discriminate H.
Qed.
Print Assumptions C08_refuted.
(** Exactly what is left behind, for every basis and all matrices C, Ct of
    unsuitable shape: l is overwritten by C.shape[1], nothing else. *)
Theorem C08_state_after_rejection : forall (K : scalar) (C D : arr K) (b : basis K) (l n k k' n' : nat),
  ready b l -> shape C = [n; k] -> shape D = [k'; n'] -> ~ (n = l /\ n' = l /\ k' = k) ->
  exists e, change_basis C (Some D) b = (Err e, set_l k b) /\ (e = ValueError \/ e = AssertionError).
Proof. exact change_basis_rejected. Qed.
Print Assumptions C08_state_after_rejection.
Example C08_instance : ready ex_basis 2 /\ shape (eye (K:=QI) 3) = [3; 3] /\ ~ (3 = 2 /\ 3 = 2 /\ 3 = 3).
Proof. split; [exact ex_ready|]. split; [reflexivity | lia]. Qed.

(** C67: get_transformed_h / get_transformed_u preview change_basis and do not
    modify the object. *)
Theorem C67_previews : forall (K : scalar) (C : arr K) (b : basis K) (l k : nat),
  shape C = [l; k] -> ready b l ->
  exists h1 u1 b' h2 u2,
    get_transformed_h C b = (Ok h1, b) /\ get_transformed_u C b = (Ok u1, b) /\
    change_basis C None b = (Ok tt, b') /\
    b_arr b' F_h = Some h2 /\ b_arr b' F_u = Some u2 /\ aeq h1 h2 /\ aeq u1 u2.
Proof. exact previews. Qed.
Print Assumptions C67_previews.
Example C67_instance : shape ex_R = [2; 3] /\ ready ex_basis 2.
Proof. split; [reflexivity | exact ex_ready]. Qed.

(** C69 fails: after a rectangular change of a basis with spin matrices, every
    further change raises ValueError and leaves h in the newest basis, u in
    the previous one. *)
Theorem C69_refuted_second_rectangular_change :
  forall (K : scalar) (C1 D1 C2 D2 : arr K) (b : basis K) (l k m : nat) (sx : arr K),
  ready b l -> shape C1 = [l; k] -> shape D1 = [k; l] -> shape C2 = [k; m] -> shape D2 = [m; k] -> l <> k ->
  b_arr b F_spx = Some sx ->
  exists b1 b2, change_basis C1 (Some D1) b = (Ok tt, b1) /\ change_basis C2 (Some D2) b1 = (Err ValueError, b2) /\
    b_l b2 = m /\ arr_sat (b_arr b2 F_h) (fun h => shape h = [m; m]) /\
    arr_sat (b_arr b2 F_u) (fun u => shape u = [k; k; k; k]).
Proof. exact second_rectangular_change. Qed.
Print Assumptions C69_refuted_second_rectangular_change.
Example C69_instance : ready ex_gos 4 /\ shape ex_cut = [4; 3] /\ shape (dagger ex_cut) = [3; 4] /\
  exists sx, b_arr ex_gos F_spx = Some sx.
Proof. split; [exact ex_gos_ready|]. repeat split. eexists. apply the_some. vm_compute. reflexivity. Qed.
