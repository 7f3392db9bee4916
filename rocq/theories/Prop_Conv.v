(** Casting and module change: C66. *)
From Coq Require Import List Arith ZArith Lia Bool.
From Verif Require Import Scalar Py Numpy Spec BasisSet BasisSpec ConvProofs Ownership Examples.
Import ListNotations.

Theorem C66_cast_keeps_values : forall (K : scalar) (b : basis K), b_np b <> None ->
  exists b', cast_to_complex b = (Ok tt, b') /\ same_values b' b /\
    forall f a, In f [F_h; F_s; F_u; F_spf; F_bra; F_dip; F_spx; F_spy; F_spz; F_sp2; F_sp2tb] ->
      b_arr b' f = Some a -> dt a = Complex128.
Proof. exact cast_keeps_values. Qed.
Print Assumptions C66_cast_keeps_values.
Theorem C66_module_keeps_values : forall (K : scalar) (m : nat) (b : basis K),
  exists b', change_module m b = (Ok tt, b') /\ b_np b' = Some m /\ same_values (set_np (b_np b) b') b.
Proof. exact module_keeps_values. Qed.
Print Assumptions C66_module_keeps_values.
(** Every listed array belongs to the new module afterwards, except on a
    sinc-DVR basis with compact u, where the module is recorded and no array
    converted. *)
Theorem C66_arrays_move : forall (K : scalar) (m : nat) (o : owned K),
  exists o', own_change_module m o = (Ok tt, o') /\ change_module m (o_b o) = (Ok tt, o_b o') /\
    (~ (b_cls (o_b o) = SincDVR /\ u_repr (o_b o) = U2d) ->
       b_np (o_b o') = Some m /\
       forall f, In f [F_h; F_s; F_u; F_spf; F_bra; F_dip; F_spx; F_spy; F_spz; F_sp2; F_sp2tb] -> o_tag o' f = m) /\
    (b_cls (o_b o) = SincDVR -> u_repr (o_b o) = U2d ->
       b_np (o_b o') = Some m /\ forall f, o_tag o' f = o_tag o f).
Proof. exact own_change_module_erase. Qed.
Print Assumptions C66_arrays_move.
Definition C66_claim : Prop :=
  forall (K : scalar) (m : nat) (o o' : owned K) (f : field),
  own_change_module m o = (Ok tt, o') ->
  In f [F_h; F_s; F_u; F_spf; F_bra; F_dip; F_spx; F_spy; F_spz; F_sp2; F_sp2tb] ->
  b_arr (o_b o') f <> None -> o_tag o' f = m.
Definition ex_dvr_owned : owned QI :=
  Owned (Basis SincDVR (Some 0) 2 1 (upd F_u (Some ex_h) ex_arr) s0 false false) (fun _ => 0).
Theorem C66_refuted : ~ C66_claim.
Proof.
  intros H.
  destruct (C66_arrays_move QI 1 ex_dvr_owned) as (o' & E & E' & _ & S).
  destruct (S eq_refl eq_refl) as [_ T].
  specialize (H QI 1 ex_dvr_owned o' F_h E ltac:(cbn; tauto)). rewrite T in H. discriminate H.
  injection E' as <-. discriminate.
Qed.
Print Assumptions C66_refuted.
Example C66_instance : b_np ex_basis <> None /\ dt ex_dip = Float64 /\ b_arr ex_basis F_dip = Some ex_dip /\
  ~ (b_cls (o_b (Owned ex_basis (fun _ => 0))) = SincDVR /\ u_repr (o_b (Owned ex_basis (fun _ => 0))) = U2d).
Proof. split; [discriminate|]. split; [reflexivity|]. split; [reflexivity|]. intros [H _]. discriminate H. Qed.
