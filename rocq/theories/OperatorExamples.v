(** Concrete operators: witnesses for the refutations of C36, C38, C39, C68 and
    instances of the hypotheses of the theorems that hold. *)
From Coq Require Import List Arith ZArith Lia Bool.
From Verif Require Import Scalar Py Numpy Spec BasisSet BasisSpec Examples Histories Systems SystemFacts SystemProofs Worlds WorldProofs
  SystemExamples OperatorSpec OperatorProofs OperatorProofs2 OperatorProofs3.
Import ListNotations.

(** A number, a pulse E(t) = 2 t, and a polarization. *)
Definition num (z : Z) : arr QI := Arr [] Float64 (fun _ => qz z 0).
Definition ex_pulse : pyval QI := Fun (fun t => Arr [] Float64 (fun _ => smul (qz 2 0) t)).
Lemma ex_pulse_number : number_of [] ex_pulse (fun t => smul (qz 2 0) t).
Proof. intros t. eexists. split; [reflexivity|]. split; reflexivity. Qed.
Lemma num_number z : number_of [] (Val (num z)) (fun _ => qz z 0).
Proof. intros t. eexists. split; [reflexivity|]. split; reflexivity. Qed.

(** The example basis with a second dipole component. *)
Definition ex_dip2 : arr QI :=
  Arr [2; 2; 2]%nat Float64
    (fun idx => match idx with [_; p; q] => if (p =? q)%nat then s0 else qz 3 0 | _ => s0 end).
Definition ex_basis_2d : basis QI := Basis Base (Some 0) 2 2
  (fun f => match f with F_h => Some ex_h | F_s => Some ex_s | F_u => Some ex_u | F_dip => Some ex_dip2 | _ => None end) s0 false false.
Definition lone (i : nat) (o : option nat) : system := System Spatial i (Some 0) 1 2 1 (PySlice 0 1) (PySlice 1 2) o.

(** C36 *)
Definition laser_claim : Prop :=
  forall (K : scalar) (w : world K) s o x b l dim (h u d : arr K) (pulse : pyval K) (pol : option (pyval K)) E eps y,
  nth_error (w_sy w) s = Some x -> sy_np x <> None ->
  nth_error (w_bs w) (sy_bs x) = Some b -> b_arr b F_h = Some h -> b_arr b F_u = Some u -> b_arr b F_dip = Some d ->
  shape h = [l; l] -> shape u = [l; l; l; l] -> shape d = [dim; l; l] -> 0 < dim ->
  nth_error (w_op w) o = Some (Tevo (laser_field pulse pol) y) ->
  number_of [] pulse E -> polarization_of [] pol dim eps ->
  exists w1, set_time_evolution_operator s (Some o) w = (Ok tt, w1) /\
  forall ops t, Forall reads ops -> exists ht w2,
    sys_h_t s t (wrun_any ops w1) = (Ok (Some ht), w2) /\ shape ht = [l; l] /\
    forall p q, p < l -> q < l -> mat ht p q = sadd (mat h p q) (smul (E t) (sumn dim (fun i => smul (eps t i) (get d [i; p; q])))).
Definition const_w : world QI := World [ex_basis] [lone 0 None] [Tevo (laser_field (Val (num 2)) None) None].
Lemma laser_refuted : ~ laser_claim.
Proof.
  intros H.
  destruct (H QI const_w 0 0 (lone 0 None) ex_basis 2 1 ex_h ex_u ex_dip (Val (num 2)) None (fun _ => qz 2 0) (fun _ i => delta i 0) None)
    as (w1 & E1 & H1); try reflexivity; try discriminate; try apply num_number; [lia | intros t i _; reflexivity |].
  destruct (H1 [] s0 (Forall_nil _)) as (ht & w2 & E2 & _ & G). cbn [wrun_any] in E2.
  assert (W1 : w1 = World [ex_basis] [lone 0 (Some 0)] [Tevo (laser_field (Val (num 2)) None) (Some 0)]).
  { unfold set_time_evolution_operator, bind in E1. cbn in E1. injection E1 as <-. reflexivity. }
  subst w1.
  destruct (laser_constants QI (World [ex_basis] [lone 0 (Some 0)] [Tevo (laser_field (Val (num 2)) None) (Some 0)]) 0 0
     (lone 0 (Some 0)) ex_basis 2 ex_h ex_dip (num 2) None (Some 0) s0 s1) as (r & w' & E3 & _ & G'); try reflexivity; try discriminate.
  rewrite E3 in E2. injection E2 as -> _.
  specialize (G 0 1 ltac:(lia) ltac:(lia)). rewrite (G' 0 1) in G by lia. revert G. apply qi_eqb_neq. vm_compute. reflexivity.
Qed.
Definition callable_w : world QI := World [ex_basis] [lone 0 None] [Tevo (laser_field ex_pulse None) None].

(** C38 *)
Definition covariance_claim : Prop :=
  forall (K : scalar) (s : nat) (w : world K) k N l n x b (C : arr K) Ct (h u : arr K) d M t,
  sys_at w s k N l x b -> evolving w s l x h u d M -> shape C = [l; n] -> tilde_shape C Ct n l -> N <= n ->
  exists ht w0 w1 ht1 w2,
    sys_h_t s t w = (Ok (Some ht), w0) /\ sys_change_basis s C Ct w = (Ok tt, w1) /\ sys_h_t s t w1 = (Ok (Some ht1), w2) /\
    forall p q, p < n -> q < n -> mat ht1 p q = T1 l (mat ht) (mat C) (tilde C Ct) p q.
Definition custom_w : world QI := World [ex_basis] [lone 0 (Some 0)] [Tevo (custom_one_body (Val (num 1)) ex_h) (Some 0)].
Lemma custom_at : sys_at custom_w 0 Spatial 1 2 (lone 0 (Some 0)) ex_basis.
Proof. constructor; try reflexivity; [exists 0; reflexivity | lia | exact ex_ready]. Qed.
Lemma custom_evolving : evolving custom_w 0 2 (lone 0 (Some 0)) ex_h ex_u (Some ex_dip) (MCustom (fun _ => qz 1 0) ex_h).
Proof.
  constructor; try reflexivity; [discriminate|]. exists 0. eexists. exists ex_basis. split; [reflexivity|]. split; [reflexivity|].
  repeat (split; [reflexivity|]). split; [apply num_number | split; reflexivity].
Qed.
Lemma covariance_refuted : ~ covariance_claim.
Proof.
  intros H.
  destruct (H QI 0 custom_w Spatial 1 2 2 (lone 0 (Some 0)) ex_basis ex_X None ex_h ex_u _ _ s0 custom_at custom_evolving eq_refl eq_refl ltac:(lia))
    as (ht & w0 & w1 & ht1 & w2 & E0 & E1 & E2 & G).
  destruct (custom_not_covariant QI 0 custom_w Spatial 1 2 (lone 0 (Some 0)) ex_basis ex_X None ex_h ex_u _ _ _ s0 custom_at custom_evolving eq_refl eq_refl)
    as (w1' & ht1' & w2' & E1' & E2' & _ & G').
  rewrite E1' in E1. injection E1 as <-. rewrite E2' in E2. injection E2 as -> _.
  destruct (h_t_ok QI custom_w 0 2 _ _ _ _ _ s0 custom_evolving) as (r & w' & E3 & _ & G3 & _). rewrite E3 in E0. injection E0 as -> _.
  specialize (G 0 0 ltac:(lia) ltac:(lia)). rewrite G' in G by lia.
  rewrite (T1_ext_h QI 2 (mat ht) (fun a c => sadd (mat ex_h a c) (one_body_term (MCustom (fun _ => qz 1 0) ex_h) (Some ex_dip) s0 a c))) in G by exact G3.
  revert G. apply qi_eqb_neq. vm_compute. reflexivity.
Qed.
(** A laser on the example system. *)
Definition laser_w : world QI := World [ex_basis] [lone 0 (Some 0)] [Tevo (laser_field ex_pulse None) (Some 0)].
Lemma laser_at : sys_at laser_w 0 Spatial 1 2 (lone 0 (Some 0)) ex_basis.
Proof. constructor; try reflexivity; [exists 0; reflexivity | lia | exact ex_ready]. Qed.
Lemma laser_evolving : evolving laser_w 0 2 (lone 0 (Some 0)) ex_h ex_u (Some ex_dip) (MLaser (fun t => smul (qz 2 0) t) (fun _ i => delta i 0)).
Proof.
  constructor; try reflexivity; [discriminate|]. exists 0. eexists. exists ex_basis. split; [reflexivity|]. split; [reflexivity|].
  repeat (split; [reflexivity|]). cbn. exists ex_dip, 1. split; [reflexivity|]. split; [reflexivity|]. split; [lia|].
  split; [apply ex_pulse_number|]. split; [intros t i _; reflexivity | left; reflexivity].
Qed.

(** C39 *)
Definition locality_claim : Prop :=
  forall (K : scalar) (ops : list (wop K)) (s : nat) (t : K) (w' : world K),
  let w := wrun_any ops (World [] [] []) in
  same_system s w w' -> (exists b, basis_of w s b) ->
  fst (sys_h_t s t w') = fst (sys_h_t s t w) /\ fst (sys_u_t s t w') = fst (sys_u_t s t w).
Definition ex_basis_none : basis QI := set_arr F_h None ex_basis.
Definition share_ops (b1 : basis QI) : list (wop QI) :=
  [WNewBasis ex_basis; WNewBasis b1; WSpatial 2 0; WSpatial 2 1; WNewOp (adiabatic_switching (Val (num 1)));
   WSetOp 0 (Some 0); WSetOp 1 (Some 0)].
Lemma share_world b1 : b_cls b1 = Base -> b_l b1 = 2 -> b_spin b1 = false -> b_np b1 = Some 0 ->
  wrun_any (share_ops b1) (World [] [] [])
  = World [ex_basis; b1] [lone 0 (Some 0); lone 1 (Some 0)] [Tevo (adiabatic_switching (Val (num 1))) (Some 1)].
Proof.
  intros H1 H2 H3 H4. destruct b1 as [cl np l dm ar nu sp an]. cbn in H1, H2, H3, H4. subst. reflexivity.
Qed.
Lemma locality_refuted : ~ locality_claim.
Proof.
  intros H. specialize (H QI (share_ops ex_basis) 0 s0 (wrun_any (share_ops ex_basis_none) (World [] [] []))). cbv zeta in H.
  rewrite !share_world in H by reflexivity.
  destruct H as [H _].
  - split; [reflexivity|]. intros x Hx. unfold system_at in Hx. cbn in Hx. injection Hx as <-. split; [reflexivity|].
    intros o Ho. cbn in Ho. injection Ho as <-. reflexivity.
  - exists ex_basis. exists (lone 0 (Some 0)). split; reflexivity.
  - cbn in H. discriminate H.
Qed.
Definition own_ops : list (wop QI) :=
  [WNewBasis ex_basis; WNewBasis ex_basis; WSpatial 2 0; WSpatial 2 1;
   WNewOp (adiabatic_switching (Val (num 2))); WNewOp (laser_field ex_pulse None);
   WSetOp 0 (Some 0); WSetOp 1 (Some 1)].
Definition own_w (o0 o1 : option nat) : world QI := World [ex_basis; ex_basis] [lone 0 o0; lone 1 o1]
  [Tevo (adiabatic_switching (Val (num 2))) (option_map (fun _ => 0) o0); Tevo (laser_field ex_pulse None) (option_map (fun _ => 1) o1)].
Lemma own_world : wrun_any own_ops (World [] [] []) = own_w (Some 0) (Some 1).
Proof. reflexivity. Qed.
Lemma own_exclusive : walong exclusive own_ops (World [] [] []).
Proof.
  do 6 (split; [exact I|]).
  change (walong exclusive [WSetOp 0 (Some 0); WSetOp 1 (Some 1)] (own_w None None)). split.
  - split; [eexists; reflexivity|]. intros [|[|s]] x Hx Ho; unfold system_at in Hx; cbn in Hx; [reflexivity | |].
    + injection Hx as <-. discriminate Ho.
    + destruct s; discriminate Hx.
  - change (walong exclusive [WSetOp 1 (Some 1)] (own_w (Some 0) None)). split; [|exact I].
    split; [eexists; reflexivity|]. intros [|[|s]] x Hx Ho; unfold system_at in Hx; cbn in Hx; [|reflexivity|].
    + injection Hx as <-. discriminate Ho.
    + destruct s; discriminate Hx.
Qed.

(** C68 *)
Definition polarization_claim : Prop :=
  forall (K : scalar) (w : world K) o pulse E y uses s l (h u d : arr K) dim,
  nth_error (w_op w) o = Some (Tevo (laser_field pulse None) y) -> callable pulse = true -> number_of [] pulse E ->
  Forall (fun '(s, ops) => Forall reads ops /\ exists l h u d dim, elements w s l h u d /\ shape d = [dim; l; l] /\ 0 < dim) uses ->
  elements w s l h u d -> shape d = [dim; l; l] -> 0 < dim ->
  exists w1, set_time_evolution_operator s (Some o) (tour o uses w) = (Ok tt, w1) /\
  forall t, exists ht w2, sys_h_t s t w1 = (Ok (Some ht), w2) /\
    forall p q, p < l -> q < l -> mat ht p q = sadd (mat h p q) (smul (E t) (get d [O; p; q])).
Definition tour_w : world QI := World [ex_basis; ex_basis_2d] [lone 0 None; lone 1 None] [Tevo (laser_field ex_pulse None) None].
Lemma tour_elements : elements tour_w 0 2 ex_h ex_u ex_dip /\ elements tour_w 1 2 ex_h ex_u ex_dip2.
Proof. split; eexists; eexists; repeat split; discriminate. Qed.
Lemma polarization_refuted : ~ polarization_claim.
Proof.
  intros H. destruct tour_elements as [E0 E1].
  destruct (frozen QI tour_w 0 ex_pulse _ None 1 2 0 2 ex_h ex_u ex_dip 1 2 ex_h ex_u ex_dip2 s0 s0 eq_refl eq_refl ex_pulse_number
    E0 eq_refl ltac:(lia) E1 eq_refl ltac:(lia)) as (w1 & r1 & w2 & w3 & A1 & A2 & A3 & A4).
  destruct (H QI tour_w 0 ex_pulse _ None [(0, [WHt 0 s0])] 1 2 ex_h ex_u ex_dip2 2 eq_refl eq_refl ex_pulse_number) as (w3' & B1 & B2);
    try assumption; try reflexivity; [|lia|].
  - constructor; [|constructor]. split; [constructor; [exact I | constructor]|]. exists 2, ex_h, ex_u, ex_dip, 1. repeat split; auto.
  - assert (T : tour 0 [(0, [WHt 0 s0])] tour_w = w2).
    { cbn [tour wrun_any wrun]. unfold wdrop, bind. rewrite A1. cbn [snd]. rewrite A2. reflexivity. }
    rewrite T, A3 in B1. injection B1 as <-. destruct (B2 s0) as (ht & w4 & B3 & _). rewrite B3 in A4. discriminate A4.
Qed.
Definition same_w : world QI := World [ex_basis; ex_basis] [lone 0 None; lone 1 None] [Tevo (laser_field ex_pulse None) None].
Lemma same_elements : elements same_w 0 2 ex_h ex_u ex_dip /\ elements same_w 1 2 ex_h ex_u ex_dip.
Proof. split; eexists; eexists; repeat split; discriminate. Qed.
