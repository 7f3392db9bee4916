(** Properties of time-evolution operators: C36-C39, C68. *)
From Coq Require Import List Arith ZArith Lia Bool.
From Verif Require Import Scalar Py Numpy Spec BasisSet BasisSpec Examples Histories Systems SystemFacts SystemProofs Worlds WorldProofs
  OperatorSpec OperatorProofs OperatorProofs2 OperatorProofs3 OperatorExamples.
Import ListNotations.

(** C36: refuted when pulse and polarization are both constants: the two
    lambdas h_t creates close over one local variable, so the pulse evaluates
    to the polarization. *)
Definition C36_claim : Prop :=
  forall (K : scalar) (w : world K) s o x b l dim (h u d : arr K) (pulse : pyval K) (pol : option (pyval K)) E eps y,
  nth_error (w_sy w) s = Some x -> sy_np x <> None ->
  nth_error (w_bs w) (sy_bs x) = Some b -> b_arr b F_h = Some h -> b_arr b F_u = Some u -> b_arr b F_dip = Some d ->
  shape h = [l; l] -> shape u = [l; l; l; l] -> shape d = [dim; l; l] -> 0 < dim ->
  nth_error (w_op w) o = Some (Tevo (laser_field pulse pol) y) ->
  number_of [] pulse E -> polarization_of [] pol dim eps ->
  exists w1, set_time_evolution_operator s (Some o) w = (Ok tt, w1) /\
  forall ops t, Forall reads ops -> exists ht w2,
    sys_h_t s t (wrun_any ops w1) = (Ok (Some ht), w2) /\ shape ht = [l; l] /\
    forall p q, p < l -> q < l -> mat ht p q = sadd (mat h p q) (smul (E t) (sumn dim (fun i => smul (eps t i) (get d [i; p; q])))).
Theorem C36_refuted : ~ C36_claim.
Proof. exact laser_refuted. Qed.
Print Assumptions C36_refuted.
(** With one dipole component, what a laser made of two constants computes
    does not involve the pulse. *)
Theorem C36_constants_ignore_the_pulse :
  forall (K : scalar) (w : world K) s o x b l (h d pulse : arr K) pol y t c,
  nth_error (w_sy w) s = Some x -> sy_np x <> None -> sy_op x = Some o ->
  nth_error (w_bs w) (sy_bs x) = Some b -> b_arr b F_h = Some h -> b_arr b F_dip = Some d ->
  shape h = [l; l] -> shape d = [1; l; l] ->
  nth_error (w_op w) o = Some (Tevo (laser_field (Val pulse) pol) y) -> y = Some s -> constant_polarization pol c ->
  exists r w', sys_h_t s t w = (Ok (Some r), w') /\ shape r = [l; l] /\
    forall p q, p < l -> q < l -> mat r p q = sadd (mat h p q) (smul c (smul c (get d [O; p; q]))).
Proof. exact laser_constants. Qed.
Print Assumptions C36_constants_ignore_the_pulse.
(** When one of the two is callable the property holds, whatever is read or
    evaluated between setting the operator and the call. *)
Theorem C36_laser_partial :
  forall (K : scalar) (w : world K) s o x b l dim (h u d : arr K) (pulse : pyval K) (pol : option (pyval K)) E eps y,
  nth_error (w_sy w) s = Some x -> sy_np x <> None ->
  nth_error (w_bs w) (sy_bs x) = Some b -> b_arr b F_h = Some h -> b_arr b F_u = Some u -> b_arr b F_dip = Some d ->
  shape h = [l; l] -> shape u = [l; l; l; l] -> shape d = [dim; l; l] -> 0 < dim ->
  nth_error (w_op w) o = Some (Tevo (laser_field pulse pol) y) ->
  number_of [] pulse E -> polarization_of [] pol dim eps ->
  (callable pulse = true \/ exists v, pol = Some v /\ callable v = true) ->
  exists w1, set_time_evolution_operator s (Some o) w = (Ok tt, w1) /\
  forall ops t, Forall reads ops -> exists ht w2 ut,
    sys_h_t s t (wrun_any ops w1) = (Ok (Some ht), w2) /\ shape ht = [l; l] /\
    (forall p q, p < l -> q < l ->
       mat ht p q = sadd (mat h p q) (smul (E t) (sumn dim (fun i => smul (eps t i) (get d [i; p; q]))))) /\
    sys_u_t s t (wrun_any ops w1) = (Ok (Some ut), wrun_any ops w1) /\ aeq ut u.
Proof. exact laser_semantics. Qed.
Print Assumptions C36_laser_partial.
Example C36_instance : nth_error (w_sy callable_w) 0 = Some (lone 0 None) /\ nth_error (w_bs callable_w) 0 = Some ex_basis /\
  nth_error (w_op callable_w) 0 = Some (Tevo (laser_field ex_pulse None) None) /\
  number_of [] ex_pulse (fun t => smul (qz 2 0) t) /\ polarization_of (K:=QI) [] None 1 (fun _ i => delta i 0) /\
  Forall reads [WHt 0 (qz 3 0); WEnergy 0; WHt 0 (qz 5 0)].
Proof.
  repeat (split; [reflexivity|]). split; [exact ex_pulse_number|]. split; [intros t i _; reflexivity|]. repeat constructor.
Qed.

(** C37 *)
Theorem C37_switching :
  forall (K : scalar) (w : world K) s o x b l (h u : arr K) f E y,
  nth_error (w_sy w) s = Some x -> sy_np x <> None ->
  nth_error (w_bs w) (sy_bs x) = Some b -> b_arr b F_h = Some h -> b_arr b F_u = Some u ->
  shape h = [l; l] -> shape u = [l; l; l; l] ->
  nth_error (w_op w) o = Some (Tevo (adiabatic_switching f) y) -> number_of [] f E ->
  exists w1, set_time_evolution_operator s (Some o) w = (Ok tt, w1) /\
  forall ops t, Forall reads ops -> exists ht w2 ut,
    sys_h_t s t (wrun_any ops w1) = (Ok (Some ht), w2) /\ aeq ht h /\
    sys_u_t s t (wrun_any ops w1) = (Ok (Some ut), wrun_any ops w1) /\ shape ut = [l; l; l; l] /\
    (forall p q r r', p < l -> q < l -> r < l -> r' < l -> ten ut p q r r' = smul (E t) (ten u p q r r')).
Proof. exact switching_semantics. Qed.
Print Assumptions C37_switching.
Theorem C37_custom :
  forall (K : scalar) (w : world K) s o x b l (h u : arr K) wt (A : arr K) E y,
  nth_error (w_sy w) s = Some x -> sy_np x <> None ->
  nth_error (w_bs w) (sy_bs x) = Some b -> b_arr b F_h = Some h -> b_arr b F_u = Some u ->
  shape h = [l; l] -> shape u = [l; l; l; l] -> shape A = [l; l] ->
  nth_error (w_op w) o = Some (Tevo (custom_one_body wt A) y) -> number_of [] wt E ->
  exists w1, set_time_evolution_operator s (Some o) w = (Ok tt, w1) /\
  forall ops t, Forall reads ops -> exists ht w2 ut,
    sys_h_t s t (wrun_any ops w1) = (Ok (Some ht), w2) /\ shape ht = [l; l] /\
    (forall p q, p < l -> q < l -> mat ht p q = sadd (mat h p q) (smul (E t) (mat A p q))) /\
    sys_u_t s t (wrun_any ops w1) = (Ok (Some ut), wrun_any ops w1) /\ aeq ut u.
Proof. exact custom_semantics. Qed.
Print Assumptions C37_custom.
Theorem C37_no_operator :
  forall (K : scalar) (w : world K) s x b t,
  nth_error (w_sy w) s = Some x -> nth_error (w_bs w) (sy_bs x) = Some b -> sy_op x = None ->
  sys_h_t s t w = (Ok (b_arr b F_h), w) /\ sys_u_t s t w = (Ok (b_arr b F_u), w) /\
  has_op is_one_body s w = (Ok false, w) /\ has_op is_two_body s w = (Ok false, w).
Proof. exact no_operator. Qed.
Print Assumptions C37_no_operator.
Theorem C37_flags :
  forall (K : scalar) (w : world K) s l x (h u : arr K) d M, evolving w s l x h u d M ->
  exists f1 f2, has_op is_one_body s w = (Ok f1, w) /\ has_op is_two_body s w = (Ok f2, w) /\
    (f1 = false -> forall t p q, one_body_term M d t p q = s0) /\ (f2 = false -> forall t, two_body_factor M t = s1) /\
    f1 = (match M with MLaser _ _ | MCustom _ _ => true | _ => false end) /\
    f2 = (match M with MSwitch _ => true | _ => false end).
Proof. exact flags_sound. Qed.
Print Assumptions C37_flags.
Example C37_instance : evolving custom_w 0 2 (lone 0 (Some 0)) ex_h ex_u (Some ex_dip) (MCustom (fun _ => qz 1 0) ex_h) /\
  evolving laser_w 0 2 (lone 0 (Some 0)) ex_h ex_u (Some ex_dip) (MLaser (fun t => smul (qz 2 0) t) (fun _ i => delta i 0)) /\
  number_of [] (Val (num 2)) (fun _ => qz 2 0).
Proof. split; [exact custom_evolving|]. split; [exact laser_evolving | apply num_number]. Qed.

(** C38: refuted by CustomOneBodyOperator, whose matrix stays in the old basis. *)
Definition C38_claim : Prop :=
  forall (K : scalar) (s : nat) (w : world K) k N l n x b (C : arr K) Ct (h u : arr K) d M t,
  sys_at w s k N l x b -> evolving w s l x h u d M -> shape C = [l; n] -> tilde_shape C Ct n l -> N <= n ->
  exists ht w0 w1 ht1 w2,
    sys_h_t s t w = (Ok (Some ht), w0) /\ sys_change_basis s C Ct w = (Ok tt, w1) /\ sys_h_t s t w1 = (Ok (Some ht1), w2) /\
    forall p q, p < n -> q < n -> mat ht1 p q = T1 l (mat ht) (mat C) (tilde C Ct) p q.
Theorem C38_refuted : ~ C38_claim.
Proof. exact covariance_refuted. Qed.
Print Assumptions C38_refuted.
Theorem C38_custom_matrix_untransformed :
  forall (K : scalar) s (w : world K) k N l x b (C : arr K) Ct (h u : arr K) d E (A : arr K) t,
  sys_at w s k N l x b -> evolving w s l x h u d (MCustom E A) -> shape C = [l; l] -> tilde_shape C Ct l l ->
  exists w1 ht1 w2, sys_change_basis s C Ct w = (Ok tt, w1) /\ sys_h_t s t w1 = (Ok (Some ht1), w2) /\ shape ht1 = [l; l] /\
    forall p q, p < l -> q < l -> mat ht1 p q = sadd (T1 l (mat h) (mat C) (tilde C Ct) p q) (smul (E t) (mat A p q)).
Proof. exact custom_not_covariant. Qed.
Print Assumptions C38_custom_matrix_untransformed.
(** The other operators, and no operator term at all, are covariant. *)
Theorem C38_covariance_partial :
  forall (K : scalar) s (w : world K) k N l n x b (C : arr K) Ct (h u : arr K) d M t,
  sys_at w s k N l x b -> evolving w s l x h u d M ->
  shape C = [l; n] -> tilde_shape C Ct n l -> N <= n ->
  (match M with MCustom _ _ => False | _ => True end) ->
  exists ht w0 ut w1 ht1 w2 ut1,
    sys_h_t s t w = (Ok (Some ht), w0) /\ sys_u_t s t w = (Ok (Some ut), w) /\
    sys_change_basis s C Ct w = (Ok tt, w1) /\
    sys_h_t s t w1 = (Ok (Some ht1), w2) /\ sys_u_t s t w1 = (Ok (Some ut1), w1) /\
    shape ht1 = [n; n] /\ shape ut1 = [n; n; n; n] /\
    (forall p q, p < n -> q < n -> mat ht1 p q = T1 l (mat ht) (mat C) (tilde C Ct) p q) /\
    (forall p q r r', p < n -> q < n -> r < n -> r' < n -> ten ut1 p q r r' = T2 l (ten ut) (mat C) (tilde C Ct) p q r r').
Proof. exact covariance. Qed.
Print Assumptions C38_covariance_partial.
Example C38_instance : sys_at laser_w 0 Spatial 1 2 (lone 0 (Some 0)) ex_basis /\
  evolving laser_w 0 2 (lone 0 (Some 0)) ex_h ex_u (Some ex_dip) (MLaser (fun t => smul (qz 2 0) t) (fun _ i => delta i 0)) /\
  shape ex_R = [2; 3] /\ sys_at custom_w 0 Spatial 1 2 (lone 0 (Some 0)) ex_basis.
Proof. split; [exact laser_at|]. split; [exact laser_evolving|]. split; [reflexivity | exact custom_at]. Qed.

(** C39: refuted by setting one operator on two systems: both then evaluate
    with the elements of the second. *)
Definition C39_claim : Prop :=
  forall (K : scalar) (ops : list (wop K)) (s : nat) (t : K) (w' : world K),
  let w := wrun_any ops (World [] [] []) in
  same_system s w w' -> (exists b, basis_of w s b) ->
  fst (sys_h_t s t w') = fst (sys_h_t s t w) /\ fst (sys_u_t s t w') = fst (sys_u_t s t w).
Theorem C39_refuted : ~ C39_claim.
Proof. exact locality_refuted. Qed.
Print Assumptions C39_refuted.
(** Along histories in which no operator is set on two systems at a time it holds. *)
Theorem C39_own_operator_partial :
  forall (K : scalar) (ops : list (wop K)) (s : nat) (t : K) (w' : world K),
  let w := wrun_any ops (World [] [] []) in
  walong exclusive ops (World [] [] []) -> same_system s w w' -> (exists b, basis_of w s b) ->
  fst (sys_h_t s t w') = fst (sys_h_t s t w) /\ fst (sys_u_t s t w') = fst (sys_u_t s t w).
Proof.
  intros K ops s t w' w H. apply evaluation_local. apply hist_homed; [exact H|].
  intros s0 x o Hx. destruct s0; discriminate Hx.
Qed.
Print Assumptions C39_own_operator_partial.
Example C39_instance : walong exclusive own_ops (World [] [] []) /\
  exists b, basis_of (wrun_any own_ops (World [] [] [])) 1 b.
Proof.
  split; [exact own_exclusive|]. rewrite own_world. exists ex_basis, (lone 1 (Some 1)). split; reflexivity.
Qed.

(** C68: refuted: the first evaluation freezes the default polarization. *)
Definition C68_claim : Prop :=
  forall (K : scalar) (w : world K) o pulse E y uses s l (h u d : arr K) dim,
  nth_error (w_op w) o = Some (Tevo (laser_field pulse None) y) -> callable pulse = true -> number_of [] pulse E ->
  Forall (fun '(s, ops) => Forall reads ops /\ exists l h u d dim, elements w s l h u d /\ shape d = [dim; l; l] /\ 0 < dim) uses ->
  elements w s l h u d -> shape d = [dim; l; l] -> 0 < dim ->
  exists w1, set_time_evolution_operator s (Some o) (tour o uses w) = (Ok tt, w1) /\
  forall t, exists ht w2, sys_h_t s t w1 = (Ok (Some ht), w2) /\
    forall p q, p < l -> q < l -> mat ht p q = sadd (mat h p q) (smul (E t) (get d [O; p; q])).
Theorem C68_refuted : ~ C68_claim.
Proof. exact polarization_refuted. Qed.
Print Assumptions C68_refuted.
Theorem C68_frozen_polarization :
  forall (K : scalar) (w : world K) o pulse E y dim dim' s1 l1 (h1 u1 d1 : arr K) s2 l2 (h2 u2 d2 : arr K) t1 t2,
  nth_error (w_op w) o = Some (Tevo (laser_field pulse None) y) -> callable pulse = true -> number_of [] pulse E ->
  elements w s1 l1 h1 u1 d1 -> shape d1 = [dim; l1; l1] -> 0 < dim ->
  elements w s2 l2 h2 u2 d2 -> shape d2 = [dim'; l2; l2] -> dim' <> dim ->
  exists w1 r1 w2 w3, set_time_evolution_operator s1 (Some o) w = (Ok tt, w1) /\ sys_h_t s1 t1 w1 = (Ok (Some r1), w2) /\
    set_time_evolution_operator s2 (Some o) w2 = (Ok tt, w3) /\ fst (sys_h_t s2 t2 w3) = Err ValueError.
Proof. exact frozen. Qed.
Print Assumptions C68_frozen_polarization.
(** It holds along tours of systems with equally many dipole components. *)
Theorem C68_same_dimension_partial :
  forall (K : scalar) (w : world K) o pulse E y dim uses s l (h u d : arr K),
  0 < dim -> nth_error (w_op w) o = Some (Tevo (laser_field pulse None) y) -> callable pulse = true -> number_of [] pulse E ->
  Forall (fun '(s, ops) => Forall reads ops /\ exists l h u d, elements w s l h u d /\ shape d = [dim; l; l]) uses ->
  elements w s l h u d -> shape d = [dim; l; l] ->
  exists w1, set_time_evolution_operator s (Some o) (tour o uses w) = (Ok tt, w1) /\
  forall ops t, Forall reads ops -> exists ht w2,
    sys_h_t s t (wrun_any ops w1) = (Ok (Some ht), w2) /\ shape ht = [l; l] /\
    forall p q, p < l -> q < l -> mat ht p q = sadd (mat h p q) (smul (E t) (get d [O; p; q])).
Proof. exact default_polarization_same_dim. Qed.
Print Assumptions C68_same_dimension_partial.
Example C68_instance : elements same_w 0 2 ex_h ex_u ex_dip /\ elements same_w 1 2 ex_h ex_u ex_dip /\
  nth_error (w_op same_w) 0 = Some (Tevo (laser_field ex_pulse None) None) /\
  Forall (fun '(s, ops) => Forall reads ops /\ exists l h u d, elements same_w s l h u d /\ shape d = [1; l; l])
    [(1, [WHt 1 (qz 1 0)]); (0, []); (1, [WUt 0 s0])].
Proof.
  split; [apply same_elements|]. split; [apply same_elements|]. split; [reflexivity|].
  repeat constructor; (exists 2, ex_h, ex_u, ex_dip; split; [apply same_elements | reflexivity]).
Qed.
