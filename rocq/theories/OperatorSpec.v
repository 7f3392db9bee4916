(** What a time-evolution operator means: the one-body term it adds and the
    factor it puts in front of the two-body elements (C36-C39, C68). *)
From Coq Require Import List Arith ZArith Lia Bool.
From Verif Require Import Scalar Py Numpy Spec BasisSet BasisSpec Histories Systems Worlds.
Import ListNotations.

Section OperatorSpec.
  Variable K : scalar.
  Local Open Scope K_scope.
  Notation arr := (arr K).
  Notation basis := (basis K).
  Notation world := (world K).

  (** The array a constant or callable stands for at time t. *)
  Definition denotes (cells : list arr) (v : pyval K) (t : K) (a : arr) : Prop :=
    match v with
    | Val x => a = x
    | Fun f => a = f t
    | Lam c => nth_error cells c = Some a
    end.
  (** A number-valued pulse or weight, and a polarization with [dim] components. *)
  Definition number_of (cells : list arr) (v : pyval K) (E : K -> K) : Prop :=
    forall t, exists a, denotes cells v t a /\ shape a = [] /\ get a [] = E t.
  Definition vector_of (cells : list arr) (v : pyval K) (dim : nat) (eps : K -> nat -> K) : Prop :=
    forall t, exists a, denotes cells v t a /\ shape a = [dim] /\ forall i, (i < dim)%nat -> get a [i] = eps t i.
  (** The x direction unless given. *)
  Definition polarization_of (cells : list arr) (pol : option (pyval K)) (dim : nat) (eps : K -> nat -> K) : Prop :=
    match pol with
    | None => forall t i, (i < dim)%nat -> eps t i = delta i 0
    | Some v => vector_of cells v dim eps
    end.
  (** sum_i eps_i d_i *)
  Definition dipole_along (dim : nat) (eps : nat -> K) (d : arr) (p q : nat) : K :=
    sumn dim (fun i => eps i * get d [i; p; q]).

  (** What an operator stands for: nothing, u scaled by f(t), E(t) A added to h,
      or E(t) eps(t).d added to h. *)
  Inductive meaning :=
  | MNone | MSwitch (f : K -> K) | MCustom (E : K -> K) (A : arr) | MLaser (E : K -> K) (eps : K -> nat -> K).
  (** The term added to h on a system with dipole elements [d] ... *)
  Definition one_body_term (M : meaning) (d : option arr) (t : K) (p q : nat) : K :=
    match M with
    | MLaser E eps => match d with Some dp => E t * dipole_along (hd O (shape dp)) (eps t) dp p q | None => 0 end
    | MCustom E A => E t * mat A p q
    | _ => 0
    end.
  (** ... and the factor in front of u. *)
  Definition two_body_factor (M : meaning) (t : K) : K := match M with MSwitch f => f t | _ => 1 end.
  (** The operator stands for M on systems of [l] functions with dipole
      elements [d].  Excluded: a laser whose pulse and polarization are both
      given as constants (see C36_refuted). *)
  Definition op_means (l : nat) (d : option arr) (op : operator K) (M : meaning) : Prop :=
    match op, M with
    | OpPlain, MNone => True
    | OpSwitch f, MSwitch su => forall t, shape (f t) = [] /\ get (f t) [] = su t
    | OpCustom w A cells, MCustom E A' => number_of cells w E /\ shape A = [l; l] /\ A' = A
    | OpLaser pulse pol cells, MLaser E eps =>
        exists dp dim, d = Some dp /\ shape dp = [dim; l; l] /\ (0 < dim)%nat /\
          number_of cells pulse E /\ polarization_of cells pol dim eps /\
          (callable pulse = true \/ exists v, pol = Some v /\ callable v = true)
    | _, _ => False
    end.

  (** System s of l functions with elements h, u, d carries an operator that
      was set on it and stands for M. *)
  Record evolving (w : world) (s l : nat) (x : system) (h u : arr) (d : option arr) (M : meaning) : Prop := Evolving {
    ev_sys : nth_error (w_sy w) s = Some x;
    ev_np : sy_np x <> None;
    ev_op : exists o te b, sy_op x = Some o /\ nth_error (w_op w) o = Some te /\ te_sys te = Some s /\
      nth_error (w_bs w) (sy_bs x) = Some b /\ b_arr b F_h = Some h /\ b_arr b F_u = Some u /\ b_arr b F_dip = d /\
      op_means l d (te_op te) M;
    ev_h : shape h = [l; l];
    ev_u : shape u = [l; l; l; l]
  }.

  (** Operations that only read. *)
  Definition reads (o : wop K) : Prop :=
    match o with
    | WGet _ _ | WBra _ | WHt _ _ | WUt _ _ | WHasOne _ | WHasTwo _ | WEnergy _ | WFock _ _ _ _ | WDensity _ _ _ _ => True
    | _ => False
    end.
  (** Every operator is attached to one system. *)
  Definition exclusive (w : world) (o : wop K) : Prop :=
    match o with
    | WSetOp s (Some j) => (exists te, nth_error (w_op w) j = Some te) /\
        forall s' x, system_at w s' x -> sy_op x = Some j -> s' = s
    | _ => True
    end.
  (** Two worlds agree on system s, its basis set and its operator. *)
  Definition same_system (s : nat) (w w' : world) : Prop :=
    nth_error (w_sy w') s = nth_error (w_sy w) s /\
    forall x, system_at w s x -> nth_error (w_bs w') (sy_bs x) = nth_error (w_bs w) (sy_bs x) /\
      forall o, sy_op x = Some o -> nth_error (w_op w') o = nth_error (w_op w) o.
  (** The polarization constant that is used. *)
  Definition constant_polarization (pol : option (pyval K)) (c : K) : Prop :=
    match pol with
    | None => c = 1
    | Some (Val v) => shape v = [1%nat] /\ get v [O] = c
    | Some _ => False
    end.
  (** System s has l functions and the elements h, u and dipole d. *)
  Definition elements (w : world) (s l : nat) (h u d : arr) : Prop :=
    exists x b, nth_error (w_sy w) s = Some x /\ sy_np x <> None /\ nth_error (w_bs w) (sy_bs x) = Some b /\
      b_arr b F_h = Some h /\ b_arr b F_u = Some u /\ b_arr b F_dip = Some d /\
      shape h = [l; l] /\ shape u = [l; l; l; l].
  (** Setting the operator on one system after another, with reads in between. *)
  Fixpoint tour (o : nat) (uses : list (nat * list (wop K))) (w : world) : world :=
    match uses with
    | [] => w
    | (s, ops) :: r => tour o r (wrun_any ops (snd (wrun (WSetOp s (Some o)) w)))
    end.
End OperatorSpec.
Arguments constant_polarization {K}. Arguments elements {K}. Arguments tour {K}.
Arguments denotes {K}. Arguments number_of {K}. Arguments vector_of {K}. Arguments polarization_of {K}.
Arguments dipole_along {K}. Arguments op_means {K}. Arguments MNone {K}. Arguments MSwitch {K}. Arguments MCustom {K}. Arguments MLaser {K}.
Arguments one_body_term {K}. Arguments two_body_factor {K}.  Arguments evolving {K}. Arguments reads {K}. Arguments exclusive {K}.
Arguments same_system {K}.
