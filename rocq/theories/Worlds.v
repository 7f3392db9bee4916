(** Histories of public operations on basis sets, systems and operators that
    may share objects (C26-C28, C36-C39, C68). *)
From Coq Require Import List Arith ZArith Lia Bool.
From Verif Require Import Scalar Py Numpy Spec BasisSet BasisSpec Histories Systems.
Import ListNotations.

Section Worlds.
  Variable K : scalar.
  Notation arr := (arr K).
  Notation basis := (basis K).
  Notation world := (world K).

  Inductive wop :=
  | WNewBasis (b : basis) | WNewOp (o : operator K)
  | WBasis (i : nat) (o : op K)
  | WGeneral (n : Z) (i : nat) (va vb : list K) (anti : bool)
  | WSpatial (n : Z) (i : nat)
  | WConstruct (s : nat) (va vb : list K) (anti : bool)
  | WSetSize (s : nat) (n l : Z)
  | WModule (s m : nat)
  | WChange (s : nat) (C : arr) (Ct : option arr)
  | WDensity (s : nat) (rho : arr) (C Ct : option arr)
  | WGet (s : nat) (f : field) | WBra (s : nat)
  | WSetOp (s : nat) (o : option nat)
  | WHt (s : nat) (t : K) | WUt (s : nat) (t : K)
  | WHasOne (s : nat) | WHasTwo (s : nat)
  | WEnergy (s : nat)
  | WFock (s : nat) (h u : arr) (f : buffer K)
  | WHf (s : nat).

  Definition wdrop {A} (m : WM K A) : WM K unit := let* _ := m in ret tt.
  Definition wrun (o : wop) : WM K unit :=
    match o with
    | WNewBasis b => wdrop (alloc_basis b)
    | WNewOp o => wdrop (alloc_op o)
    | WBasis i o => on_basis i (run o)
    | WGeneral n i va vb anti => wdrop (general_init n i va vb anti)
    | WSpatial n i => wdrop (spatial_init n i)
    | WConstruct s va vb anti => wdrop (construct_general s va vb anti)
    | WSetSize s n l => set_system_size s n l
    | WModule s m => sys_change_module s m
    | WChange s C Ct => sys_change_basis s C Ct
    | WDensity s rho C Ct => wdrop (sys_density s rho C Ct)
    | WGet s f => wdrop (sys_get s f)
    | WBra s => wdrop (sys_bra s)
    | WSetOp s o => set_time_evolution_operator s o
    | WHt s t => wdrop (sys_h_t s t)
    | WUt s t => wdrop (sys_u_t s t)
    | WHasOne s => wdrop (has_op is_one_body s)
    | WHasTwo s => wdrop (has_op is_two_body s)
    | WEnergy s => wdrop (reference_energy s)
    | WFock s h u f => wdrop (fock_matrix s h u f)
    | WHf s => change_to_hf_basis s
    end.
  (** Exceptions are caught after every operation and the objects used on. *)
  Fixpoint wrun_any (ops : list wop) (w : world) : world :=
    match ops with
    | [] => w
    | o :: ops' => wrun_any ops' (snd (wrun o w))
    end.
  Fixpoint walong (P : world -> wop -> Prop) (ops : list wop) (w : world) : Prop :=
    match ops with
    | [] => True
    | o :: ops' => P w o /\ walong P ops' (snd (wrun o w))
    end.

  (** ** Vocabulary of the statements. *)
  Definition system_at (w : world) (s : nat) (x : system) : Prop := nth_error (w_sy w) s = Some x.
  Definition basis_of (w : world) (s : nat) (b : basis) : Prop :=
    exists x, system_at w s x /\ nth_error (w_bs w) (sy_bs x) = Some b.
  Definition no_systems (w : world) : Prop := w_sy w = [].
  (** C27: system and basis set announce the same size. *)
  Definition agree (w : world) : Prop :=
    forall s x b, system_at w s x -> nth_error (w_bs w) (sy_bs x) = Some b -> sy_l x = Z.of_nat (b_l b).
  Definition used (w : world) (i : nat) : Prop := exists s x, system_at w s x /\ sy_bs x = i.
  (** Every basis set is given to one system only and is resized only through
      that system, by calls that succeed. *)
  Definition size_disciplined (w : world) (o : wop) : Prop :=
    match o with
    | WGeneral _ i _ _ _ | WSpatial _ i => ~ used w i
    | WBasis i (OChange _ _) | WBasis i (ODouble _ _) => ~ used w i
    | WSetSize s _ l => forall b, basis_of w s b -> l = Z.of_nat (b_l b)
    | WChange s C Ct => exists w', wrun (WChange s C Ct) w = (Ok tt, w')
    | _ => True
    end.

  (** C28: what a reader of a basis set sees, apart from the array module. *)
  Definition same_view (b b' : basis) : Prop :=
    b_cls b' = b_cls b /\ b_l b' = b_l b /\ b_dim b' = b_dim b /\ b_nuc b' = b_nuc b /\
    b_spin b' = b_spin b /\ b_asym b' = b_asym b /\
    (forall f, f <> F_bra -> b_arr b' f = b_arr b f) /\ bra_view b' = bra_view b.
  (** Operations meant to modify the basis set with index i. *)
  Definition modifies (w : world) (o : wop) (i : nat) : Prop :=
    match o with
    | WBasis j _ => j = i
    | WGeneral _ j _ _ _ => j = i
    | WChange s _ _ => exists x, system_at w s x /\ sy_bs x = i
    | _ => False
    end.
End Worlds.
Arguments WNewBasis {K}. Arguments WNewOp {K}. Arguments WBasis {K}. Arguments WGeneral {K}. Arguments WSpatial {K}.
Arguments WConstruct {K}. Arguments WSetSize {K}. Arguments WModule {K}. Arguments WChange {K}. Arguments WDensity {K}.
Arguments WGet {K}. Arguments WBra {K}. Arguments WSetOp {K}. Arguments WHt {K}. Arguments WUt {K}.
Arguments WHasOne {K}. Arguments WHasTwo {K}. Arguments WEnergy {K}. Arguments WFock {K}. Arguments WHf {K}.
Arguments wdrop {K A}. Arguments wrun {K}. Arguments wrun_any {K}. Arguments walong {K}.
Arguments system_at {K}. Arguments basis_of {K}. Arguments no_systems {K}. Arguments agree {K}. Arguments used {K}.
Arguments size_disciplined {K}. Arguments same_view {K}. Arguments modifies {K}.
