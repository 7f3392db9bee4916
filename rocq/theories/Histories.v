(** Histories of public operations on one basis set (C07, C11, C32). *)
From Coq Require Import List Arith ZArith Lia Bool.
From Verif Require Import Scalar Py Numpy Spec BasisSet BasisSpec.
Import ListNotations.

(** The attributes with a checked spin setter, and the sigma attributes. *)
Inductive spin_attr := SX | SY | SZ | S2 | S2TB.
Definition spin_field (x : spin_attr) : field :=
  match x with SX => F_spx | SY => F_spy | SZ => F_spz | S2 => F_sp2 | S2TB => F_sp2tb end.
Inductive sigma_attr := GX | GY | GZ.
Definition sigma_field (x : sigma_attr) : field :=
  match x with GX => F_sigx | GY => F_sigy | GZ => F_sigz end.

Section Hist.
  Variable K : scalar.
  Notation arr := (arr K).
  Notation basis := (basis K).

  (** The public operations of BasisSet / ODSincDVR: assignments to its
      properties, reads that have an effect, and method calls. *)
  Inductive op :=
  | OSetH (a : arr) | OSetS (a : arr) | OSetU (a : arr) | OSetDip (a : arr)
  | OSetSpin (x : spin_attr) (a : arr) | OSetSigma (x : sigma_attr) (a : arr)
  | OSetSpf (x : option arr) | OSetBra (x : option arr) | OSetGrid (a : arr) | OSetNuc (x : K)
  | OChange (C : arr) (Ct : option arr) | OAntiSym
  | ODouble (ab : option (list K * list K)) (anti : bool)
  | OModule (m : nat) | OCast | OReadBra
  | ODensity (rho : arr) (C Ct : option arr)
  | OGetH (C : arr) | OGetU (C : arr) | OSetURepr (r : urepr).

  Definition drop {A} (m : M basis A) : M basis unit := let* _ := m in ret tt.
  Definition run (o : op) : M basis unit :=
    match o with
    | OSetH a => set_sq F_h a
    | OSetS a => set_sq F_s a
    | OSetU a => set_sq F_u a
    | OSetDip a => set_dipole a
    | OSetSpin x a => set_spin_op (spin_field x) a
    | OSetSigma x a => set_sigma (sigma_field x) a
    | OSetSpf x => set_orbitals F_spf x
    | OSetBra x => set_orbitals F_bra x
    | OSetGrid a => set_grid a
    | OSetNuc x => modify (set_nuc x)
    | OChange C Ct => change_basis C Ct
    | OAntiSym => anti_symmetrize_two_body
    | ODouble ab anti => drop (change_to_general ab anti)
    | OModule m => change_module m
    | OCast => cast_to_complex
    | OReadBra => drop get_bra
    | ODensity rho C Ct => drop (compute_particle_density rho C Ct)
    | OGetH C => drop (get_transformed_h C)
    | OGetU C => drop (get_transformed_u C)
    | OSetURepr r => set_u_repr r
    end.

  (** Every operation succeeds. *)
  Fixpoint run_ok (ops : list op) (b : basis) : option basis :=
    match ops with
    | [] => Some b
    | o :: ops' => match run o b with (Ok _, b') => run_ok ops' b' | (Err _, _) => None end
    end.
  (** Exceptions are caught after every operation and the object used on. *)
  Fixpoint run_any (ops : list op) (b : basis) : basis :=
    match ops with
    | [] => b
    | o :: ops' => run_any ops' (snd (run o b))
    end.
  (** Every operation of the history satisfies [P] in the state it meets. *)
  Fixpoint along (P : basis -> op -> Prop) (ops : list op) (b : basis) : Prop :=
    match ops with
    | [] => True
    | o :: ops' => P b o /\ along P ops' (snd (run o b))
    end.
End Hist.
Arguments OSetH {K}. Arguments OSetS {K}. Arguments OSetU {K}. Arguments OSetDip {K}. Arguments OSetSpin {K}.
Arguments OSetSigma {K}. Arguments OSetSpf {K}. Arguments OSetBra {K}. Arguments OSetGrid {K}. Arguments OSetNuc {K}.
Arguments OChange {K}. Arguments OAntiSym {K}. Arguments ODouble {K}. Arguments OModule {K}. Arguments OCast {K}.
Arguments OReadBra {K}. Arguments ODensity {K}. Arguments OGetH {K}. Arguments OGetU {K}. Arguments OSetURepr {K}.
Arguments run {K}. Arguments run_ok {K}. Arguments run_any {K}. Arguments along {K}. Arguments drop {K A}.

(** Vocabulary of the statements about histories: conditions on what is stored
    and on the operations performed, not in terms of the library's methods. *)
Section HistSpec.
  Variable K : scalar.
  Local Open Scope nat_scope.
  Notation arr := (arr K).
  Notation basis := (basis K).
  Implicit Types (b : basis).

  (** The size condition on one attribute, from the stored array only. *)
  Definition axes_all (l : nat) (sh : list nat) : Prop := forall n, In n sh -> n = l.
  Definition size_ok b (f : field) : Prop :=
    match b_arr b f with
    | None => True
    | Some a =>
        match f with
        | F_h | F_s | F_u | F_spx | F_spy | F_spz | F_sp2 | F_sp2tb => axes_all (b_l b) (shape a)
        | F_dip => exists sh, shape a = b_dim b :: sh /\ (0 < b_dim b -> axes_all (b_l b) sh)
        | F_spf | F_bra => exists g, shape a = b_l b :: g /\ length g = b_dim b
        | _ => True
        end
    end.

  (** The condition under which every attribute keeps a correct size. *)
  Definition resize_safe b (o : op K) : Prop :=
    match o with
    | OChange C _ => nth_error (shape C) 1 = Some (b_l b) \/
        ((forall f, In f [F_spx; F_spy; F_spz; F_sp2] -> b_arr b f = None) /\ (b_arr b F_bra <> None -> b_arr b F_spf <> None))
    | ODouble _ _ => b_spin b = true \/ (b_arr b F_bra <> None -> b_arr b F_spf <> None)
    | _ => True
    end.

  (** C11: the stored two-body elements are antisymmetric in the ket pair. *)
  Definition antisymmetric_array (u : arr) : Prop :=
    exists n, shape u = [n; n; n; n] /\ antisym_ket n (ten u).
  Definition flag_truthful b : Prop :=
    b_asym b = true -> forall u, b_arr b F_u = Some u -> antisymmetric_array u.
  (** Not a DVR basis with compact two-index storage. *)
  Definition not_compact b : Prop :=
    b_cls b = SincDVR -> forall u, b_arr b F_u = Some u -> length (shape u) <> 2.
  Definition flag_safe b (o : op K) : Prop :=
    match o with
    | OSetU a => b_asym b = true -> antisymmetric_array a
    | OAntiSym => not_compact b
    | ODouble _ anti => b_spin b = true \/ (b_asym b = false /\ (anti = true -> not_compact b))
    | _ => True
    end.

  (** C32: the dual orbitals a reader sees are the conjugate of the orbitals. *)
  Definition bra_follows b : Prop :=
    opt_aeq (bra_view b) (option_map aconj (b_arr b F_spf)).
  (** C is a matrix, Ct is unset or its conjugate transpose. *)
  Definition plain_tilde (C : arr) (Ct : option arr) : Prop :=
    exists n k, shape C = [n; k] /\
    match Ct with
    | None => True
    | Some D => shape D = [k; n] /\ forall p q, p < k -> q < n -> mat D p q = adj (mat C) p q
    end.
  Definition bra_safe b (o : op K) : Prop :=
    match o with
    | OSetBra _ => False
    | OSetSpf _ => b_arr b F_bra = None
    | OChange C Ct => plain_tilde C Ct
    | _ => True
    end.
End HistSpec.
Arguments axes_all : clear implicits.
Arguments size_ok {K}. Arguments resize_safe {K}. Arguments antisymmetric_array {K}. Arguments flag_truthful {K}.
Arguments not_compact {K}. Arguments flag_safe {K}. Arguments bra_follows {K}. Arguments plain_tilde {K}. Arguments bra_safe {K}.
