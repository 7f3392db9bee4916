(** Vocabulary for the compact storage of a sinc-DVR basis: two-body elements
    that vanish unless p = r and q = s are kept as one matrix. *)
From Coq Require Import List Arith ZArith Lia Bool.
From Verif Require Import Scalar Numpy Spec BasisSet BasisSpec.
Import ListNotations.

Section DvrSpec.
  Variable K : scalar.
  Local Open Scope K_scope.
  Notation arr := (arr K).
  Notation basis := (basis K).

  (** The four-index elements a matrix of nonzero values stands for. *)
  Definition spread (u : nat -> nat -> K) (p q r s : nat) : K :=
    if (p =? r)%nat && (q =? s)%nat then u p q else 0.
  Definition spread_arr (l : nat) (u : arr) : arr :=
    Arr [l; l; l; l] (dt u) (fun idx => match idx with [p; q; r; s] => spread (mat u) p q r s | _ => 0 end).
  (** The object that differs from [b] only in holding those elements in full. *)
  Definition widened (l : nat) (b : basis) : basis :=
    match b_arr b F_u with
    | None => b
    | Some u => Basis (b_cls b) (b_np b) (b_l b) (b_dim b)
        (fun f => if field_eqb f F_u then Some (spread_arr l u) else b_arr b f)
        (b_nuc b) (b_spin b) (b_asym b)
    end.
  (** A sinc-DVR basis in compact storage whose arrays all have the announced sizes. *)
  Record compact (b : basis) (l : nat) : Prop := Compact {
    cp_cls : b_cls b = SincDVR;
    cp_u : exists u, b_arr b F_u = Some u /\ shape u = [l; l];
    cp_ready : ready (widened l b) l;
    cp_tb : b_arr b F_sp2tb = None
  }.

  (** The effect of spin doubling on a compact basis: everything but u as in
      [spin_doubled]; u stays compact; spin operators are not built. *)
  Record compact_doubled (l : nat) (anti : bool) (b b' : basis) : Prop := CompactDoubled {
    cd_l : b_l b' = (2 * l)%nat;
    cd_cls : b_cls b' = b_cls b;
    cd_np : b_np b' = b_np b;
    cd_dim : b_dim b' = b_dim b;
    cd_nuc : b_nuc b' = b_nuc b;
    cd_spin : b_spin b' = true;
    cd_asym : b_asym b' = b_asym b || anti;
    cd_h : doubled1 l (b_arr b F_h) (b_arr b' F_h);
    cd_s : doubled1 l (b_arr b F_s) (b_arr b' F_s);
    cd_u : exists u u', b_arr b F_u = Some u /\ b_arr b' F_u = Some u' /\ shape u' = [2 * l; 2 * l]%nat /\
      forall P Q, mat u' P Q = mat u (P / 2) (Q / 2);
    cd_dip : doubled_dip (b_dim b) l (b_arr b F_dip) (b_arr b' F_dip);
    cd_spf : doubled_spf l (b_arr b F_spf) (b_arr b' F_spf);
    cd_bra : b_arr b F_spf <> None -> doubled_spf l (bra_view b) (b_arr b' F_bra);
    cd_none : forall f, In f [F_sigx; F_sigy; F_sigz; F_spx; F_spy; F_spz; F_sp2; F_sp2tb] ->
      b_arr b f = None -> b_arr b' f = None
  }.

  (** No spin operators have been built. *)
  Definition spinless (b : basis) : Prop := forall f, In f [F_spx; F_spy; F_spz; F_sp2; F_sp2tb] -> b_arr b f = None.
  (** Everything a user reads except the spin operators. *)
  Record same_spatial (b b' : basis) : Prop := SameSpatial {
    ss_l : b_l b = b_l b'; ss_dim : b_dim b = b_dim b'; ss_spin : b_spin b = b_spin b';
    ss_asym : b_asym b = b_asym b'; ss_nuc : b_nuc b = b_nuc b'; ss_cls : b_cls b = b_cls b';
    ss_np : b_np b = b_np b';
    ss_arr : forall f, In f [F_h; F_s; F_u; F_dip; F_spf] -> opt_aeq (b_arr b f) (b_arr b' f);
    ss_bra : b_arr b F_spf <> None -> opt_aeq (bra_view b) (bra_view b')
  }.
End DvrSpec.

Arguments spread {K}. Arguments spread_arr {K}. Arguments widened {K}. Arguments compact {K}. Arguments compact_doubled {K}. Arguments spinless {K}. Arguments same_spatial {K}.
