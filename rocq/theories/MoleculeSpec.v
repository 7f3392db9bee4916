(** What a basis set and a system made from molecular integrals should hold. *)
From Coq Require Import List Arith ZArith Bool.
From Verif Require Import Scalar Numpy Spec BasisSet BasisSpec Systems Molecule.
Import ListNotations.
Section MoleculeSpec.
  Variable K : scalar.
  (** Integrals of the announced sizes; [k] molecular orbitals *)
  Record integrals (mol : molecule K) (k : nat) : Prop := Integrals {
    in_h : shape (m_h mol) = [m_l mol; m_l mol]; in_s : shape (m_s mol) = [m_l mol; m_l mol];
    in_eri : shape (m_eri mol) = [m_l mol; m_l mol; m_l mol; m_l mol];
    in_r : shape (m_r mol) = [3; m_l mol; m_l mol]; in_mo : shape (m_mo mol) = [m_l mol; k] }.
  (** The basis set of atomic orbitals; m_eri p r q s is (pr|qs) *)
  Record atomic (mol : molecule K) (b : basis K) : Prop := Atomic {
    at_cls : b_cls b = Base; at_l : b_l b = m_l mol; at_dim : b_dim b = 3; at_nuc : b_nuc b = m_nuc mol;
    at_spin : b_spin b = false; at_asym : b_asym b = false;
    at_h : b_arr b F_h = Some (m_h mol); at_s : b_arr b F_s = Some (m_s mol); at_r : b_arr b F_dip = Some (m_r mol);
    at_u : exists u, b_arr b F_u = Some u /\ shape u = [m_l mol; m_l mol; m_l mol; m_l mol] /\
      forall p q r s, ten u p q r s = ten (m_eri mol) p r q s;
    at_rest : forall f, ~ In f [F_h; F_s; F_dip; F_u] -> b_arr b f = None }.
  (** The orbitals are orthonormal: C^H S C = 1 *)
  Definition orthonormal_orbitals (mol : molecule K) (k : nat) : Prop :=
    forall p q, p < k -> q < k -> T1 (m_l mol) (mat (m_s mol)) (mat (m_mo mol)) (adj (mat (m_mo mol))) p q = delta p q.
  (** Electron-repulsion integrals over real functions: exchange of the electrons, and of the
      functions of one electron *)
  Definition repulsion (n : nat) (g : nat -> nat -> nat -> nat -> K) : Prop :=
    forall p q r s, p < n -> q < n -> r < n -> s < n ->
      g p q r s = g r s p q /\ g p q r s = g q p r s /\ sconj (g p q r s) = g p q r s.
End MoleculeSpec.
Arguments integrals {K}. Arguments atomic {K}. Arguments orthonormal_orbitals {K}. Arguments repulsion {K}.
