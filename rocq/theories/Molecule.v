(** Model of quantum_systems/custom_system.py: the two PySCF constructors.  PySCF is an
    oracle: a record of whatever its calls return. *)
From Coq Require Import List Arith ZArith Bool.
From Verif Require Import Scalar Py Numpy BasisSet Systems.
Import ListNotations.

Section Molecule.
  Variable K : scalar.
  (** mol.nelectron, mol.nao, mol.energy_nuc(), get_hcore(mol), intor_symmetric("int1e_ovlp"),
      intor("int2e") and intor("int1e_r") after their reshape, hf.mo_coeff *)
  Record molecule := Molecule {
    m_n : nat; m_l : nat; m_nuc : K; m_h : arr K; m_s : arr K; m_eri : arr K; m_r : arr K; m_mo : arr K }.
  Variables (npm : nat) (mol : molecule).
  (** custom_system.py:83-92 and 194-203 *)
  Definition pyscf_fill (u : arr K) : BM K unit :=
    set_sq F_h (m_h mol) ;;
    set_sq F_s (m_s mol) ;;
    set_sq F_u u ;;
    modify (set_nuc (m_nuc mol)) ;;
    set_dipole (m_r mol) ;;
    change_module npm.
  Definition pyscf_basis : WM K nat :=
    let* u := lift (transpose [0; 2; 1; 3]%nat (m_eri mol)) in
    let* i := alloc_basis (new_basis K Base npm (m_l mol) 3 false false) in
    on_basis i (pyscf_fill u) ;;
    ret i.
  (** custom_system.py:98-102 and 208-212; construct_general_orbital_system is called with
      its default spin vectors *)
  Definition pyscf_return (s : nat) (add_spin anti : bool) : WM K nat :=
    if add_spin then construct_general s (default_a K) (default_b K) anti else ret s.
  (** custom_system.py:11-102 *)
  Definition pyscf_ao (add_spin anti : bool) : WM K nat :=
    let* i := pyscf_basis in
    let* s := spatial_init (Z.of_nat (m_n mol)) i in
    pyscf_return s add_spin anti.
  (** custom_system.py:105-212.  Warnings and printing leave no trace here. *)
  Definition pyscf_rhf (add_spin anti : bool) : WM K nat :=
    py_assert (m_n mol mod 2 =? 0)%nat ;;
    let* i := pyscf_basis in
    let* s := spatial_init (Z.of_nat (m_n mol)) i in
    sys_change_basis s (m_mo mol) None ;;
    pyscf_return s add_spin anti.
End Molecule.
Arguments m_n {K}. Arguments m_l {K}. Arguments m_nuc {K}. Arguments m_h {K}. Arguments m_s {K}. Arguments m_eri {K}.
Arguments m_r {K}. Arguments m_mo {K}. Arguments Molecule {K}. Arguments pyscf_basis {K}. Arguments pyscf_fill {K}.
Arguments pyscf_return {K}. Arguments pyscf_ao {K}. Arguments pyscf_rhf {K}.
