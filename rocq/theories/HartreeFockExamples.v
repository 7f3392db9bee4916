(** Two spin-orbitals that repel each other, one of them occupied. *)
From Coq Require Import Reals List Arith ZArith Lia Lra Bool.
From Coquelicot Require Import Coquelicot.
From Verif Require Import Scalar ScalarC Py Numpy Spec BasisSet BasisSpec EnergySpec EnergyFacts Systems SystemFacts RotationSpec RotationTheorems RotationExamples SpectralSpec HartreeFockProofs HartreeFockTheorems.
Import ListNotations.

Definition gv_u : arr CC := @Arr CC [2; 2; 2; 2]%nat Complex128 (fun idx => match idx with
  | [0; 1; 0; 1]%nat | [1; 0; 1; 0]%nat => RtoC (1 / 4) | [0; 1; 1; 0]%nat | [1; 0; 0; 1]%nat => RtoC (-1 / 4) | _ => RtoC 0 end).
Definition gv_basis : basis CC := Basis Base (Some 0%nat) 2 1 (fun f => match f with F_h => Some lv_h | F_u => Some gv_u | _ => None end) (RtoC 0) false true.
Definition gv_sys : system := System General 0 (Some 0%nat) 1 2 1 (PySlice 0 1) (PySlice 1 2) None.
Definition gv_w : world CC := World [gv_basis] [gv_sys] [].
Lemma gv_at : sys_at gv_w 0 General 1 2 gv_sys gv_basis.
Proof.
  constructor; try reflexivity; [exists 0%nat; reflexivity | lia |]. constructor; cbn; try discriminate.
  - exists 0%nat. reflexivity.
  - reflexivity.
  - exists lv_h. split; reflexivity.
  - exists gv_u. split; reflexivity.
  - intros f a Hf E. cbn in Hf. destruct Hf as [<-|[<-|[<-|[<-|[]]]]]; discriminate E.
Qed.
Ltac two p := destruct p as [|[|p]]; [| |lia].
Lemma gv_hermitian2 : hermitian2 2 (ten gv_u).
Proof. intros p q r s Hp Hq Hr Hs. two p; two q; two r; two s; unfold ten; cbn; unfold Cconj, RtoC; cbn; f_equal; lra. Qed.
Lemma gv_particle : particle_sym 2 (ten gv_u).
Proof. intros p q r s Hp Hq Hr Hs. two p; two q; two r; two s; reflexivity. Qed.
Lemma gv_antisym : antisym_ket 2 (ten gv_u).
Proof. intros p q r s Hp Hq Hr Hs. two p; two q; two r; two s; unfold ten; cbn; unfold Copp, RtoC; cbn; f_equal; lra. Qed.
Lemma gv_energy : reference_energy 0 gv_w = (Ok (RtoC 0), gv_w).
Proof.
  rewrite (reference_energy_ok CC gv_w 0 General 1 2 gv_sys gv_basis lv_h gv_u gv_at eq_refl eq_refl eq_refl eq_refl).
  f_equal. f_equal. unfold E_general. cbn. unfold Cminus, Copp, Cplus, Cmult, RtoC. cbn. f_equal; ring.
Qed.
Lemma gv_minimal : forall (C : arr CC) w' e', shape C = [2; 2]%nat -> unitary 2 (mat C) ->
  sys_change_basis 0 C None gv_w = (Ok tt, w') -> reference_energy 0 w' = (Ok e', w') -> (0 <= Re e')%R.
Proof.
  intros C w' e' SC _ E1 E2.
  destruct (changed_system CC gv_w 0 General 1 2 gv_sys gv_basis C None lv_h gv_u gv_at SC SC ltac:(reflexivity) eq_refl eq_refl) as (w1 & x1 & bb & h1 & u1 & H1 & _ & _ & _ & _ & _ & _ & _ & _ & H2).
  rewrite E1 in H1. injection H1 as <-. rewrite E2 in H2. injection H2 as ->.
  unfold energy_of, E_general, T1, T2. cbn [sumn]. unfold tilde, adj. destruct (mat C 0 0) as [a1 a2], (mat C 1 0) as [b1 b2].
  unfold mat, ten. cbn. unfold Re. cbn. match goal with |- (0 <= ?x)%R => replace x with (b1 * b1 + b2 * b2)%R by field end.
  apply Rplus_le_le_0_compat; apply Rle_0_sqr.
Qed.
