(** Two levels without interaction: the lower one has the lowest energy. *)
From Coq Require Import Reals List Arith ZArith Lia Lra Bool.
From Coquelicot Require Import Coquelicot.
From Verif Require Import Scalar ScalarC Py Numpy Spec BasisSet BasisSpec EnergySpec EnergyFacts Systems SystemFacts RotationSpec RotationTheorems.
Import ListNotations.

Definition lv_h : arr CC := @Arr CC [2; 2]%nat Complex128 (fun idx => match idx with [1%nat; 1%nat] => RtoC 1 | _ => RtoC 0 end).
Definition lv_u : arr CC := @Arr CC [2; 2; 2; 2]%nat Complex128 (fun _ => RtoC 0).
Definition lv_basis : basis CC := Basis Base (Some 0%nat) 2 1 (fun f => match f with F_h => Some lv_h | F_u => Some lv_u | _ => None end) (RtoC 0) false false.
Definition lv_w : world CC := World [lv_basis] [System Spatial 0 (Some 0%nat) 1 2 1 (PySlice 0 1) (PySlice 1 2) None] [].
Definition lv_sys : system := System Spatial 0 (Some 0%nat) 1 2 1 (PySlice 0 1) (PySlice 1 2) None.
Lemma lv_at : sys_at lv_w 0 Spatial 1 2 lv_sys lv_basis.
Proof.
  constructor; try reflexivity; [exists 0%nat; reflexivity | lia |]. constructor; cbn; try discriminate.
  - exists 0%nat. reflexivity.
  - reflexivity.
  - exists lv_h. split; reflexivity.
  - exists lv_u. split; reflexivity.
  - intros f a Hf E. cbn in Hf. destruct Hf as [<-|[<-|[<-|[<-|[]]]]]; discriminate E.
Qed.
Lemma lv_hermitian : hermitian 2 (mat lv_h).
Proof. intros [|[|p]] [|[|q]] Hp Hq; try lia; unfold mat; cbn; unfold Cconj, RtoC; cbn; f_equal; lra. Qed.
Lemma lv_hermitian2 : hermitian2 2 (ten lv_u).
Proof. intros p q r s _ _ _ _. unfold ten. cbn. unfold Cconj, RtoC. cbn. f_equal. lra. Qed.
Lemma lv_particle : particle_sym 2 (ten lv_u).
Proof. intros p q r s _ _ _ _. reflexivity. Qed.
Lemma lv_energy : reference_energy 0 lv_w = (Ok (RtoC 0), lv_w).
Proof.
  rewrite (reference_energy_ok CC lv_w 0 Spatial 1 2 lv_sys lv_basis lv_h lv_u lv_at eq_refl eq_refl eq_refl eq_refl).
  f_equal. f_equal. unfold E_restricted. cbn. unfold Cminus, Copp, Cplus, Cmult, RtoC. cbn. f_equal; ring.
Qed.
Lemma lv_minimal : forall (C : arr CC) w' e', shape C = [2; 2]%nat ->
  (forall p q, (p < 2)%nat -> (q < 2)%nat -> mmul 2 (adj (mat C)) (mat C) p q = delta p q) ->
  sys_change_basis 0 C None lv_w = (Ok tt, w') -> reference_energy 0 w' = (Ok e', w') -> Re (RtoC 0) <= Re e'.
Proof.
  intros C w' e' SC _ E1 E2.
  destruct (energy_expansion CC 0 lv_w Spatial 1 2 2 lv_sys lv_basis C None lv_h lv_u NoBuffer lv_at SC SC (or_introl eq_refl) ltac:(reflexivity) ltac:(lia) eq_refl eq_refl eq_refl lv_particle)
    as (w1 & e & e1 & F & H1 & HF & H2 & H3 & H4).
  rewrite E1 in H1. injection H1 as <-. rewrite E2 in H3. injection H3 as <-. rewrite lv_energy in H2. injection H2 as <-.
  destruct (fock_matrix_ok CC lv_w 0 Spatial 1 2 lv_sys lv_basis lv_h lv_u NoBuffer lv_at eq_refl eq_refl eq_refl) as (F1 & HF1 & _ & GF).
  rewrite HF in HF1. injection HF1 as <-. rewrite H4. unfold expansion, trace2, curv. cbn [sumn].
  rewrite !GF by lia. unfold density_change, F_restricted. cbn [sumn]. unfold tilde, adj. destruct (mat C 0 0) as [a1 a2], (mat C 1 0) as [b1 b2].
  cbn. unfold Re. cbn. nra.
Qed.
