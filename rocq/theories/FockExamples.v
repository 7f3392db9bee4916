(** Concrete cases for the second-quantization properties. *)
From Coq Require Import List Arith ZArith Lia Bool.
From Verif Require Import Scalar Py Numpy Spec BasisSet BasisSpec Examples Histories HistExamples SpinFacts EnergySpec EnergyFacts EnergyProofs
  Systems SystemFacts SystemProofs Worlds WorldProofs SystemExamples FockSpec.
Import ListNotations.

(** An anti-symmetrized two-body array over two spin-orbitals, <01||01> = 3. *)
Definition fk_u : arr QI := Arr [2; 2; 2; 2]%nat Complex128 (fun i =>
  match i with
  | [p; q; r; s] => if (p =? q) || (r =? s) then qz 0 0 else if p =? r then qz 3 0 else qz (-3) 0
  | _ => qz 0 0
  end).
Definition fk_basis : basis QI := set_arr F_u (Some fk_u) ex_basis.
Definition fk_w : world QI := World [ex_basis; fk_basis] [ex_sys; ex_gsys] [].
Lemma fk_ready : ready fk_basis 2.
Proof.
  constructor; cbn.
  - exists 0. reflexivity.
  - reflexivity.
  - exists ex_h. split; reflexivity.
  - exists fk_u. split; reflexivity.
  - intros a E. injection E as <-. reflexivity.
  - intros a E. injection E as <-. split; [reflexivity | lia].
  - intros a E. injection E as <-. exists [3]. split; reflexivity.
  - discriminate.
  - intros f a H E. destruct H as [<-|[<-|[<-|[<-|[]]]]]; discriminate E.
  - discriminate.
Qed.
Lemma fk_sys_at : sys_at fk_w 1 General 1 2 ex_gsys fk_basis.
Proof. constructor; try reflexivity; [exists 0; reflexivity | lia | exact fk_ready]. Qed.
Lemma fk_antisym : antisym_ket 2 (ten fk_u).
Proof. intros [|[|p]] [|[|q]] [|[|r]] [|[|s]] Hp Hq Hr Hs; try lia; qi. Qed.
Lemma fk_particle : particle_sym 2 (ten fk_u).
Proof. intros [|[|p]] [|[|q]] [|[|r]] [|[|s]] Hp Hq Hr Hs; try lia; qi. Qed.
Lemma lowest_closed n : closed_shell (lowest (2 * n)).
Proof. intros p. unfold lowest. destruct (Nat.ltb_spec (2 * p) (2 * n)), (Nat.ltb_spec (2 * p + 1) (2 * n)); lia || reflexivity. Qed.
