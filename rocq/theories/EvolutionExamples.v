(** Two orbitals in an oscillating field. *)
From Coq Require Import Reals List Arith ZArith Lia Lra Bool.
From Coquelicot Require Import Coquelicot.
From Verif Require Import Scalar ScalarC Py Numpy Spec BasisSet BasisSpec Systems SystemFacts Worlds OperatorSpec RotationExamples FockSpec InnerSpec RaiseSpec EvolutionSpec EvolutionCalculus LinearOde.
Import ListNotations.
Open Scope R_scope.

Definition dv_dip : arr CC := @Arr CC [1; 2; 2]%nat Complex128 (fun idx => match idx with [0; 0; 1]%nat => Ci | [0; 1; 0]%nat => (- Ci)%C | _ => RtoC 0 end).
Definition dv_basis : basis CC := Basis Base (Some 0%nat) 2 1 (fun f => match f with F_h => Some lv_h | F_u => Some lv_u | F_dip => Some dv_dip | _ => None end) (RtoC 0) false false.
Definition dv_sys : system := System Spatial 0 (Some 0%nat) 1 2 1 (PySlice 0 1) (PySlice 1 2) (Some 0%nat).
Definition dv_pulse : pyval CC := Fun (fun t : CC => @Arr CC [] Float64 (fun _ => RtoC (sin (Re t)))).
Definition dv_w : world CC := World [dv_basis] [dv_sys] [Tevo (laser_field dv_pulse None) (Some 0%nat)].
Definition dv_means : meaning CC := MLaser (fun t : CC => RtoC (sin (Re t))) (fun _ i => @delta CC i 0).
Lemma dv_evolving : evolving dv_w 0 2 dv_sys lv_h lv_u (Some dv_dip) dv_means.
Proof.
  constructor; try reflexivity; [discriminate|]. exists 0%nat. eexists. exists dv_basis. split; [reflexivity|]. split; [reflexivity|].
  repeat (split; [reflexivity|]). cbn. exists dv_dip, 1%nat. split; [reflexivity|]. split; [reflexivity|]. split; [lia|].
  split; [|split; [intros t i _; reflexivity | left; reflexivity]].
  intros t. eexists. split; [reflexivity|]. split; reflexivity.
Qed.
Lemma dv_term t p q : one_body_term (K := CC) dv_means (Some dv_dip) (RtoC t) p q = (RtoC (sin t) * (RtoC 0 + RtoC 1 * get dv_dip [0%nat; p; q]))%C.
Proof. reflexivity. Qed.
Lemma dv_hermitian : hermitian_drive 2 (Some dv_dip) dv_means.
Proof.
  intros t. split; [|reflexivity]. intros p q Hp Hq. rewrite !dv_term.
  destruct p as [|[|p]]; [| |lia]; (destruct q as [|[|q]]; [| |lia]); cbn; unfold Ci, RtoC, Cconj, Copp, Cmult, Cplus; cbn; f_equal; ring.
Qed.
Lemma sin_der t : derivative (fun y => RtoC (sin y)) t (RtoC (cos t)).
Proof. split; cbn; auto_derive; try exact I; ring. Qed.
Lemma dv_continuous : continuous_drive 2 (Some dv_dip) dv_means.
Proof.
  split; [|exact (ccont_const (RtoC 1))]. intros p q _ _.
  exact (ccont_mul (fun t => RtoC (sin t)) (fun _ => (RtoC 0 + RtoC 1 * get dv_dip [0%nat; p; q])%C) (ccont_der _ _ sin_der) (ccont_const _)).
Qed.
