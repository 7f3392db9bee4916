(** Every orbital of the two-level example occupied. *)
From Coq Require Import List Arith ZArith Reals Lra Lia.
From Coquelicot Require Import Coquelicot.
From Verif Require Import Scalar ScalarC Py Numpy BasisSet Spec EnergySpec EnergyFacts Systems SystemFacts RotationExamples KoopmansProofs FockSpec InnerSpec RaiseSpec HoleSpec HoleSystems ElectronProofs.
Import ListNotations.
Open Scope R_scope.

Lemma lv_eigenvalue (A : nat -> nat -> C) p x : (p < 2)%nat -> (forall q r, (q < 2)%nat -> (r < 2)%nat -> A q r = if (q =? r)%nat then if (q =? p)%nat then RtoC x else A q r else RtoC 0) -> eigenvalue 2 A x.
Proof.
  intros Hp HA. exists (fun q => if (q =? p)%nat then RtoC 1 else RtoC 0). split.
  - exists p. split; [exact Hp|]. rewrite Nat.eqb_refl. intros E. apply (f_equal fst) in E. cbn in E. lra.
  - intros q Hq. cbn [sumn]. rewrite (HA q 0%nat), (HA q 1%nat) by lia.
    destruct q as [|[|q]]; [| |lia]; destruct p as [|[|p]]; try lia; apply injective_projections; cbn; ring.
Qed.
Lemma hole_instance : exists w' y, set_system_size 0 2 2 lv_w = (Ok tt, w') /\ sys_at w' 0 Spatial 2 2 y lv_basis /\
  b_arr lv_basis F_h = Some lv_h /\ b_arr lv_basis F_u = Some lv_u /\ buffer_ok NoBuffer lv_h lv_u /\
  hermitian 2 (mat lv_h) /\ hermitian2 2 (ten lv_u) /\ particle_sym 2 (ten lv_u) /\
  exact_energy Spatial 2 (mat lv_h) (ten lv_u) 3 2 /\ exact_energy Spatial 2 (mat lv_h) (ten lv_u) 3 1 /\
  exact_energy Spatial 2 (mat lv_h) (ten lv_u) 1 1 /\ exact_energy Spatial 2 (mat lv_h) (ten lv_u) 1 0.
Proof.
  destruct (set_size_ok CC 0 lv_w Spatial 1 2 lv_sys lv_basis 2 lv_at (le_n 2)) as (w' & E & A). exists w'. eexists.
  split; [exact E|]. split; [exact A|]. split; [reflexivity|]. split; [reflexivity|]. split; [reflexivity|].
  split; [exact lv_hermitian|]. split; [exact lv_hermitian2|]. split; [exact lv_particle|].
  assert (F : forall p q, fock_full Spatial 2 (mat lv_h) (ten lv_u) p q = mat lv_h p q).
  { intros p q. unfold fock_full, F_restricted. cbn [sumn]. apply injective_projections; cbn; ring. }
  assert (En : Re (energy_full Spatial 2 (mat lv_h) (ten lv_u)) = 2) by (cbn; ring).
  assert (V : forall p, (p < 2)%nat -> eigenvalue 2 (mat lv_h) (INR p)).
  { intros p Hp. apply (lv_eigenvalue _ p); [exact Hp|]. intros q r Hq Hr.
    destruct q as [|[|q]]; [| |lia]; (destruct r as [|[|r]]; [| |lia]); destruct p as [|[|p]]; try lia; reflexivity. }
  split; [|split; [|split]].
  - apply (hole_kind Spatial 2 (mat lv_h) (ten lv_u) 2 ltac:(lia) lv_hermitian lv_hermitian2 ltac:(discriminate) lv_particle).
    apply (eigenvalue_ext 2 _ (mat lv_h)); [intros; apply F|]. rewrite En. replace (2 - 2) with (INR 0) by (cbn; ring). apply V. lia.
  - apply (hole_kind Spatial 2 (mat lv_h) (ten lv_u) 1 ltac:(lia) lv_hermitian lv_hermitian2 ltac:(discriminate) lv_particle).
    apply (eigenvalue_ext 2 _ (mat lv_h)); [intros; apply F|]. rewrite En. replace (2 - 1) with (INR 1) by (cbn; ring). apply V. lia.
  - apply electron_kind. apply (V 1%nat). lia.
  - apply electron_kind. apply (V 0%nat). lia.
Qed.
