(** A tilted spin for C118. *)
From Coq Require Import List Arith ZArith Lia Bool.
From Verif Require Import Scalar Py Numpy Spec BasisSet BasisSpec Examples DensitySpec DensityProofs SpinDensitySpec SpinDensityProofs.
Import ListNotations.

(** One particle in the first orbital with spin (3/5, 4/5) *)
Definition tilted : arr QI := Arr [4; 4] Complex128 (fun idx => match idx with [i; j] => one_particle 0 (qr 3 5) (qr 4 5) i j | _ => s0 end).
Lemma tilted_refuted : ~ (forall (K : scalar) ab anti b l s ket bra g (rho : arr K),
  (b_cls b = SincDVR -> ab = None) ->
  orthonormal_pair (match ab with Some p => fst p | None => default_a K end) (match ab with Some p => snd p | None => default_b K end) ->
  ready b l -> b_spin b = false -> b_arr b F_s = Some s -> b_arr b F_spf = Some ket -> bra_view b = Some bra -> shape ket = l :: g -> shape bra = l :: g ->
  shape rho = [2 * l; 2 * l] ->
  exists b1 d b2, change_to_general ab anti b = (Ok true, b1) /\ compute_particle_density rho None None b1 = (Ok d, b2) /\ shape d = g /\
    forall x, valid g x -> get d x = spin_density l (mat rho) (orb bra x) (orb ket x)).
Proof.
  intros H.
  destruct (H QI None true ex_basis 2 ex_s ex_spf (aconj ex_spf) [3] tilted) as (b1 & d & b2 & E1 & E2 & _ & G); try reflexivity; try exact ex_ready; try exact default_pair.
  destruct (tilted_density QI None true ex_basis 2 ex_s ex_spf (aconj ex_spf) [3] tilted 0 (qr 3 5) (qr 4 5)) as (b1' & d' & b2' & E1' & E2' & _ & G'); try reflexivity; try exact ex_ready; try exact default_pair; try lia.
  rewrite E1 in E1'. injection E1' as <-. rewrite E2 in E2'. injection E2' as <- _.
  assert (V : valid [3] [0]) by (repeat constructor).
  destruct (G' [0] V) as [A B]. rewrite (G [0] V), A in B. clear - B. revert B.
  match goal with |- ?x = ?y -> False => intros B; apply (f_equal (fun z => qi_eqb z y)) in B end. vm_compute in B. discriminate B.
Qed.
