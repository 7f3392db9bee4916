(** Instances for C33-C35. *)
From Coq Require Import List Arith ZArith Lia Bool.
From Verif Require Import Scalar Py Numpy Spec BasisSet BasisSpec Examples DensitySpec DensityProofs.
Import ListNotations.

Lemma density_instance : b_arr ex_basis F_spf = Some ex_spf /\ shape ex_spf = [2; 3] /\ dt ex_spf = Complex128 /\
  hermitian 2 (mat ex_h) /\
  exists d b', compute_particle_density ex_h None None ex_basis = (Ok d, b') /\ get d [1] = qz 5 0.
Proof.
  repeat split; [intros [|[|p]] [|[|q]] Hp Hq; try lia; qi|].
  destruct (density_formula QI ex_basis ex_h ex_spf (aconj ex_spf) 2 [3]) as (d & b' & E & _ & _ & G); try reflexivity.
  { exists 0. reflexivity. }
  exists d, b'. split; [exact E|]. rewrite G by (repeat constructor). qi.
Qed.

(** Two real orbitals. *)
Definition ex_spf_real : arr QI := lit2 Float64 [[qz 1 0; qz 2 0; qz 0 0]; [qz 0 0; qz 1 0; qz 5 0]].
Definition ex_basis_real : basis QI := set_arr F_spf (Some ex_spf_real) ex_basis.
Lemma density_types_refuted : ~ (forall (K : scalar) (b : basis K) (rho ket bra : arr K) (n : nat) (g : list nat),
  (exists m, b_np b = Some m) -> b_arr b F_spf = Some ket -> bra_view b = Some bra ->
  shape ket = n :: g -> shape bra = n :: g -> shape rho = [n; n] ->
  exists d b', compute_particle_density rho None None b = (Ok d, b')).
Proof.
  intros H. destruct (H QI ex_basis_real ex_h ex_spf_real (aconj ex_spf_real) 2 [3]) as (d & b' & E); try reflexivity.
  { exists 0. reflexivity. }
  pose proof (density_types QI ex_basis_real ex_h ex_spf_real (aconj ex_spf_real) 2 [3]) as T.
  rewrite E in T. cbn [fst] in T. destruct T as (_ & T & _); try reflexivity; try (exists 0; reflexivity); try lia.
  discriminate T.
Qed.
