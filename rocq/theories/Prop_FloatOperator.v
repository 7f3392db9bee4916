(** C144: what the time-dependent Hamiltonian is worth in floating-point arithmetic. *)
From Coq Require Import List Arith ZArith Reals Bool Lra Lia.
From Coquelicot Require Import Coquelicot.
From Verif Require Import Scalar ScalarC Spec GridSpec FloatModel FloatSpec FloatExamples FloatOperator FloatOperatorProofs.
Import ListNotations.
Open Scope R_scope.

(** A laser field with any pulse and polarization, in every order of summation *)
Theorem C144_laser : forall dim h dip pol pulse p q z, laser_h dim h dip pol pulse p q z -> cfloat (h p q) ->
  accurate (2 * dim + 3) (4 * underflow * (size pulse * INR dim + 1))
    (size (h p q) + size pulse * rsum dim (fun i => size (pol i) * size (dip i p q)))
    (Cplus (h p q) (Cmult pulse (sumn (K := CC) dim (fun i => Cmult (pol i) (dip i p q))))) z.
Proof. exact laser_accurate. Qed.
Print Assumptions C144_laser.

Theorem C144_custom : forall h op weight p q z, custom_h h op weight p q z -> cfloat (h p q) ->
  accurate 3 (4 * underflow) (size (h p q) + size weight * size (op p q)) (Cplus (h p q) (Cmult weight (op p q))) z.
Proof. exact custom_accurate. Qed.
Print Assumptions C144_custom.

Theorem C144_switched : forall u weight p q r s z, switched_u u weight p q r s z ->
  accurate 2 (4 * underflow) (size weight * size (u p q r s)) (Cmult weight (u p q r s)) z.
Proof. exact switched_accurate. Qed.
Print Assumptions C144_switched.

(** Along one axis, and for the default polarization, one rounding per operation is left *)
Theorem C144_axis : forall dim h dip pol j x pulse p q z, laser_h dim h dip pol (RtoC pulse) p q z ->
  (j < dim)%nat -> (forall i, pol i = if (i =? j)%nat then RtoC x else RtoC 0) ->
  z = cadd (h p q) (rscale pulse (rscale x (dip j p q))).
Proof. exact laser_axis. Qed.
Print Assumptions C144_axis.

Theorem C144_default : forall dim h dip pulse p q z, laser_h dim h dip default_polarization (RtoC pulse) p q z ->
  (0 < dim)%nat -> cfloat (dip 0%nat p q) -> z = cadd (h p q) (rscale pulse (dip 0%nat p q)).
Proof. exact laser_default. Qed.
Print Assumptions C144_default.

(** Bit for bit Hermitian along one axis ... *)
Theorem C144_hermitian : forall dim h dip pol j x pulse p q z z',
  (j < dim)%nat -> (forall i, pol i = if (i =? j)%nat then RtoC x else RtoC 0) ->
  h q p = Cconj (h p q) -> dip j q p = Cconj (dip j p q) ->
  laser_h dim h dip pol (RtoC pulse) p q z -> laser_h dim h dip pol (RtoC pulse) q p z' -> z' = Cconj z.
Proof. exact laser_hermitian. Qed.
Print Assumptions C144_hermitian.

(** ... and up to twice the error bound for every real polarization *)
Theorem C144_nearly_hermitian : forall dim h dip (pol : nat -> R) pulse p q z z', cfloat (h p q) ->
  h q p = Cconj (h p q) -> (forall i, (i < dim)%nat -> dip i q p = Cconj (dip i p q)) ->
  laser_h dim h dip (fun i => RtoC (pol i)) (RtoC pulse) p q z -> laser_h dim h dip (fun i => RtoC (pol i)) (RtoC pulse) q p z' ->
  size (Cminus z' (Cconj z)) <=
    2 * ((grow (2 * dim + 3) - 1) * (size (h p q) + Rabs pulse * rsum dim (fun i => Rabs (pol i) * size (dip i p q))) +
         grow (2 * dim + 3) * (4 * underflow * (Rabs pulse * INR dim + 1))).
Proof. exact laser_nearly. Qed.
Print Assumptions C144_nearly_hermitian.

Theorem C144_custom_hermitian : forall h op weight p q z z',
  h q p = Cconj (h p q) -> op q p = Cconj (op p q) ->
  custom_h h op (RtoC weight) p q z -> custom_h h op (RtoC weight) q p z' -> z' = Cconj z.
Proof. exact custom_hermitian. Qed.
Print Assumptions C144_custom_hermitian.

(** Real switching keeps the symmetries of the two-body elements bit for bit *)
Theorem C144_switched_symmetric : forall u weight p q r s z, switched_u u (RtoC weight) p q r s z ->
  z = rscale weight (u p q r s) /\
  (forall z', u r s p q = Cconj (u p q r s) -> switched_u u (RtoC weight) r s p q z' -> z' = Cconj z) /\
  (forall z', u p q s r = Copp (u p q r s) -> switched_u u (RtoC weight) p q s r z' -> z' = Copp z) /\
  (forall z', u q p s r = u p q r s -> switched_u u (RtoC weight) q p s r z' -> z' = z).
Proof. exact switched_symmetric. Qed.
Print Assumptions C144_switched_symmetric.

(** Before and after the pulse not a bit changes *)
Theorem C144_off : forall dim (h op : nat -> nat -> C) dip pol (u : nat -> nat -> nat -> nat -> C) p q r s z, cfloat (h p q) -> cfloat (u p q r s) ->
  (laser_h dim h dip pol (RtoC 0) p q z -> z = h p q) /\
  (custom_h h op (RtoC 0) p q z -> z = h p q) /\
  (switched_u u (RtoC 1) p q r s z -> z = u p q r s) /\
  (switched_u u (RtoC 0) p q r s z -> z = RtoC 0).
Proof. exact switched_off. Qed.
Print Assumptions C144_off.

Example C144_instance :
  (forall p q, cfloat (ex_h p q)) /\ (forall p q, ex_h q p = Cconj (ex_h p q)) /\
  (forall i p q, cfloat (ex_dip i p q)) /\ (forall i p q, ex_dip i q p = Cconj (ex_dip i p q)) /\
  (forall dim pol pulse p q, exists z, laser_h dim ex_h ex_dip pol pulse p q z) /\
  laser_h 2 ex_h ex_dip default_polarization (RtoC tiny) 0 0 (RtoC 1) /\
  Cplus (ex_h 0%nat 0%nat) (Cmult (RtoC tiny) (sumn (K := CC) 2 (fun i => Cmult (default_polarization i) (ex_dip i 0%nat 0%nat)))) = RtoC (1 + tiny) /\
  laser_h 2 ex_h ex_dip default_polarization (RtoC tiny) 0 1 (Cmult (RtoC tiny) Ci) /\ 0 < tiny.
Proof. exact field_instance. Qed.
