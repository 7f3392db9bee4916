(** Double precision in the matrices of the sinc-DVR system (C141). *)
From Coq Require Import List Arith ZArith Reals.
From Flocq Require Import Core.
From Coquelicot Require Import Coquelicot.
From Verif Require Import OneDim SincDvr FloatModel FloatSpec FloatDvr FloatDvrSpec FloatDvrProofs FloatDvrTheorems.
Open Scope R_scope.

(** C141: off the diagonal h misses its exact value by at most 35 (l - 1) units of roundoff. *)
Theorem C141_offdiagonal : forall sq l L, good_square sq -> float L -> bpow radix2 (-400) <= L -> L <= bpow radix2 400 -> (2 <= l)%nat -> (Z.of_nat l <= 2 ^ 26)%Z ->
  forall V fv i j, (i < l)%nat -> (j < l)%nat -> i <> j -> within (35 * INR (l - 1) * unit_roundoff) (dvr_h l L V i j) (fdvr_h sq l L fv i j).
Proof. exact h_offdiagonal. Qed.
Print Assumptions C141_offdiagonal.

(** C141: on the diagonal the rounding error is that of the kinetic energy and of the potential. *)
Theorem C141_diagonal : forall sq l L, good_square sq -> float L -> bpow radix2 (-400) <= L -> L <= bpow radix2 400 -> (2 <= l)%nat -> (Z.of_nat l <= 2 ^ 26)%Z ->
  forall fv V i, float (fv i) ->
  Rabs (fdvr_h sq l L fv i i - dvr_h l L V i i) <=
    38 * INR (l - 1) * unit_roundoff * (PI ^ 2 / (6 * (2 * L / INR (l - 1)) ^ 2)) + unit_roundoff * Rabs (V (linspace L l i)) + 2 * Rabs (fv i - V (linspace L l i)).
Proof. exact diagonal_error. Qed.
Print Assumptions C141_diagonal.

(** C141: the computed h and u are exactly symmetric, and the computed kinetic energy depends on
    the distance of the points alone. *)
Theorem C141_symmetric : forall sq l L a alpha fv,
  (forall i j, fdvr_h sq l L fv i j = fdvr_h sq l L fv j i) /\
  (forall p q, fdvr_data l L a alpha p q = fdvr_data l L a alpha q p) /\
  (forall i j k, i <> j -> fdvr_h sq l L fv (i + k) (j + k) = fdvr_h sq l L fv i j).
Proof. exact exact_symmetry. Qed.
Print Assumptions C141_symmetric.

(** C141: the computed two-body elements are positive and near their exact values. *)
Theorem C141_interaction : forall l L alpha a p q, float L -> bpow radix2 (-400) <= L -> (2 <= l)%nat -> (Z.of_nat l <= 2 ^ 26)%Z ->
  0 < alpha -> bpow radix2 (-450) <= Rabs a -> bpow radix2 (-1021) <= shielded_coulomb (- L) L alpha a -> (p < l)%nat -> (q < l)%nat ->
  0 < fdvr_data l L a alpha p q /\
  Rabs (fdvr_data l L a alpha p q - dvr_data l L a alpha p q) <= 8 * unit_roundoff * dvr_data l L a alpha p q + 13 * unit_roundoff * L * (alpha / a ^ 2).
Proof. exact data_error. Qed.
Print Assumptions C141_interaction.

(** The correctly rounded square is good, and 401 points on [-10, 10] meet every hypothesis. *)
Example C141_instance : good_square (fun x => fmul x x) /\ float 10 /\ bpow radix2 (-400) <= 10 <= bpow radix2 400 /\ (2 <= 401)%nat /\ (Z.of_nat 401 <= 2 ^ 26)%Z /\
  0 < 1 /\ bpow radix2 (-450) <= Rabs (1 / 4) /\ bpow radix2 (-1021) <= shielded_coulomb (- 10) 10 1 (1 / 4).
Proof. exact dvr_instance. Qed.
