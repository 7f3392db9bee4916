(** What the rounding errors of the Coulomb elements (C137) are measured with: the formula
    of CoulombSpec.v with all terms positive, the accuracy of log, exp and lgamma, and the
    bound. *)
From Coq Require Import List Arith ZArith Reals.
From Verif Require Import CoulombSpec FloatModel FloatSpec FloatCoulomb.
Open Scope R_scope.

Section Size.
  Variable Gam : R -> R.
  Definition am_inner_size (g1 g2 g3 g4 : nat) : R :=
    let G := (g1 + g2 + g3 + g4)%nat in
    Sigma l1 <= g1, Sigma l2 <= g2, Sigma l3 <= g3, Sigma l4 <= g4,
      if Nat.eq_dec (l1 + l2) (l3 + l4) then
        let L := (l1 + l2 + l3 + l4)%nat in
        Binomial.C g1 l1 * Binomial.C g2 l2 * Binomial.C g3 l3 * Binomial.C g4 l4
        * Gam (1 + INR L / 2) * Gam ((INR G - INR L + 1) / 2)
      else 0.
  (** The sum of the absolute values of the terms of [anisimovas_matulis] *)
  Definition coulomb_size (n1 : nat) (m1 : Z) (n2 : nat) (m2 : Z) (n3 : nat) (m3 : Z) (n4 : nat) (m4 : Z) : R :=
    sqrt (INR (fact n1) * INR (fact n2) * INR (fact n3) * INR (fact n4)
          / (INR (fact (n1 + Z.abs_nat m1)) * INR (fact (n2 + Z.abs_nat m2)) * INR (fact (n3 + Z.abs_nat m3)) * INR (fact (n4 + Z.abs_nat m4))))
    * Sigma j1 <= n1, Sigma j2 <= n2, Sigma j3 <= n3, Sigma j4 <= n4,
      let g1 := (j1 + j4 + mplus m1 + mminus m4)%nat in
      let g2 := (j2 + j3 + mplus m2 + mminus m3)%nat in
      let g3 := (j2 + j3 + mplus m3 + mminus m2)%nat in
      let g4 := (j1 + j4 + mplus m4 + mminus m1)%nat in
      1 / (INR (fact j1) * INR (fact j2) * INR (fact j3) * INR (fact j4))
      * Binomial.C (n1 + Z.abs_nat m1) (n1 - j1) * Binomial.C (n2 + Z.abs_nat m2) (n2 - j2)
      * Binomial.C (n3 + Z.abs_nat m3) (n3 - j3) * Binomial.C (n4 + Z.abs_nat m4) (n4 - j4)
      / sqrt (2 ^ (g1 + g2 + g3 + g4 + 1)) * am_inner_size g1 g2 g3 g4.

  (** Errors of the mathematical functions, where the elements need them: relative errors
      of at most [e], for lgamma (zero at 1 and 2) relative to 1 + |lgamma| *)
  Definition libm_accurate (e : R) (M : libm) : Prop :=
    (forall a, (2 <= a <= 50)%nat -> Rabs (flog M (INR a) - ln (INR a)) <= e * ln (INR a)) /\
    (forall k, (1 <= k <= 50)%nat ->
      Rabs (flgamma M (INR k / 2) - ln (Gam (INR k / 2))) <= e * (1 + Rabs (ln (Gam (INR k / 2))))) /\
    (forall x, float x -> -690 <= x <= 690 -> float (fexp M x) /\ Rabs (fexp M x - exp x) <= e * exp x).
End Size.

(** The excitation of a state: the states of shell R have 2n + |m| = R - 1 *)
Definition quanta (n : nat) (m : Z) : nat := (2 * n + Z.abs_nat m)%nat.

(** For four states of together [w] quanta: the error of an exponent, the number of terms
    of a sum over four indices, and the error of an element *)
Definition exponent_error (e : R) (w : nat) : R :=
  (e + 9 * (INR w + 1) * unit_roundoff) * (3 * INR w + 8) * ln (INR w + 2).
Definition terms (w : nat) : nat := ((w + 4) ^ 4 / 256)%nat.
Definition coulomb_error (e : R) (w : nat) : R :=
  (1 + e) ^ 3 * exp (3 * exponent_error e w) * grow (2 * terms w + 1) - 1.
