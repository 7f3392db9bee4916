(** The formula of Anisimovas and Matulis, J. Phys.: Condens. Matter 10, 601 (1998), for
    the Coulomb elements of the two-dimensional oscillator (C44), over the standard
    library's factorials, binomial coefficients and finite sums. *)
From Coq Require Import List Arith ZArith Lia Bool Reals.
Import ListNotations.
Open Scope R_scope.

(** Sum over k = 0..n. *)
Notation "'Sigma' k '<=' n ',' e" := (sum_f_R0 (fun k => e) n) (at level 60, k binder, n at level 30, e at level 60).

(** What is used of the Gamma function. *)
Definition is_gamma (Gam : R -> R) : Prop :=
  Gam (1 / 2) = sqrt PI /\ Gam 1 = 1 /\ forall x, 0 < x -> Gam (x + 1) = x * Gam x.

(** The numbers written gamma_1 to gamma_4 in the article. *)
Definition mplus (m : Z) : nat := Z.to_nat m.
Definition mminus (m : Z) : nat := Z.to_nat (- m).

Section Formula.
  Variable Gam : R -> R.
  Definition am_inner (g1 g2 g3 g4 : nat) : R :=
    let G := (g1 + g2 + g3 + g4)%nat in
    Sigma l1 <= g1, Sigma l2 <= g2, Sigma l3 <= g3, Sigma l4 <= g4,
      if Nat.eq_dec (l1 + l2) (l3 + l4) then
        let L := (l1 + l2 + l3 + l4)%nat in
        (-1) ^ (g2 + g3 - l2 - l3) * Binomial.C g1 l1 * Binomial.C g2 l2 * Binomial.C g3 l3 * Binomial.C g4 l4
        * Gam (1 + INR L / 2) * Gam ((INR G - INR L + 1) / 2)
      else 0.
  (** The matrix element with the article's order of the four states: 1 and 4 belong to
      one electron, 2 and 3 to the other. *)
  Definition anisimovas_matulis (n1 : nat) (m1 : Z) (n2 : nat) (m2 : Z) (n3 : nat) (m3 : Z) (n4 : nat) (m4 : Z) : R :=
    if Z.eq_dec (m1 + m2) (m3 + m4) then
      sqrt (INR (fact n1) * INR (fact n2) * INR (fact n3) * INR (fact n4)
            / (INR (fact (n1 + Z.abs_nat m1)) * INR (fact (n2 + Z.abs_nat m2)) * INR (fact (n3 + Z.abs_nat m3)) * INR (fact (n4 + Z.abs_nat m4))))
      * Sigma j1 <= n1, Sigma j2 <= n2, Sigma j3 <= n3, Sigma j4 <= n4,
        let g1 := (j1 + j4 + mplus m1 + mminus m4)%nat in
        let g2 := (j2 + j3 + mplus m2 + mminus m3)%nat in
        let g3 := (j2 + j3 + mplus m3 + mminus m2)%nat in
        let g4 := (j1 + j4 + mplus m4 + mminus m1)%nat in
        (-1) ^ (j1 + j2 + j3 + j4) / (INR (fact j1) * INR (fact j2) * INR (fact j3) * INR (fact j4))
        * Binomial.C (n1 + Z.abs_nat m1) (n1 - j1) * Binomial.C (n2 + Z.abs_nat m2) (n2 - j2)
        * Binomial.C (n3 + Z.abs_nat m3) (n3 - j3) * Binomial.C (n4 + Z.abs_nat m4) (n4 - j4)
        / sqrt (2 ^ (g1 + g2 + g3 + g4 + 1)) * am_inner g1 g2 g3 g4
    else 0.
End Formula.
