From Coq Require Import Reals Lra.
From Verif Require Import Py Potentials PotentialProofs KinkProofs.
Open Scope R_scope.

(** C58, at the kink of the double well: the derivative is the limit of the central difference
    quotients at every point, and at 0 it is the mean of the two one-sided slopes, which differ
    unless l or omega is 0. *)
Theorem C58_double_well :
  forall omega l x v, derivative (DW omega l) x = Ok v -> central_slope (call (DW omega l)) x v.
Proof. exact well_central. Qed.
Print Assumptions C58_double_well.
Theorem C58_kink :
  forall omega l, right_slope (call (DW omega l)) 0 (- (l * omega ^ 2 / 2)) /\ left_slope (call (DW omega l)) 0 (l * omega ^ 2 / 2).
Proof. exact well_kink. Qed.
Print Assumptions C58_kink.
Example C58_kink_instance : derivative (DW 1 5) 0 = Ok 0 /\ - (5 * 1 ^ 2 / 2) <> 5 * 1 ^ 2 / 2.
Proof. split; [|lra]. unfold derivative, heaviside. destruct (Rlt_dec 0 0); [lra|]. f_equal. field. Qed.
