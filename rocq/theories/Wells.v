(** Remaining parts of quantum_systems/quantum_dots/two_dim/two_dim_ho.py. *)
From Coq Require Import List Arith ZArith Reals Bool.
From Verif Require Import Py TwoDim Coulomb.
Open Scope R_scope.

(** two_dim_ho.py:85-87: element [p, q, r, s] of u for an oscillator (the mass is not used) *)
Definition interaction_element (mass omega : R) (p q r s : nat) : R := sqrt omega * coulomb_of shell_state p q r s.

(** two_dim_ho.py:195-208, [TwoDimSmoothDoubleWell.__init__]: the assertion on l_ho_factor is
    followed by [math.floor(l * l_ho_factor)], where the name [l] is bound neither in the
    function nor in the module; a keyword argument called l goes to kwargs.  [Args] is the
    type of the remaining arguments. *)
Definition smooth_init {Args S} (args : Args) (l_ho_factor : R) : M S unit :=
  py_assert (if Rle_dec 1 l_ho_factor then true else false) ;; raise NameError.
