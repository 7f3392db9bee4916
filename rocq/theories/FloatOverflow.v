(** Floating point with overflow.  Here a float64 is Flocq's [binary_float 53 1024], with
    signed zeros, infinities and NaN, and every operation is the IEEE one, rounding to
    nearest even.  Only the normalization of the one-dimensional oscillator functions and
    what is multiplied with it are modelled this way.  Names end in [64]. *)
From Coq Require Import List Arith ZArith Reals.
From Flocq Require Import Core BinarySingleNaN.
From Verif Require Import Scalar.

Definition b64 : Type := binary_float 53 1024.
Definition mul64 : b64 -> b64 -> b64 := Bmult (prec := 53) (emax := 1024) (prec_gt_0_ := eq_refl) (prec_lt_emax_ := eq_refl) mode_NE.
Definition div64 : b64 -> b64 -> b64 := Bdiv (prec := 53) (emax := 1024) (prec_gt_0_ := eq_refl) (prec_lt_emax_ := eq_refl) mode_NE.
Definition sqrt64 : b64 -> b64 := Bsqrt (prec := 53) (emax := 1024) (prec_gt_0_ := eq_refl) (prec_lt_emax_ := eq_refl) mode_NE.
(** The float next to an integer *)
Definition int64 (z : Z) : b64 := binary_normalize 53 1024 eq_refl eq_refl mode_NE z 0 false.
Definition one64 : b64 := int64 1.

(** A Python integer in a product with a float is converted first; OverflowError (None)
    when it is 2^1024 or more. *)
Definition pow2_64 (n : nat) : option b64 := if (n <? 1024)%nat then Some (int64 (2 ^ Z.of_nat n)) else None.

Section Oscillator.
  (** scipy.special.factorial, and the values of (omega / pi) ** 0.25 and of np.sqrt(np.pi),
      omega *)
  Variables (factorial : nat -> b64) (quarter sqrt_pi omega : b64).
  (** one_dim_qd.py:142-147 normalization, left to right *)
  Definition normalization64 (n : nat) : option b64 :=
    option_map (fun t => mul64 (div64 one64 (sqrt64 (mul64 t (factorial n)))) quarter) (pow2_64 n).
  (** one_dim_qd.py:135-140 ho_function at one point of the grid; [e] is the value of np.exp
      and [p] that of the polynomial there *)
  Definition ho_function64 (n : nat) (e p : b64) : option b64 :=
    option_map (fun N => mul64 (mul64 N e) p) (normalization64 n).
  (** one_dim_qd.py:149-166 construct_dipole_moment: the element between n and n + 1 *)
  Definition dipole64 (n : nat) : option b64 :=
    match normalization64 n, normalization64 (S n), pow2_64 n with
    | Some Nn, Some Nu, Some t =>
        Some (div64 (mul64 (mul64 (mul64 (mul64 (mul64 Nn Nu) (int64 (Z.of_nat (S n)))) sqrt_pi) t) (factorial n)) omega)
    | _, _, _ => None
    end.
End Oscillator.
