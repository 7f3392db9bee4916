(** Model of quantum_systems/quantum_dots/one_dim/one_dim_potentials.py over the real
    numbers.  The methods act on arrays point by point; the model gives the value at one
    point.  Division by zero parameters is outside the model (see the hypotheses of the
    theorems). *)
From Coq Require Import Reals.
From Verif Require Import Py.
Open Scope R_scope.

Inductive potential :=
| HO (omega : R) | DW (omega l : R) | DWSmooth (a : R) | SymmetricDW (a b c : R) | AsymmetricDW (a b c : R)
| Gaussian (weight center deviation : R) | GaussianHardWall (weight center deviation x_wall : R) | Atomic (Za c : R).

(** np.heaviside(x, 0.5) *)
Definition heaviside (x : R) : R := if Rlt_dec x 0 then 0 else if Rlt_dec 0 x then 1 else 1 / 2.

(** The methods [__call__] *)
Definition call (p : potential) (x : R) : R :=
  match p with
  | HO omega => 1 / 2 * omega ^ 2 * x ^ 2                                           (* 18-19 *)
  | DW omega l => 1 / 2 * omega ^ 2 * x ^ 2 + 1 / 2 * omega ^ 2 * (1 / 4 * l ^ 2 - l * Rabs x)   (* 30-33 *)
  | DWSmooth a => 1 / (2 * a ^ 2) * (x + 1 / 2 * a) ^ 2 * (x - 1 / 2 * a) ^ 2       (* 54-59 *)
  | SymmetricDW a b c => a * x ^ 6 + b * x ^ 4 + c * x ^ 2                          (* 84-85 *)
  | AsymmetricDW a b c => a * x ^ 4 + b * x ^ 3 + c * x ^ 2                         (* 102-103 *)
  | Gaussian w c d => - w * exp (- (x - c) ^ 2 / (2 * d ^ 2))                       (* 116-119 *)
  | GaussianHardWall w c d wall =>                                                  (* 137-148 *)
      - w * exp (- (x - c) ^ 2 / (2 * d ^ 2)) + (if Rlt_dec wall (Rabs x) then 100000 else 0)
  | Atomic Za c => - Za / sqrt (x ^ 2 + c)                                          (* 156-157 *)
  end.
(** The methods [derivative]; the base class raises (10-11) *)
Definition derivative (p : potential) (x : R) : res R :=
  match p with
  | HO omega => Ok (omega ^ 2 * x)                                                  (* 21-22 *)
  | DW omega l => Ok (omega ^ 2 * x - l * omega ^ 2 * (heaviside x - 1 / 2))        (* 35-42 *)
  | DWSmooth a => Ok (1 / a ^ 2 * ((x + 1 / 2 * a) * (x - 1 / 2 * a) ^ 2 + (x - 1 / 2 * a) * (x + 1 / 2 * a) ^ 2))   (* 61-70 *)
  | SymmetricDW a b c => Ok (6 * a * x ^ 5 + 3 * b * x ^ 3 + 2 * c * x)             (* 87-88 *)
  | AsymmetricDW a b c => Ok (4 * a * x ^ 3 + 3 * b * x ^ 2 + 2 * c * x)            (* 105-106 *)
  | Gaussian w c d => Ok (- (x - c) / d ^ 2 * call (Gaussian w c d) x)              (* 121-122 *)
  | GaussianHardWall _ _ _ _ => Err NotImplementedError
  | Atomic Za c => Ok (Za * x / Rpower (x ^ 2 + c) (3 / 2))                         (* 159-160 *)
  end.
