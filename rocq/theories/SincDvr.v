(** Model of the constructor of quantum_systems/sinc_dvr/one_dim/sinc_dvr.py (class
    ODSincDVR) over the complex numbers.  The methods it overrides are in BasisSet.v. *)
From Coq Require Import List Arith ZArith Reals Bool.
From Coquelicot Require Import Coquelicot.
From Verif Require Import Scalar ScalarC Py Numpy BasisSet OneDim.
Import ListNotations.
Open Scope R_scope.

(** np.sinc *)
Definition np_sinc (y : R) : R := if Req_EM_T y 0 then 1 else sin (PI * y) / (PI * y).

Section ODSincDVR.
  (** Keyword arguments handed on to BasisSet *)
  Variables (npm : nat) (spin anti : bool).
  (** [repr] is the argument u_repr: "2d", "4d" or anything else.  The default potential
      is HOPotential(0.25). *)
  Variables (l : nat) (grid_length a alpha beta : R) (potential : R -> R) (repr : urepr).
  Notation grid := (linspace grid_length l).
  (** sinc_dvr.py:100 *)
  Notation dx := (grid 1%nat - grid 0%nat).
  (** sinc_dvr.py:105-106 *)
  Definition diff_grid (i j : nat) : Z := (Z.of_nat i - Z.of_nat j)%Z.
  (** sinc_dvr.py:102-116: the off-diagonal elements under the mask, then the diagonal *)
  Definition dvr_h (i j : nat) : R :=
    if (i =? j)%nat then PI ^ 2 / (6 * dx ^ 2) + potential (grid i)
    else powerRZ (-1) (diff_grid i j) / (dx ^ 2 * IZR (diff_grid i j) ^ 2).
  (** sinc_dvr.py:146-148 *)
  Definition dvr_spf (i j : nat) : R := 1 / sqrt dx * np_sinc ((grid j - grid i) / dx).
  (** sinc_dvr.py:154-174 *)
  Definition dvr_data (p q : nat) : R := shielded_coulomb (grid p) (grid q) alpha a.
  Definition dvr_coulomb : carr :=
    match repr with
    | U2d => arr2 l l Float64 (fun p q => RtoC (dvr_data p q))
    | _ => arr4 l Float64 (fun p q r s => if (p =? r)%nat && (q =? s)%nat then RtoC (dvr_data p q) else RtoC 0)
    end.
  (** sinc_dvr.py:150-152 *)
  Definition dvr_dipole : carr :=
    arr3 1 l l Float64 (fun _ i j => if (i =? j)%nat then RtoC (grid i + beta * grid i ^ 2) else RtoC 0).

  (** sinc_dvr.py:99-124; grid[1] needs two points *)
  Definition dvr_setup : BM CC unit :=
    (if (l <? 2)%nat then raise IndexError else ret tt) ;;
    set_sq F_h (arr2 l l Complex128 (fun i j => RtoC (dvr_h i j))) ;;
    set_sq F_s (eye l) ;;
    set_orbitals F_spf (Some (arr2 l l Float64 (fun i j => RtoC (dvr_spf i j)))) ;;
    set_sq F_u dvr_coulomb ;;
    set_dipole dvr_dipole ;;
    cast_to_complex.
  (** sinc_dvr.py:46-83.  Nothing exists yet when u_repr is rejected; the state returned with
      that exception is the object before __init__. *)
  Definition dvr_init : BM CC unit :=
    (match repr with Uunknown => raise ValueError | _ => ret tt end) ;;
    set_grid (arr1 l Float64 (fun i => RtoC (grid i))) ;;
    dvr_setup.
  Definition odsincdvr : res unit * basis CC := dvr_init (new_basis CC SincDVR npm l 1 spin anti).
End ODSincDVR.
