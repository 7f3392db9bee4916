(** Double precision in the constructor of quantum_systems/sinc_dvr/one_dim/sinc_dvr.py: the
    one-body elements h and the two-body elements u. *)
From Coq Require Import List Arith ZArith Reals.
From Flocq Require Import Core.
From Coquelicot Require Import Coquelicot.
From Verif Require Import OneDim SincDvr FloatModel FloatSpec FloatCode.
Open Scope R_scope.

Section FloatDvr.
  (** [sq x] is what x ** 2 returns for a float x.  Python and NumPy scalars call the function
      pow of the C library, which may miss the correctly rounded square. *)
  Variable sq : R -> R.
  (** [fv i] is element i of self.potential(self.grid). *)
  Variables (l : nat) (grid_length a alpha : R) (fv : nat -> R).
  Notation grid := (flinspace grid_length l).
  (** sinc_dvr.py:100 *)
  Definition fdx : R := fsub (grid 1%nat) (grid 0%nat).
  (** sinc_dvr.py:104-115.  The powers of -1.0 are exact; so are the squares of the integers in
      diff_grid and their conversion to float64 below 2^53.  np.pi is PI rounded. *)
  Definition fkinetic (i j : nat) : R :=
    if (i =? j)%nat then fdiv (sq (fl PI)) (fmul 6 (sq fdx))
    else fdiv (powerRZ (-1) (diff_grid i j)) (fmul (sq fdx) (IZR (diff_grid i j ^ 2))).
  (** sinc_dvr.py:116 *)
  Definition fdvr_h (i j : nat) : R := if (i =? j)%nat then fadd (fkinetic i j) (fv i) else fkinetic i j.
  (** sinc_dvr.py:154-166 *)
  Definition fdvr_data (p q : nat) : R := fcoulomb (grid p) (grid q) alpha a.
End FloatDvr.
