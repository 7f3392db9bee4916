(** Model of quantum_systems/quantum_dots/one_dim/one_dim_qd.py over the complex numbers.
    Grid functions are functions of the index.  numpy.linalg.eigh is a parameter of the
    model (what it guarantees is a hypothesis of the theorems), scipy.special.hermite the
    physicists' Hermite polynomials, scipy.special.factorial the factorial. *)
From Coq Require Import List Arith ZArith Reals Bool.
From Coquelicot Require Import Coquelicot.
From Verif Require Import Scalar ScalarC Py Numpy BasisSet.
Import ListNotations.
Open Scope R_scope.

Notation carr := (arr CC).

(** np.linspace(-L, L, N), element i *)
Definition linspace (L : R) (N i : nat) : R := - L + INR i * (2 * L / INR (N - 1)).

(** one_dim_qd.py:20-29; [n] is len(x).  Numba does not check the index of x[1]; the
    constructors have raised before when n < 2. *)
Definition trapz (n : nat) (f : nat -> C) (x : nat -> R) : C :=
  let delta_x := x 1%nat - x 0%nat in
  let val := fold_left (fun val i => (val + (f (i - 1)%nat + f i))%C) (seq 1 (n - 1)) (RtoC 0) in
  (RtoC (1 / 2) * val * RtoC delta_x)%C.
(** np.trapz(y, x) *)
Definition np_trapz (n : nat) (y : nat -> C) (x : nat -> R) : C :=
  sumn (K := CC) (n - 1) (fun i => (RtoC (x (S i) - x i) * (y (S i) + y i) * RtoC (1 / 2))%C).

(** one_dim_qd.py:32-34 *)
Definition shielded_coulomb (x_1 x_2 alpha a : R) : R := alpha / sqrt ((x_1 - x_2) ^ 2 + a ^ 2).
(** one_dim_qd.py:37-51: inner_integral[q, s, i] *)
Definition inner_integral (spf : nat -> nat -> C) (N : nat) (grid : nat -> R) (alpha a : R) (q s i : nat) : C :=
  trapz N (fun j => (Cconj (spf q j) * RtoC (shielded_coulomb (grid i) (grid j) alpha a) * spf s j)%C) grid.
(** one_dim_qd.py:54-66: u[p, q, r, s] *)
Definition orbital_integral (spf : nat -> nat -> C) (N : nat) (grid : nat -> R) (alpha a : R) (p q r s : nat) : C :=
  trapz N (fun j => (Cconj (spf p j) * inner_integral spf N grid alpha a q s j * spf r j)%C) grid.

(** Arrays from their elements *)
Definition arr1 (n : nat) (d : dtype) (f : nat -> C) : carr :=
  @Arr CC [n] d (fun idx => match idx with [i] => f i | _ => RtoC 0 end).
Definition arr2 (n m : nat) (d : dtype) (f : nat -> nat -> C) : carr :=
  @Arr CC [n; m] d (fun idx => match idx with [i; j] => f i j | _ => RtoC 0 end).
Definition arr3 (n m k : nat) (d : dtype) (f : nat -> nat -> nat -> C) : carr :=
  @Arr CC [n; m; k] d (fun idx => match idx with [i; j; r] => f i j r | _ => RtoC 0 end).
Definition arr4 (n : nat) (d : dtype) (f : nat -> nat -> nat -> nat -> C) : carr :=
  @Arr CC [n; n; n; n] d (fun idx => match idx with [p; q; r; s] => f p q r s | _ => RtoC 0 end).
Definition diag (n : nat) (d : dtype) (e : nat -> C) : carr := arr2 n n d (fun i j => if (i =? j)%nat then e i else RtoC 0).

Section ODQD.
  (** Keyword arguments handed on to BasisSet *)
  Variables (npm : nat) (spin anti : bool).
  Variables (l : nat) (grid_length : R) (num_grid_points : nat) (a alpha beta : R) (potential : R -> R).
  (** np.linalg.eigh of an n by n matrix: eigenvalues and columns of eigenvectors *)
  Variable eigh : nat -> (nat -> nat -> R) -> (nat -> R) * (nat -> nat -> R).
  Notation N := num_grid_points.
  Notation grid := (linspace grid_length num_grid_points).
  Notation dx := (grid 1%nat - grid 0%nat).

  (** one_dim_qd.py:260-267: the matrix handed to eigh *)
  Definition grid_hamiltonian (i j : nat) : R :=
    if (i =? j)%nat then 1 / dx ^ 2 + potential (grid (S i))
    else if (j + 1 =? i)%nat then -1 / (2 * dx ^ 2)
    else if (i + 1 =? j)%nat then -1 / (2 * dx ^ 2)
    else 0.
  (** one_dim_qd.py:269-274: the orbitals, from the eigenvectors *)
  Definition odqd_spf (p i : nat) : C :=
    if (i =? 0)%nat || (i =? N - 1)%nat then RtoC 0
    else RtoC (snd (eigh (N - 2) grid_hamiltonian) (i - 1)%nat p / sqrt dx).
  Definition odqd_energy (p : nat) : R := fst (eigh (N - 2) grid_hamiltonian) p.
  (** one_dim_qd.py:295-305 *)
  Definition odqd_dipole (p q : nat) : C :=
    np_trapz N (fun i => (Cconj (odqd_spf p i) * RtoC (grid i + beta * grid i ^ 2) * odqd_spf q i)%C) grid.

  (** one_dim_qd.py:257-293.  The slices [: l] yield min(l, N - 2) columns; the assignment to
      spf[:, 1:-1] accepts them when their number is l or, by broadcasting, 1. *)
  Definition odqd_setup : BM CC unit :=
    (if (N <? 2)%nat then raise IndexError else ret tt) ;;
    (if (N <? 3)%nat then raise ValueError else ret tt) ;;
    let k := Nat.min l (N - 2) in
    set_orbitals F_spf (Some (arr2 l N Complex128 (fun _ _ => RtoC 0))) ;;
    (if (k =? l)%nat || (k =? 1)%nat then ret tt else raise ValueError) ;;
    wr F_spf (Some (arr2 l N Complex128 (fun p i => odqd_spf (if (k =? 1)%nat then 0%nat else p) i))) ;;
    set_sq F_h (diag k Complex128 (fun p => RtoC (odqd_energy p))) ;;
    set_sq F_s (eye l) ;;
    set_sq F_u (arr4 l Complex128 (orbital_integral odqd_spf N grid alpha a)) ;;
    set_dipole (arr3 1 l l Complex128 (fun _ p q => odqd_dipole p q)).
  (** one_dim_qd.py:223-255; the default potential is HOPotential(0.25) *)
  Definition odqd_init : BM CC unit :=
    set_grid (arr1 N Float64 (fun i => RtoC (grid i))) ;;
    odqd_setup.
  Definition odqd : res unit * basis CC := odqd_init (new_basis CC Base npm l 1 spin anti).
End ODQD.

(** The physicists' Hermite polynomials *)
Fixpoint hermite_pair (n : nat) (x : R) : R * R :=
  match n with
  | O => (1, 0)
  | S k => let '(h, h') := hermite_pair k x in (2 * x * h - 2 * INR k * h', h)
  end.
Definition hermite (n : nat) (x : R) : R := fst (hermite_pair n x).

Section ODHO.
  Variables (npm : nat) (spin anti : bool).
  Variables (l : nat) (grid_length : R) (num_grid_points : nat) (omega a alpha : R).
  Notation N := num_grid_points.
  Notation grid := (linspace grid_length num_grid_points).
  (** one_dim_qd.py:142-147 *)
  Definition normalization (n : nat) : R := 1 / sqrt (2 ^ n * INR (fact n)) * Rpower (omega / PI) (1 / 4).
  (** one_dim_qd.py:135-140 *)
  Definition ho_function (x : R) (n : nat) : R := normalization n * exp (- (1 / 2) * omega * x ^ 2) * hermite n (sqrt omega * x).
  (** one_dim_qd.py:112-113 *)
  Definition odho_energy (p : nat) : R := omega * (INR p + 1 / 2).
  (** one_dim_qd.py:149-165 *)
  Definition odho_coupling (n : nat) : R :=
    normalization n * normalization (n + 1) * (INR n + 1) * sqrt PI * 2 ^ n * INR (fact n) / omega.
  Definition odho_dipole (p q : nat) : R :=
    if (p + 1 =? q)%nat then odho_coupling p else if (q + 1 =? p)%nat then odho_coupling q else 0.
  Definition odho_spf (p i : nat) : C := RtoC (ho_function (grid i) p).
  (** one_dim_qd.py:110-133; the attribute spf is set row by row after zeros of its shape *)
  Definition odho_setup : BM CC unit :=
    (if (N <? 2)%nat then raise IndexError else ret tt) ;;
    set_sq F_h (diag l Complex128 (fun p => RtoC (odho_energy p))) ;;
    set_sq F_s (eye l) ;;
    set_orbitals F_spf (Some (arr2 l N Float64 odho_spf)) ;;
    set_sq F_u (arr4 l Complex128 (orbital_integral odho_spf N grid alpha a)) ;;
    set_dipole (arr3 1 l l Float64 (fun _ p q => RtoC (odho_dipole p q))).
  (** one_dim_qd.py:83-108 *)
  Definition odho_init : BM CC unit :=
    set_grid (arr1 N Float64 (fun i => RtoC (grid i))) ;;
    odho_setup.
  (** The argument beta is stored as an attribute that no method reads. *)
  Definition odho (beta : R) : res unit * basis CC := odho_init (new_basis CC Base npm l 1 spin anti).
End ODHO.
