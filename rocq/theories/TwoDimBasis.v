(** Model of the constructors of quantum_systems/quantum_dots/two_dim/two_dim_ho.py: the
    basis objects of TwoDimensionalHarmonicOscillator, TwoDimensionalDoubleWell and
    TwoDimHarmonicOscB, over the complex numbers. *)
From Coq Require Import List Arith ZArith Reals Bool.
From Coquelicot Require Import Coquelicot.
From Verif Require Import Scalar ScalarC Py Numpy BasisSet TwoDim Coulomb Cache Angular Orbitals Wells OneDim.
Import ListNotations.
Open Scope R_scope.

(** np.linspace(0, L, N), element i *)
Definition linspace0 (L : R) (N i : nat) : R := INR i * (L / INR (N - 1)).
(** The module object numpy itself; other array modules have other numbers. *)
Definition numpy : nat := 0.

Section Plane.
  (** Keyword arguments handed on to BasisSet, and the arguments of the constructors *)
  Variables (npm : nat) (spin anti : bool).
  Variables (l : nat) (radius_length : R) (num_grid_points : nat) (omega mass : R).
  Notation N := num_grid_points.

  (** two_dim_ho.py:98-111: R, T = np.meshgrid(radius, theta), so the first grid index of the
      orbitals runs over the angles and the second over the radii *)
  Definition spf_array (nm : nat -> Z * Z) (w : R) : carr :=
    arr3 l N N Complex128 (fun p i j =>
      spf_state (qn (nm p)) (qm (nm p)) mass w (linspace0 radius_length N j) (linspace0 (2 * PI) N i)).
  (** two_dim_ho.py:113-140 *)
  Definition dipole_array (nm : nat -> Z * Z) (w : R) : carr :=
    arr3 2 l l Complex128 (fun i p q => dipole_element nm mass w i p q).
  (** The four-index array whose entries in C order are [xs] *)
  Definition array_of (xs : list R) : carr :=
    arr4 l Float64 (fun p q r s => RtoC (nth (((p * l + q) * l + r) * l + s) xs 0)).
  (** np.sqrt(w) * u *)
  Definition scaled (w : R) (u : carr) : carr :=
    @Arr CC (shape u) (dt u) (fun idx => (RtoC (sqrt w) * (get u idx : C))%C).

  (** two_dim_ho.py:84-96 with the array of Coulomb elements at hand *)
  Definition oscillator_setup (coulomb : carr) : BM CC unit :=
    wr F_h (Some (arr2 l l Float64 (fun p q => RtoC (oscillator_element omega p q)))) ;;
    wr F_u (Some (scaled omega coulomb)) ;;
    wr F_s (Some (eye l)) ;;
    wr F_spf (Some (spf_array shell_state omega)) ;;
    wr F_dip (Some (dipole_array shell_state omega)) ;;
    let* m := need_np in
    if (m =? numpy)%nat then ret tt else change_module m.
  (** two_dim_ho.py:61-82.  [e] and the state are the environment of the disk cache. *)
  Definition oscillator (e : setting) : M fs (basis CC) :=
    let* xs := get_coulomb_elements e l in
    let '(r, b) := oscillator_setup (array_of xs) (new_basis CC Base npm l 2 spin anti) in
    lift (let! _ := r in Ok b).

  (** two_dim_ho.py:171-190 *)
  Definition double_well_setup (barrier : R) (axis : Z) (coulomb : carr) : BM CC unit :=
    oscillator_setup coulomb ;;
    wr F_h (Some (arr2 l l Complex128 (fun p q => RtoC (double_well_element omega mass barrier axis p q)))) ;;
    let* m := need_np in change_module m.
  (** two_dim_ho.py:165-169 *)
  Definition double_well (e : setting) (barrier : R) (axis : Z) : M fs (basis CC) :=
    let* xs := get_coulomb_elements e l in
    let '(r, b) := double_well_setup barrier axis (array_of xs) (new_basis CC Base npm l 2 spin anti) in
    lift (let! _ := r in Ok b).

  (** two_dim_ho.py:281-300; a row missing from the table raises in the first loop that needs
      it, before any array is stored *)
  Definition field_setup (omega_c : R) : BM CC unit :=
    let* rows := lift (field_states l omega omega_c) in
    let nm p := nth p rows (0, 0)%Z in
    let w := sqrt (omega ^ 2 + omega_c ^ 2 / 4) in
    wr F_h (Some (arr2 l l Float64 (fun p q => RtoC (field_element nm omega omega_c p q)))) ;;
    wr F_s (Some (eye l)) ;;
    wr F_u (Some (scaled w (arr4 l Float64 (fun p q r s => RtoC (coulomb_of nm p q r s))))) ;;
    wr F_spf (Some (spf_array nm w)) ;;
    wr F_dip (Some (dipole_array nm w)) ;;
    cast_to_complex ;;
    let* m := need_np in change_module m.
  (** two_dim_ho.py:276-279 *)
  Definition field_oscillator (omega_c : R) : res unit * basis CC :=
    field_setup omega_c (new_basis CC Base npm l 2 spin anti).
End Plane.
