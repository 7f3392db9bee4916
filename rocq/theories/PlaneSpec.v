(** What a basis set of two-dimensional orbitals should hold. *)
From Coq Require Import List Arith ZArith Reals.
From Coquelicot Require Import Coquelicot.
From Verif Require Import Scalar ScalarC Numpy Spec BasisSet BasisSpec OneDimSpec CoulombSpec OrbitalSpec.
Import ListNotations.
Open Scope R_scope.

(** [b] describes the orbitals [phi 0], ..., [phi (l-1)], functions of (r, theta) with quantum
    numbers [state], of particles with a given mass in the potential [V] and a field with
    Larmor frequency [larmor]; [scale] is the unit of the interaction.  The grid has N angles
    and N radii. *)
Record plane_basis (l N : nat) (L mass larmor scale : R) (V : R -> R -> R) (state : nat -> Z * Z) (phi : nat -> R -> R -> C) (b : basis CC) : Prop := {
  pb_dim : b_dim b = 2%nat;
  pb_ready : ready b l;
  (** Arrays of the right shapes *)
  pb_arrays : exists h s u d spf : arr CC,
    b_arr b F_h = Some h /\ b_arr b F_s = Some s /\ b_arr b F_u = Some u /\ b_arr b F_dip = Some d /\ b_arr b F_spf = Some spf /\
    shape h = [l; l] /\ shape s = [l; l] /\ shape u = [l; l; l; l] /\ shape d = [2; l; l]%nat /\ shape spf = [l; N; N] /\
    (** The matrix of the Hamiltonian *)
    (forall p q, (p < l)%nat -> (q < l)%nat ->
      exists g, hamiltonian mass larmor V (phi q) g /\ plane_integral (fun r t => (Cconj (phi p r t) * g r t)%C) (mat h p q)) /\
    hermitian l (mat h) /\
    (** The overlaps are those of the orbitals, and these are orthonormal *)
    (forall p q, (p < l)%nat -> (q < l)%nat ->
      mat s p q = kronecker p q /\ plane_integral (fun r t => (Cconj (phi p r t) * phi q r t)%C) (mat s p q)) /\
    (** Position matrices *)
    (forall p q, (p < l)%nat -> (q < l)%nat ->
      matrix_element (phi p) (phi q) (fun x _ => x) (get d [0; p; q]%nat) /\ matrix_element (phi p) (phi q) (fun _ y => y) (get d [1; p; q]%nat)) /\
    (forall i, (i < 2)%nat -> hermitian l (fun p q => get d [i; p; q])) /\
    (** Interaction *)
    (forall Gam p q r s, is_gamma Gam -> (p < l)%nat -> (q < l)%nat -> (r < l)%nat -> (s < l)%nat ->
      let n x := Z.to_nat (fst (state x)) in let m x := snd (state x) in
      ten u p q r s = RtoC (scale * anisimovas_matulis Gam (n p) (m p) (n q) (m q) (n s) (m s) (n r) (m r))) /\
    particle_sym l (ten u) /\ hermitian2 l (ten u) /\
    (** Orbitals on the polar grid: angle 2 pi i / (N - 1), radius L j / (N - 1) *)
    (forall p i j, (p < l)%nat -> (i < N)%nat -> (j < N)%nat ->
      get spf [p; i; j] = phi p (INR j * L / INR (N - 1)) (2 * PI * INR i / INR (N - 1)))
}.
