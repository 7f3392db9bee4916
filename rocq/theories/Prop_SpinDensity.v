(** C118: particle densities of spin-doubled basis sets. *)
From Coq Require Import List Arith ZArith Bool.
From Verif Require Import Scalar Py Numpy Spec BasisSet BasisSpec Examples DensitySpec DensityProofs SpinDensitySpec SpinDensityProofs SpinDensityExamples.
Import ListNotations.

(** The density of a spin-doubled basis set counts both spins and lets no product of a
    spin-up and a spin-down orbital contribute. *)
Definition C118_claim : Prop :=
  forall (K : scalar) ab anti b l s ket bra g (rho : arr K),
  (b_cls b = SincDVR -> ab = None) ->
  orthonormal_pair (match ab with Some p => fst p | None => default_a K end) (match ab with Some p => snd p | None => default_b K end) ->
  ready b l -> b_spin b = false -> b_arr b F_s = Some s -> b_arr b F_spf = Some ket -> bra_view b = Some bra -> shape ket = l :: g -> shape bra = l :: g ->
  shape rho = [2 * l; 2 * l] ->
  exists b1 d b2, change_to_general ab anti b = (Ok true, b1) /\ compute_particle_density rho None None b1 = (Ok d, b2) /\ shape d = g /\
    forall x, valid g x -> get d x = spin_density l (mat rho) (orb bra x) (orb ket x).
Theorem C118_refuted : ~ C118_claim.
Proof. exact tilted_refuted. Qed.
Print Assumptions C118_refuted.

(** What comes out instead: the products of different spins are added. *)
Theorem C118_value : forall (K : scalar) ab anti b l s ket bra g (rho : arr K),
  (b_cls b = SincDVR -> ab = None) ->
  orthonormal_pair (match ab with Some p => fst p | None => default_a K end) (match ab with Some p => snd p | None => default_b K end) ->
  ready b l -> b_spin b = false -> b_arr b F_s = Some s -> b_arr b F_spf = Some ket -> bra_view b = Some bra -> shape ket = l :: g -> shape bra = l :: g ->
  shape rho = [2 * l; 2 * l] ->
  exists b1 d b2, change_to_general ab anti b = (Ok true, b1) /\ compute_particle_density rho None None b1 = (Ok d, b2) /\ shape d = g /\
    forall x, valid g x -> get d x = sadd (spin_density l (mat rho) (orb bra x) (orb ket x)) (spin_mixing l (mat rho) (orb bra x) (orb ket x)).
Proof. exact doubled_density. Qed.
Print Assumptions C118_value.

(** The claim holds for density matrices without coherence between the two spins. *)
Theorem C118_spin_diagonal_partial : forall (K : scalar) ab anti b l s ket bra g (rho : arr K),
  (b_cls b = SincDVR -> ab = None) ->
  orthonormal_pair (match ab with Some p => fst p | None => default_a K end) (match ab with Some p => snd p | None => default_b K end) ->
  ready b l -> b_spin b = false -> b_arr b F_s = Some s -> b_arr b F_spf = Some ket -> bra_view b = Some bra -> shape ket = l :: g -> shape bra = l :: g ->
  shape rho = [2 * l; 2 * l] -> spin_diagonal l (mat rho) ->
  exists b1 d b2, change_to_general ab anti b = (Ok true, b1) /\ compute_particle_density rho None None b1 = (Ok d, b2) /\ shape d = g /\
    forall x, valid g x -> get d x = spin_density l (mat rho) (orb bra x) (orb ket x).
Proof. exact diagonal_density. Qed.
Print Assumptions C118_spin_diagonal_partial.

(** Closed shells: twice the density of the spatial orbitals. *)
Theorem C118_closed_shell : forall (K : scalar) ab anti b l s ket bra g (rho gamma : arr K),
  (b_cls b = SincDVR -> ab = None) ->
  orthonormal_pair (match ab with Some p => fst p | None => default_a K end) (match ab with Some p => snd p | None => default_b K end) ->
  ready b l -> b_spin b = false -> b_arr b F_s = Some s -> b_arr b F_spf = Some ket -> bra_view b = Some bra -> shape ket = l :: g -> shape bra = l :: g ->
  dt bra = dt ket -> castable (dt gamma) (dt ket) = true -> shape gamma = [l; l] ->
  shape rho = [2 * l; 2 * l] -> (forall Q P, mat rho Q P = dbl1 (mat gamma) Q P) ->
  exists b1 d b2 d0 b0, change_to_general ab anti b = (Ok true, b1) /\ compute_particle_density rho None None b1 = (Ok d, b2) /\
    compute_particle_density gamma None None b = (Ok d0, b0) /\ shape d = g /\ shape d0 = g /\ forall x, valid g x -> get d x = sadd (get d0 x) (get d0 x).
Proof. exact closed_density. Qed.
Print Assumptions C118_closed_shell.

(** One particle with spin (x, y): the density comes out with |x + y|^2 in place of |x|^2 + |y|^2. *)
Theorem C118_tilted : forall (K : scalar) ab anti b l s ket bra g (rho : arr K) k x y,
  (b_cls b = SincDVR -> ab = None) ->
  orthonormal_pair (match ab with Some p => fst p | None => default_a K end) (match ab with Some p => snd p | None => default_b K end) ->
  ready b l -> b_spin b = false -> b_arr b F_s = Some s -> b_arr b F_spf = Some ket -> bra_view b = Some bra -> shape ket = l :: g -> shape bra = l :: g ->
  shape rho = [2 * l; 2 * l] -> k < l -> (forall Q P, mat rho Q P = one_particle k x y Q P) ->
  exists b1 d b2, change_to_general ab anti b = (Ok true, b1) /\ compute_particle_density rho None None b1 = (Ok d, b2) /\ shape d = g /\
    forall z, valid g z -> spin_density l (mat rho) (orb bra z) (orb ket z) = smul (sadd (smul x (sconj x)) (smul y (sconj y))) (smul (orb bra z k) (orb ket z k)) /\
      get d z = smul (smul (sadd x y) (sconj (sadd x y))) (smul (orb bra z k) (orb ket z k)).
Proof. exact tilted_density. Qed.
Print Assumptions C118_tilted.

Example C118_instance : ready ex_basis 2 /\ b_spin ex_basis = false /\ b_arr ex_basis F_s = Some ex_s /\ b_arr ex_basis F_spf = Some ex_spf /\
  bra_view ex_basis = Some (aconj ex_spf) /\ shape ex_spf = [2; 3] /\ shape tilted = [2 * 2; 2 * 2] /\
  orthonormal_pair (default_a QI) (default_b QI) /\ (forall Q P, mat tilted Q P = one_particle 0 (qr 3 5) (qr 4 5) Q P).
Proof.
  split; [exact ex_ready|]. do 6 (split; [reflexivity|]). split; [exact default_pair|]. reflexivity.
Qed.
