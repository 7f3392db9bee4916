(** C94-C101: what the results are worth in floating-point arithmetic. *)
From Coq Require Import List Arith ZArith Reals Bool Lra Lia.
From Flocq Require Import Core.
From Coquelicot Require Import Coquelicot.
From Verif Require Import Scalar ScalarC Spec EnergySpec GridSpec DensitySpec OneDim FloatModel FloatSpec FloatProofs FloatCode FloatGrid FloatExamples FloatTheorems.
Import ListNotations.
Open Scope R_scope.

(** C94: anti-symmetrization. The result is anti-symmetric in the ket pair bit for bit, and
    in the bra pair if the elements are symmetric under exchange of the particles; it is zero
    exactly if the direct and the exchange element are equal; and it is the rounded difference. *)
Theorem C94_antisymmetry : forall u : nat -> nat -> nat -> nat -> C,
  (forall p q r s, anti_symmetrize u p q r s = Copp (anti_symmetrize u p q s r)) /\
  (forall n, particle_sym (K := CC) n u -> antisym_bra (K := CC) n (anti_symmetrize u)) /\
  (forall p q r s, cfloat (u p q r s) -> cfloat (u p q s r) ->
    (anti_symmetrize u p q r s = RtoC 0 <-> u p q r s = u p q s r) /\
    size (Cminus (anti_symmetrize u p q r s) (exch (K := CC) u p q r s)) <= unit_roundoff * size (exch (K := CC) u p q r s)).
Proof. exact antisymmetry. Qed.
Print Assumptions C94_antisymmetry.

(** C94: adding spin changes no bit. *)
Theorem C94_spin : forall (h : nat -> nat -> C) (u : nat -> nat -> nat -> nat -> C),
  (forall p q, cfloat (h p q)) -> (forall p q r s, cfloat (u p q r s)) ->
  (forall p q, add_spin1 h p q = dbl1 (K := CC) h p q) /\ (forall p q r s, add_spin2 u p q r s = dbl2 (K := CC) u p q r s).
Proof. exact spin_exact. Qed.
Print Assumptions C94_spin.

Example C94_instance : (forall p q r s, cfloat (ex_u p q r s)) /\ particle_sym (K := CC) 2 ex_u /\
  anti_symmetrize ex_u 0 1 0 1 = RtoC 1 /\ exch (K := CC) ex_u 0 1 0 1 = RtoC (1 + tiny) /\ 0 < tiny.
Proof. exact antisymmetry_instance. Qed.

(** C95: basis changes. *)
Theorem C95_one_body : forall l k h c d t, transform1 l k h c d t -> forall p q, (p < k)%nat -> (q < k)%nat ->
  accurate (4 * l) (4 * INR l * underflow * (1 + total l (d p))) (T1_size l h c d p q) (T1 (K := CC) l h c d p q) (t p q).
Proof. exact one_body_accurate. Qed.
Print Assumptions C95_one_body.

Theorem C95_two_body : forall l k u c d t, transform2 l k u c d t ->
  forall p q r s, (p < k)%nat -> (q < k)%nat -> (r < k)%nat -> (s < k)%nat ->
  accurate (8 * l) (4 * INR l * underflow * (1 + total l (d p) * (1 + total l (d q) * (1 + total l (fun g => c g r)))))
    (T2_size l u c d p q r s) (T2 (K := CC) l u c d p q r s) (t p q r s).
Proof. exact two_body_accurate. Qed.
Print Assumptions C95_two_body.

Theorem C95_functions : forall l k f c d,
  (forall t, transform_spf l k f c t -> forall p, (p < k)%nat ->
    accurate (2 * l) (4 * INR l * underflow) (rsum l (fun a => size (c a p) * size (f a)))
      (sumn (K := CC) l (fun a => Cmult (c a p) (f a))) (t p)) /\
  (forall t, transform_bra l k f d t -> forall p, (p < k)%nat ->
    accurate (2 * l) (4 * INR l * underflow) (rsum l (fun a => size (d p a) * size (f a)))
      (sumn (K := CC) l (fun a => Cmult (d p a) (f a))) (t p)).
Proof. exact functions_accurate. Qed.
Print Assumptions C95_functions.

(** The growth factor of C95 to C101 in plain numbers *)
Theorem C95_growth : forall k, (Z.of_nat k <= 2 ^ 53)%Z -> 0 <= grow k - 1 <= 2 * INR k * unit_roundoff.
Proof. exact growth. Qed.
Print Assumptions C95_growth.

Example C95_instance :
  transform1 2 1 ex_h ex_c ex_c (fun _ _ => RtoC 1) /\ T1 (K := CC) 2 ex_h ex_c ex_c 0 0 = RtoC (1 + tiny) /\ 0 < tiny /\
  (forall l k h c d, exists t, transform1 l k h c d t) /\ (forall l k u c d, exists t, transform2 l k u c d t).
Proof. exact change_instance. Qed.

(** C96: reference energies and Fock matrices. *)
Theorem C96_energy : forall n h u,
  (forall p q, cfloat (h p q)) -> (forall p q r s, cfloat (u p q r s)) ->
  (forall e, reference_energy n h u e ->
    accurate (2 * n + 2) (2 * underflow) (E_size n h u) (E_general (K := CC) n h u) e) /\
  (forall e, reference_energy_restricted n h u e ->
    accurate (2 * n + 3) (4 * underflow) (E_size_restricted n h u) (E_restricted (K := CC) n h u) e).
Proof. exact energies_accurate. Qed.
Print Assumptions C96_energy.

Theorem C96_fock : forall l n h u,
  (forall p q, cfloat (h p q)) -> (forall p q r s, cfloat (u p q r s)) ->
  (forall f, fock_matrix l n h u f -> forall p q, (p < l)%nat -> (q < l)%nat ->
    accurate (n + 1) 0 (size (h p q) + rsum n (fun i => size (u p i q i))) (F_general (K := CC) n h u p q) (f p q)) /\
  (forall f, fock_matrix_restricted l n h u f -> forall p q, (p < l)%nat -> (q < l)%nat ->
    accurate (n + 3) (2 * underflow) (size (h p q) + rsum n (fun i => 2 * size (u p i q i) + size (u p i i q)))
      (F_restricted (K := CC) n h u p q) (f p q)).
Proof. exact focks_accurate. Qed.
Print Assumptions C96_fock.

Example C96_instance : (forall p q, cfloat (ex_h p q)) /\ reference_energy 2 ex_h (fun _ _ _ _ => RtoC 0) (RtoC 1) /\
  E_general (K := CC) 2 ex_h (fun _ _ _ _ => RtoC 0) = RtoC (1 + tiny) /\
  (forall n h u, exists e, reference_energy n h u e) /\ (forall l n h u, exists f, fock_matrix l n h u f).
Proof. exact energy_instance. Qed.

(** C97: the grid. The end points are exact, the points increase strictly and are off by at
    most six roundings of the half length; but the spacing read off the first two points can
    be off by a relative error proportional to the number of points. *)
Theorem C97_grid : forall L N, float L -> bpow radix2 (-900) <= L -> (2 <= N)%nat -> (Z.of_nat N <= 2 ^ 50)%Z ->
  flinspace L N 0 = - L /\ flinspace L N (N - 1) = L /\
  (forall i, (i < N)%nat -> float (flinspace L N i) /\ Rabs (flinspace L N i - linspace L N i) <= 6 * unit_roundoff * L) /\
  (forall i j, (i < j)%nat -> (j < N)%nat -> flinspace L N i < flinspace L N j) /\
  within (5 * INR (N - 1) * unit_roundoff) (2 * L / INR (N - 1)) (fsub (flinspace L N 1) (flinspace L N 0)).
Proof. exact grid_facts. Qed.
Print Assumptions C97_grid.
Example C97_instance : float 10 /\ bpow radix2 (-900) <= 10 /\ (2 <= 401)%nat /\ (Z.of_nat 401 <= 2 ^ 50)%Z.
Proof. exact grid_instance. Qed.

(** C98: the shielded Coulomb interaction. *)
Theorem C98_kernel : forall x1 x2 alpha a, float x1 -> float x2 -> 0 < alpha -> bpow radix2 (-450) <= Rabs a ->
  fcoulomb x1 x2 alpha a = fcoulomb x2 x1 alpha a /\
  fcoulomb x1 x2 alpha a <= fcoulomb x1 x1 alpha a /\
  (bpow radix2 (-1021) <= shielded_coulomb x1 x2 alpha a ->
    0 < fcoulomb x1 x2 alpha a /\ within (grow 4 - 1) (shielded_coulomb x1 x2 alpha a) (fcoulomb x1 x2 alpha a)).
Proof. exact kernel_facts. Qed.
Print Assumptions C98_kernel.
Example C98_instance : float 3 /\ float (-2) /\ 0 < 1 /\ bpow radix2 (-450) <= Rabs (1 / 4) /\
  bpow radix2 (-1021) <= shielded_coulomb 3 (-2) 1 (1 / 4).
Proof. exact kernel_instance. Qed.

(** C99: the trapezoidal rule and the two-body integrals. *)
Theorem C99_trapezoidal : forall n f x, float (x 0%nat) -> float (x 1%nat) -> (forall k, (k < n)%nat -> cfloat (f k)) ->
  let w := Rabs (x 1%nat - x 0%nat) in
  accurate (n + 4) (2 * underflow * (w + 1)) (trap n w (fun k => size (f k))) (trapz n f x) (ftrapz n f x).
Proof. exact trapezoidal_accurate. Qed.
Print Assumptions C99_trapezoidal.

Theorem C99_integrals : forall l spf N grid alpha a u, (2 <= N)%nat -> (forall i, (i < N)%nat -> float (grid i)) ->
  0 < alpha -> bpow radix2 (-450) <= Rabs a ->
  (forall i j, (i < N)%nat -> (j < N)%nat -> bpow radix2 (-1021) <= shielded_coulomb (grid i) (grid j) alpha a) ->
  fintegrals l spf N grid alpha a u ->
  forall p q r s, (p < l)%nat -> (q < l)%nat -> (r < l)%nat -> (s < l)%nat ->
  let w := Rabs (grid 1%nat - grid 0%nat) in
  accurate (2 * N + 20) (integral_underflow N w (spf p) (spf r) (spf s))
    (integral_size N w (fun i j => shielded_coulomb (grid i) (grid j) alpha a) (spf p) (spf q) (spf r) (spf s))
    (orbital_integral spf N grid alpha a p q r s) (u p q r s).
Proof. exact integrals_accurate. Qed.
Print Assumptions C99_integrals.
Example C99_instance : (forall l spf, exists u, fintegrals l spf 3 (fun i => INR i - 1) 1 (1 / 4) u) /\
  (forall i, (i < 3)%nat -> float (INR i - 1)) /\ bpow radix2 (-450) <= Rabs (1 / 4) /\
  (forall i j, (i < 3)%nat -> (j < 3)%nat -> bpow radix2 (-1021) <= shielded_coulomb (INR i - 1) (INR j - 1) 1 (1 / 4)).
Proof. exact integrals_instance. Qed.

(** C100: the levels of the harmonic oscillator. *)
Theorem C100_levels : forall omega, bpow radix2 (-1000) <= omega ->
  (forall p, (Z.of_nat p < 2 ^ 51)%Z -> within unit_roundoff (odho_energy omega p) (fenergy omega p)) /\
  (forall p q, (p < q)%nat -> (Z.of_nat q < 2 ^ 51)%Z -> fenergy omega p < fenergy omega q).
Proof. exact levels. Qed.
Print Assumptions C100_levels.
Example C100_instance : bpow radix2 (-1000) <= 1 / 4.
Proof. exact levels_instance. Qed.

(** C101: the particle density. *)
Theorem C101_density : forall l bra ket rho z, fdensity l bra ket rho z ->
  accurate (l * l + 4) (rsum2 l l (fun p q => 4 * underflow * (size (ket q) + 1)))
    (rsum2 l l (fun p q => size (bra p) * size (rho q p) * size (ket q))) (density_at (K := CC) l rho bra ket) z.
Proof. exact density_accurate. Qed.
Print Assumptions C101_density.
Example C101_instance : forall l bra ket rho, exists z, fdensity l bra ket rho z.
Proof. exact density_exists. Qed.
