(** Properties of the particle density: C33, C34, C35. *)
From Coq Require Import List Arith ZArith Lia Bool.
From Verif Require Import Scalar Py Numpy Spec BasisSet BasisSpec Examples DensitySpec DensityProofs DensityExamples.
Import ListNotations.

(** C33: for every basis with orbitals, every density matrix of matching size
    and element type, the density is sum_pq bra_p(x) rho[q,p] ket_q(x) at every
    grid point, and the call changes nothing a user can read. *)
Theorem C33_density_formula : forall (K : scalar) (b : basis K) (rho ket bra : arr K) (n : nat) (g : list nat),
  (exists m, b_np b = Some m) -> b_arr b F_spf = Some ket -> bra_view b = Some bra ->
  shape ket = n :: g -> shape bra = n :: g -> shape rho = [n; n] ->
  dt bra = dt ket -> castable (dt rho) (dt ket) = true ->
  exists d b', compute_particle_density rho None None b = (Ok d, b') /\ same_values b' b /\ shape d = g /\
    forall x, valid g x -> get d x = density_at n (mat rho) (orb bra x) (orb ket x).
Proof. exact density_formula. Qed.
Print Assumptions C33_density_formula.
(** ... and it is real for Hermitian rho while bra_spf is not set by hand. *)
Theorem C33_density_real : forall (K : scalar) (b : basis K) (rho ket : arr K) (n : nat) (g : list nat) (d : arr K) (b' : basis K),
  (exists m, b_np b = Some m) -> b_arr b F_spf = Some ket -> b_arr b F_bra = None ->
  shape ket = n :: g -> shape rho = [n; n] -> hermitian n (mat rho) ->
  compute_particle_density rho None None b = (Ok d, b') ->
  forall x, valid g x -> sconj (get d x) = get d x.
Proof. exact density_real. Qed.
Print Assumptions C33_density_real.
Example C33_instance : b_arr ex_basis F_spf = Some ex_spf /\ shape ex_spf = [2; 3] /\ dt ex_spf = Complex128 /\
  hermitian 2 (mat ex_h) /\
  exists d b', compute_particle_density ex_h None None ex_basis = (Ok d, b') /\ get d [1] = qz 5 0.
Proof. exact density_instance. Qed.

(** C34: the density in a rotated basis, computed without rotating it, is the
    result of rotating it first (equal arrays, or the same exception), and the
    basis set reads the same afterwards. *)
Theorem C34_density_rotated : forall (K : scalar) (b : basis K) (rho C : arr K) (Ct : option (arr K)) (l k : nat),
  ready b l -> shape C = [l; k] -> tilde_shape C Ct k l -> b_arr b F_spf <> None ->
  exists b1, change_basis C Ct b = (Ok tt, b1) /\
    same_result (fst (compute_particle_density rho (Some C) Ct b)) (fst (compute_particle_density rho None None b1)) /\
    same_values (snd (compute_particle_density rho (Some C) Ct b)) b.
Proof. exact density_rotated. Qed.
Print Assumptions C34_density_rotated.
(** It is the density of C rho Ct in the original basis. *)
Theorem C34_density_rotated_formula :
  forall (K : scalar) (b : basis K) (rho C : arr K) (Ct : option (arr K)) (l k : nat) (ket bra : arr K),
  ready b l -> shape C = [l; k] -> tilde_shape C Ct k l -> shape rho = [k; k] ->
  b_arr b F_spf = Some ket -> bra_view b = Some bra -> shape bra = shape ket ->
  dmax (dt (default_tilde C Ct)) (dt bra) = dmax (dt C) (dt ket) ->
  castable (dt rho) (dmax (dt C) (dt ket)) = true ->
  exists d b', compute_particle_density rho (Some C) Ct b = (Ok d, b') /\ same_values b' b /\ shape d = tl (shape ket) /\
    forall x, valid (tl (shape ket)) x ->
      get d x = density_at l (mmul k (mmul k (mat C) (mat rho)) (tilde C Ct)) (orb bra x) (orb ket x).
Proof. exact density_rotated_formula. Qed.
Print Assumptions C34_density_rotated_formula.
Example C34_instance : ready ex_basis 2 /\ shape ex_R = [2; 3] /\ tilde_shape ex_R None 3 2 /\
  b_arr ex_basis F_spf <> None /\ dmax (dt (default_tilde ex_R None)) (dt (aconj ex_spf)) = dmax (dt ex_R) (dt ex_spf) /\
  castable (dt ex_R) (dmax (dt ex_R) (dt ex_spf)) = true.
Proof. split; [exact ex_ready|]. repeat split. discriminate. Qed.

(** C35 as claimed: every density matrix of the right shape is accepted. *)
Definition C35_claim : Prop :=
  forall (K : scalar) (b : basis K) (rho ket bra : arr K) (n : nat) (g : list nat),
  (exists m, b_np b = Some m) -> b_arr b F_spf = Some ket -> bra_view b = Some bra ->
  shape ket = n :: g -> shape bra = n :: g -> shape rho = [n; n] ->
  exists d b', compute_particle_density rho None None b = (Ok d, b').
(** It fails: complex rho with real orbitals. *)
Theorem C35_refuted : ~ C35_claim.
Proof. exact density_types_refuted. Qed.
Print Assumptions C35_refuted.
(** Exactly which element types are accepted, and the exception otherwise. *)
Theorem C35_accepted_types : forall (K : scalar) (b : basis K) (rho ket bra : arr K) (n : nat) (g : list nat),
  (exists m, b_np b = Some m) -> 0 < n -> b_arr b F_spf = Some ket -> bra_view b = Some bra ->
  shape ket = n :: g -> shape bra = n :: g -> shape rho = [n; n] ->
  match fst (compute_particle_density rho None None b) with
  | Ok d => dt bra = dt ket /\ castable (dt rho) (dt ket) = true /\ shape d = g /\ dt d = dt ket
  | Err AssertionError => dt bra <> dt ket
  | Err UFuncTypeError => dt bra = dt ket /\ castable (dt rho) (dt ket) = false
  | Err _ => False
  end.
Proof. exact density_types. Qed.
Print Assumptions C35_accepted_types.
