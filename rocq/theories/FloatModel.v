(** Floating point.  The files named Float* model parts of the library with the rounding of
    IEEE binary64 numbers; all the other files compute with exact numbers.

    A float64 is a real number in the format of Flocq with 53 bits and smallest positive
    number 2^-1074, and every operation rounds the exact result to nearest, ties to even.
    Not modelled: overflow (the format has no largest number), infinities, NaN and the
    sign of zero.  A complex128 is a pair of float64.

    NumPy does not say in which order np.dot, np.tensordot, np.einsum, np.trace or np.sum
    add their terms, and BLAS may fuse a multiplication with an addition.  [summed] and
    [dotted] relate the terms to EVERY value that can come out of some order and some
    choice of fusing. *)
From Coq Require Import List Arith ZArith Reals Permutation.
From Flocq Require Import Core.
From Coquelicot Require Import Coquelicot.
Import ListNotations.
Open Scope R_scope.

Definition f64 : Z -> Z := FLT_exp (-1074) 53.
Definition float (x : R) : Prop := generic_format radix2 f64 x.
Definition fl (x : R) : R := round radix2 f64 ZnearestE x.

Definition fadd (x y : R) : R := fl (x + y).
Definition fsub (x y : R) : R := fl (x - y).
Definition fmul (x y : R) : R := fl (x * y).
Definition fdiv (x y : R) : R := fl (x / y).
Definition fsqrt (x : R) : R := fl (sqrt x).

(** Addition of the terms in any order *)
Inductive summed : list R -> R -> Prop :=
| summed_nil : summed [] 0
| summed_one x : summed [x] x
| summed_add l l1 l2 a b : Permutation l (l1 ++ l2) -> summed l1 a -> summed l2 b -> summed l (fadd a b).

(** Sum of products, in any order, every product rounded or fused with an addition *)
Inductive dotted : list (R * R) -> R -> Prop :=
| dotted_nil : dotted [] 0
| dotted_one x y : dotted [(x, y)] (fmul x y)
| dotted_fma l l' x y a : Permutation l ((x, y) :: l') -> dotted l' a -> dotted l (fl (x * y + a))
| dotted_add l l1 l2 a b : Permutation l (l1 ++ l2) -> dotted l1 a -> dotted l2 b -> dotted l (fadd a b).

(** complex128 *)
Definition cfloat (z : C) : Prop := float (fst z) /\ float (snd z).
Definition cadd (z w : C) : C := (fadd (fst z) (fst w), fadd (snd z) (snd w)).
Definition csub (z w : C) : C := (fsub (fst z) (fst w), fsub (snd z) (snd w)).
(** Product with a real float64.  NumPy and Numba turn x into x + 0j; the two products with
    zero are zero and adding them changes nothing. *)
Definition rscale (x : R) (z : C) : C := (fmul x (fst z), fmul x (snd z)).
Definition csummed (l : list C) (z : C) : Prop := summed (map fst l) (fst z) /\ summed (map snd l) (snd z).
(** Re (a b) = Re a Re b - Im a Im b and Im (a b) = Re a Im b + Im a Re b *)
Definition re_terms (t : C * C) : list (R * R) :=
  [(fst (fst t), fst (snd t)); (- snd (fst t), snd (snd t))].
Definition im_terms (t : C * C) : list (R * R) :=
  [(fst (fst t), snd (snd t)); (snd (fst t), fst (snd t))].
Definition cdotted (l : list (C * C)) (z : C) : Prop :=
  dotted (flat_map re_terms l) (fst z) /\ dotted (flat_map im_terms l) (snd z).
Definition cmul (z w v : C) : Prop := cdotted [(z, w)] v.

(** np.dot(A, B) of an [r] by [n] with an [n] by [k] matrix *)
Definition matmul (r n k : nat) (A B M : nat -> nat -> C) : Prop :=
  forall i j, (i < r)%nat -> (j < k)%nat -> cdotted (map (fun x => (A i x, B x j)) (seq 0 n)) (M i j).

(** basis_set.py:307-312 transform_one_body_elements, from [l] to [k] functions:
    np.dot(C_tilde, np.dot(h, C)) *)
Definition transform1 (l k : nat) (h c d t : nat -> nat -> C) : Prop :=
  exists m, matmul l l k h c m /\ matmul k l k d m t.

(** basis_set.py:314-329 transform_two_body_elements; the transpositions only move indices *)
Definition transform2 (l k : nat) (u : nat -> nat -> nat -> nat -> C) (c d : nat -> nat -> C)
    (t : nat -> nat -> nat -> nat -> C) : Prop :=
  exists u1 u2 u3 : nat -> nat -> nat -> nat -> C,
    (** abcd, ds -> abcs *)
    (forall a b g s, (a < l)%nat -> (b < l)%nat -> (g < l)%nat -> (s < k)%nat ->
      cdotted (map (fun e => (u a b g e, c e s)) (seq 0 l)) (u1 a b g s)) /\
    (** abcs, cr -> absr -> abrs *)
    (forall a b r s, (a < l)%nat -> (b < l)%nat -> (r < k)%nat -> (s < k)%nat ->
      cdotted (map (fun g => (u1 a b g s, c g r)) (seq 0 l)) (u2 a b r s)) /\
    (** abrs, qb -> arsq -> aqrs *)
    (forall a q r s, (a < l)%nat -> (q < k)%nat -> (r < k)%nat -> (s < k)%nat ->
      cdotted (map (fun b => (u2 a b r s, d q b)) (seq 0 l)) (u3 a q r s)) /\
    (** pa, aqrs -> pqrs *)
    (forall p q r s, (p < k)%nat -> (q < k)%nat -> (r < k)%nat -> (s < k)%nat ->
      cdotted (map (fun a => (d p a, u3 a q r s)) (seq 0 l)) (t p q r s)).

(** basis_set.py:299-305 transform_spf and transform_bra_spf at one grid point:
    np.tensordot(C, spf, axes=((0), (0))) and np.tensordot(C_tilde, bra_spf, axes=((1), (0))) *)
Definition transform_spf (l k : nat) (f : nat -> C) (c : nat -> nat -> C) (t : nat -> C) : Prop :=
  forall p, (p < k)%nat -> cdotted (map (fun a => (c a p, f a)) (seq 0 l)) (t p).
Definition transform_bra (l k : nat) (f : nat -> C) (d : nat -> nat -> C) (t : nat -> C) : Prop :=
  forall p, (p < k)%nat -> cdotted (map (fun a => (d p a, f a)) (seq 0 l)) (t p).

(** basis_set.py:731-733 anti_symmetrize_u *)
Definition anti_symmetrize (u : nat -> nat -> nat -> nat -> C) (p q r s : nat) : C := csub (u p q r s) (u p q s r).

(** basis_set.py:723-729: np.kron(h, np.eye(2)) and np.kron(u, delta delta) *)
Definition eye (i j : nat) : R := if (i =? j)%nat then 1 else 0.
Definition add_spin1 (h : nat -> nat -> C) (p q : nat) : C :=
  rscale (eye (p mod 2) (q mod 2)) (h (p / 2) (q / 2))%nat.
Definition add_spin2 (u : nat -> nat -> nat -> nat -> C) (p q r s : nat) : C :=
  rscale (fmul (eye (p mod 2) (r mod 2)) (eye (q mod 2) (s mod 2))) (u (p / 2) (q / 2) (r / 2) (s / 2))%nat.

(** np.trace(np.trace(w, axis1=1, axis2=3)) with w[i, j, i, j] given as [w i j] *)
Definition trace2 (n : nat) (w : nat -> nat -> C) (t : C) : Prop :=
  exists row : nat -> C, (forall i, (i < n)%nat -> csummed (map (w i) (seq 0 n)) (row i)) /\ csummed (map row (seq 0 n)) t.

(** general_orbital_system.py:76-96 compute_reference_energy: np.trace(h[o, o]) +
    0.5 * np.trace(np.trace(u[o, o, o, o], axis1=1, axis2=3)) *)
Definition reference_energy (n : nat) (h : nat -> nat -> C) (u : nat -> nat -> nat -> nat -> C) (e : C) : Prop :=
  exists t1 t2 : C,
    csummed (map (fun i => h i i) (seq 0 n)) t1 /\
    trace2 n (fun i j => u i j i j) t2 /\
    e = cadd t1 (rscale (1 / 2) t2).

(** spatial_orbital_system.py:107-129: 2 trace(h) + 2 trace(trace(u, 1, 3)) - trace(trace(u, 1, 2)) *)
Definition reference_energy_restricted (n : nat) (h : nat -> nat -> C) (u : nat -> nat -> nat -> nat -> C) (e : C) : Prop :=
  exists t1 t2 t3 : C,
    csummed (map (fun i => h i i) (seq 0 n)) t1 /\
    trace2 n (fun i j => u i j i j) t2 /\
    trace2 n (fun i j => u i j j i) t3 /\
    e = csub (cadd (rscale 2 t1) (rscale 2 t2)) t3.

(** general_orbital_system.py:98-138 construct_fock_matrix: f = 0; f += h; f += einsum("piqi -> pq", u) *)
Definition fock_matrix (l n : nat) (h : nat -> nat -> C) (u : nat -> nat -> nat -> nat -> C) (f : nat -> nat -> C) : Prop :=
  forall p q, (p < l)%nat -> (q < l)%nat -> exists t : C,
    csummed (map (fun i => u p i q i) (seq 0 n)) t /\ f p q = cadd (cadd (RtoC 0) (h p q)) t.
(** spatial_orbital_system.py:131-171: f = 0; f += h; f += 2 einsum("piqi -> pq", u); f -= einsum("piiq -> pq", u) *)
Definition fock_matrix_restricted (l n : nat) (h : nat -> nat -> C) (u : nat -> nat -> nat -> nat -> C) (f : nat -> nat -> C) : Prop :=
  forall p q, (p < l)%nat -> (q < l)%nat -> exists t t' : C,
    csummed (map (fun i => u p i q i) (seq 0 n)) t /\ csummed (map (fun i => u p i i q) (seq 0 n)) t' /\
    f p q = csub (cadd (cadd (RtoC 0) (h p q)) (rscale 2 t)) t'.

(** one_dim_qd.py:20-29; numba runs the loop as written *)
Definition trapz_loop (n : nat) (f : nat -> C) : C :=
  fold_left (fun val i => cadd val (cadd (f (i - 1)%nat) (f i))) (seq 1 (n - 1)) (RtoC 0).
Definition ftrapz (n : nat) (f : nat -> C) (x : nat -> R) : C :=
  let delta_x := fsub (x 1%nat) (x 0%nat) in
  rscale delta_x (rscale (1 / 2) (trapz_loop n f)).

(** one_dim_qd.py:32-34 *)
Definition fcoulomb (x_1 x_2 alpha a : R) : R :=
  let d := fsub x_1 x_2 in
  fdiv alpha (fsqrt (fadd (fmul d d) (fmul a a))).

(** one_dim_qd.py:37-51: inner_integral[q, s, i] *)
Definition finner (spf : nat -> nat -> C) (N : nat) (grid : nat -> R) (alpha a : R) (q s i : nat) (z : C) : Prop :=
  exists f : nat -> C,
    (forall j, (j < N)%nat -> exists v, cmul (Cconj (spf q j)) (RtoC (fcoulomb (grid i) (grid j) alpha a)) v /\ cmul v (spf s j) (f j)) /\
    z = ftrapz N f grid.
(** one_dim_qd.py:54-66: u[p, q, r, s] *)
Definition fintegrals (l : nat) (spf : nat -> nat -> C) (N : nat) (grid : nat -> R) (alpha a : R)
    (u : nat -> nat -> nat -> nat -> C) : Prop :=
  exists inner : nat -> nat -> nat -> C,
    (forall q s i, (q < l)%nat -> (s < l)%nat -> (i < N)%nat -> finner spf N grid alpha a q s i (inner q s i)) /\
    (forall p q r s, (p < l)%nat -> (q < l)%nat -> (r < l)%nat -> (s < l)%nat ->
      exists f : nat -> C,
        (forall j, (j < N)%nat -> exists v, cmul (Cconj (spf p j)) (inner q s j) v /\ cmul v (spf r j) (f j)) /\
        u p q r s = ftrapz N f grid).

(** np.linspace(-L, L, N)[i]: arange(N) * (2 L / (N - 1)) + (-L), and the last element is set to L *)
Definition flinspace (L : R) (N i : nat) : R :=
  if (i =? N - 1)%nat then L
  else fadd (fmul (INR i) (fdiv (fsub L (- L)) (INR (N - 1)))) (- L).

(** one_dim_qd.py:107: omega * (np.arange(l) + 0.5) *)
Definition fenergy (omega : R) (p : nat) : R := fmul omega (fadd (INR p) (1 / 2)).

(** system_helper.py:14-28: at one grid point, rho += phi_tilde_p * rho_qp[q, p] * phi_q *)
Inductive density_step (bra ket : nat -> C) (rho : nat -> nat -> C) (pq : nat * nat) (z w : C) : Prop :=
| Density_step v v' : cmul (bra (fst pq)) (rho (snd pq) (fst pq)) v -> cmul v (ket (snd pq)) v' ->
    w = cadd z v' -> density_step bra ket rho pq z w.
Inductive density_loop (bra ket : nat -> C) (rho : nat -> nat -> C) : list (nat * nat) -> C -> C -> Prop :=
| density_end z : density_loop bra ket rho [] z z
| density_next pq pqs z w v : density_step bra ket rho pq z w -> density_loop bra ket rho pqs w v ->
    density_loop bra ket rho (pq :: pqs) z v.
Definition fdensity (l : nat) (bra ket : nat -> C) (rho : nat -> nat -> C) (z : C) : Prop :=
  density_loop bra ket rho (list_prod (seq 0 l) (seq 0 l)) (RtoC 0) z.
