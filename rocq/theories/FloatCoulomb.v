(** quantum_dots/two_dim/coulomb_elements.py in double precision.

    The functions are compiled with fastmath=True, so LLVM may inline them, add the terms of
    every sum in any order and fuse multiplications and additions.  The model relates the
    quantum numbers to EVERY number that can come out: sums are [summed] or [dotted]
    (FloatModel.v).  Other transformations fastmath allows (distributing a product over a
    sum, approximate functions) are not modelled, except that log, exp and lgamma are
    arbitrary functions: the theorems assume a bound on their errors.

    The factors -2 * (x & 1) + 1 = 1 or -1, the arguments a of np.log, 1.0 + 0.5 * L and
    0.5 * (G - L + 1.0) of math.lgamma and the factor -0.5 * (G + 1) are small integers and
    half-integers, exact in double precision. *)
From Coq Require Import List Arith ZArith Reals Bool.
From Verif Require Import Coulomb FloatModel.
Import ListNotations.
Open Scope R_scope.

(** np.log, np.exp and math.lgamma *)
Record libm := Libm { flog : R -> R; fexp : R -> R; flgamma : R -> R }.

(** A term of an exponent: a coefficient and the function called, np.log(a) or math.lgamma(k/2) *)
Inductive call := Log (a : nat) | Lgamma (k : nat).
Definition value (M : libm) (c : call) : R :=
  match c with Log a => flog M (INR a) | Lgamma k => flgamma M (INR k / 2) end.
Definition exponent (M : libm) (ts : list (R * call)) (x : R) : Prop :=
  dotted (map (fun t => (fst t, value M (snd t))) ts) x.

(** 90-97 log_factorial, added ([c] = 1) or subtracted ([c] = -1) *)
Definition log_factorial_terms (c : R) (n : nat) : list (R * call) := map (fun a => (c, Log a)) (seq 2 (n - 1)).
(** 100-107 log_ratio_1 *)
Definition log_ratio_1_terms (j : list nat) : list (R * call) := flat_map (log_factorial_terms (-1)) j.
(** 110-112 log_ratio_2 *)
Definition log_ratio_2_terms (G : nat) : list (R * call) := [(- (1 / 2) * (INR G + 1), Log 2)].
(** 115-123 log_product_1, before the exponential *)
Definition log_product_1_terms (n : list nat) (m : list Z) : list (R * call) :=
  flat_map (fun '(n, m) => log_factorial_terms 1 n ++ log_factorial_terms (-1) (n + Z.abs_nat m)) (combine n m).
(** 126-135 log_product_2 *)
Definition log_product_2_terms (n : list nat) (m : list Z) (j : list nat) : list (R * call) :=
  flat_map (fun '(n, (m, j)) => log_factorial_terms 1 (n + Z.abs_nat m)
    ++ log_factorial_terms (-1) (n - j) ++ log_factorial_terms (-1) (j + Z.abs_nat m)) (combine n (combine m j)).
(** 138-147 log_product_3 *)
Definition log_product_3_terms (l g : list nat) : list (R * call) :=
  flat_map (fun '(l, g) => log_factorial_terms 1 g ++ log_factorial_terms (-1) l ++ log_factorial_terms (-1) (g - l)) (combine l g).

(** Four nested loops "for i in range(a + 1)" *)
Definition quads (a b c d : nat) : list (nat * nat * nat * nat) :=
  flat_map (fun i => flat_map (fun j => flat_map (fun k => map (fun l => (i, j, k, l))
    (seq 0 (d + 1))) (seq 0 (c + 1))) (seq 0 (b + 1))) (seq 0 (a + 1)).

(** 56-80: the sum over l_1, ..., l_4 *)
Definition inner_exponent (g0 g1 g2 g3 : nat) (l : nat * nat * nat * nat) : list (R * call) :=
  let '(l0, l1, l2, l3) := l in
  let L := (l0 + l1 + l2 + l3)%nat in
  log_product_3_terms [l0; l1; l2; l3] [g0; g1; g2; g3] ++ [(1, Lgamma (2 + L)); (1, Lgamma (g0 + g1 + g2 + g3 - L + 1))].
Definition kept (l : nat * nat * nat * nat) : bool := let '(l0, l1, l2, l3) := l in (l0 + l1 =? l2 + l3)%nat.
Definition inner_sign (g1 g2 : nat) (l : nat * nat * nat * nat) : R :=
  let '(l0, l1, l2, l3) := l in sign_of (g1 + g2 - l1 - l2).
Definition inner64 (M : libm) (g0 g1 g2 g3 : nat) (temp : R) : Prop :=
  let ls := filter kept (quads g0 g1 g2 g3) in
  exists x : nat * nat * nat * nat -> R,
    (forall l, In l ls -> exponent M (inner_exponent g0 g1 g2 g3 l) (x l)) /\
    summed (map (fun l => inner_sign g1 g2 l * fexp M (x l)) ls) temp.

(** 6-87 coulomb_ho *)
Definition outer_exponent (n : list nat) (m : list Z) (G : nat) (j : nat * nat * nat * nat) : list (R * call) :=
  let '(j0, j1, j2, j3) := j in
  log_ratio_1_terms [j0; j1; j2; j3] ++ log_product_2_terms n m [j0; j1; j2; j3] ++ log_ratio_2_terms G.
Definition outer_sign (j : nat * nat * nat * nat) : R := let '(j0, j1, j2, j3) := j in sign_of (j0 + j1 + j2 + j3).
Definition gammas (mi mj mk ml : Z) (j : nat * nat * nat * nat) : nat * nat * nat * nat :=
  let '(j0, j1, j2, j3) := j in
  (j0 + j3 + big_M mi + delta_m ml, j1 + j2 + big_M mj + delta_m mk,
   j2 + j1 + big_M mk + delta_m mj, j3 + j0 + big_M ml + delta_m mi)%nat.
Definition total (g : nat * nat * nat * nat) : nat := let '(g0, g1, g2, g3) := g in (g0 + g1 + g2 + g3)%nat.
Definition inner64_at (M : libm) (g : nat * nat * nat * nat) : R -> Prop :=
  let '(g0, g1, g2, g3) := g in inner64 M g0 g1 g2 g3.
Definition coulomb64 (M : libm) (ni : nat) (mi : Z) (nj : nat) (mj : Z) (nl : nat) (ml : Z) (nk : nat) (mk : Z) (z : R) : Prop :=
  if negb (mi + mj =? mk + ml)%Z then z = 0
  else
    let n := [ni; nj; nk; nl] in
    let m := [mi; mj; mk; ml] in
    let js := quads ni nj nk nl in
    exists (y t : nat * nat * nat * nat -> R) (element w : R),
      (forall j, In j js -> exponent M (outer_exponent n m (total (gammas mi mj mk ml j)) j) (y j)) /\
      (forall j, In j js -> inner64_at M (gammas mi mj mk ml j) (t j)) /\
      dotted (map (fun j => (outer_sign j * fexp M (y j), t j)) js) element /\
      exponent M (log_product_1_terms n m) w /\
      z = fmul element (fexp M (fmul (1 / 2) w)).
