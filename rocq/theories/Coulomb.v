(** Model of quantum_systems/quantum_dots/two_dim/coulomb_elements.py and of the
    functions of two_dim_helper.py that fill the array of Coulomb elements, in
    exact real arithmetic.  Quantum numbers n, j, l, g are natural numbers (the
    callers pass n >= 0, and the loops keep j <= n, l <= g), m is an integer.
    math.lgamma is only called at positive half-integers x = k/2 and is modelled
    there by the logarithm of [gamma2 k], Gamma(k/2) as determined by Gamma(1/2),
    Gamma(1) and the functional equation. *)
From Coq Require Import List Arith ZArith Lia Bool Reals.
From Verif Require Import TwoDim.
Import ListNotations.
Open Scope R_scope.

(** [for x in range(n): acc = body x acc] *)
Definition for_range {A} (n : nat) (body : nat -> A -> A) (acc : A) : A :=
  fold_left (fun a x => body x a) (seq 0 n) acc.

(** coulomb_elements.py:96-102 *)
Definition log_factorial (n : nat) : R :=
  fold_left (fun fac a => fac + ln (INR a)) (seq 2 (n - 1)) 0.

(** Gamma(k/2) *)
Fixpoint gamma2 (k : nat) : R :=
  match k with
  | O => 0
  | 1%nat => sqrt PI
  | 2%nat => 1
  | S (S k' as k'') => INR k' / 2 * gamma2 k'
  end.
Definition lgamma2 (k : nat) : R := ln (gamma2 k).

(** coulomb_elements.py:106-112; the arrays of length four are given entry by entry *)
Definition log_ratio_1 (j : list nat) : R := fold_left (fun ratio x => ratio - log_factorial x) j 0.
(** coulomb_elements.py:116-117 *)
Definition log_ratio_2 (G : nat) : R := - (1 / 2) * (INR G + 1) * ln 2.
(** coulomb_elements.py:121-128 *)
Definition log_product_1 (n : list nat) (m : list Z) : R :=
  exp (1 / 2 * fold_left (fun prod '(n, m) =>
    prod + log_factorial n - log_factorial (n + Z.abs_nat m)) (combine n m) 0).
(** coulomb_elements.py:132-140 *)
Definition log_product_2 (n : list nat) (m : list Z) (j : list nat) : R :=
  fold_left (fun prod '(n, (m, j)) =>
    prod + log_factorial (n + Z.abs_nat m) - log_factorial (n - j) - log_factorial (j + Z.abs_nat m))
    (combine n (combine m j)) 0.
(** coulomb_elements.py:144-152 *)
Definition log_product_3 (l g : list nat) : R :=
  fold_left (fun prod '(l, g) => prod + log_factorial g - log_factorial l - log_factorial (g - l)) (combine l g) 0.

(** -2 * (x & 1) + 1 *)
Definition sign_of (x : nat) : R := -2 * INR (x mod 2) + 1.
(** coulomb_elements.py:22-32: M = (|m| + m) / 2 and dm = (|m| - m) / 2 *)
Definition big_M (m : Z) : nat := Z.to_nat ((Z.abs m + m) / 2).
Definition delta_m (m : Z) : nat := Z.to_nat ((Z.abs m - m) / 2).

(** coulomb_elements.py:59-82 *)
Definition inner (g0 g1 g2 g3 : nat) (G : nat) : R :=
  for_range (g0 + 1) (fun l0 temp =>
  for_range (g1 + 1) (fun l1 temp =>
  for_range (g2 + 1) (fun l2 temp =>
  for_range (g3 + 1) (fun l3 temp =>
    if (l0 + l1 =? l2 + l3)%nat then
      let L := (l0 + l1 + l2 + l3)%nat in
      temp + sign_of (g1 + g2 - l1 - l2)
        * exp (log_product_3 [l0; l1; l2; l3] [g0; g1; g2; g3] + lgamma2 (2 + L) + lgamma2 (G - L + 1))
    else temp) temp) temp) temp) 0.
(** coulomb_elements.py:7-92; the parameters in the order of the signature *)
Definition coulomb_ho (ni : nat) (mi : Z) (nj : nat) (mj : Z) (nl : nat) (ml : Z) (nk : nat) (mk : Z) : R :=
  if negb (mi + mj =? mk + ml)%Z then 0
  else
    let n := [ni; nj; nk; nl] in
    let m := [mi; mj; mk; ml] in
    let element :=
      for_range (ni + 1) (fun j0 element =>
      for_range (nj + 1) (fun j1 element =>
      for_range (nk + 1) (fun j2 element =>
      for_range (nl + 1) (fun j3 element =>
        let g0 := (j0 + j3 + big_M mi + delta_m ml)%nat in
        let g1 := (j1 + j2 + big_M mj + delta_m mk)%nat in
        let g2 := (j2 + j1 + big_M mk + delta_m mj)%nat in
        let g3 := (j3 + j0 + big_M ml + delta_m mi)%nat in
        let G := (g0 + g1 + g2 + g3)%nat in
        element + sign_of (j0 + j1 + j2 + j3)
          * exp (log_ratio_1 [j0; j1; j2; j3] + log_product_2 n m [j0; j1; j2; j3] + log_ratio_2 G)
          * inner g0 g1 g2 g3 G) element) element) element) 0 in
    element * log_product_1 n m.

(** two_dim_helper.py:252-271, 287-304: u[p, q, r, s] for a table of quantum numbers *)
Definition coulomb_of (nm : nat -> Z * Z) (p q r s : nat) : R :=
  let c p := (Z.to_nat (fst (nm p)), snd (nm p)) in
  coulomb_ho (fst (c p)) (snd (c p)) (fst (c q)) (snd (c q)) (fst (c r)) (snd (c r)) (fst (c s)) (snd (c s)).
