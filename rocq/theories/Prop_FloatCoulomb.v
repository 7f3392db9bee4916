(** C137: the Coulomb elements as computed in double precision. *)
From Coq Require Import List Arith ZArith Reals Lra.
From Verif Require Import FloatModel FloatSpec FloatProofs CoulombSpec CoulombProofs CacheExamples FloatCoulomb FloatCoulombSpec FloatCoulombTheorems.
Open Scope R_scope.

(** coulomb_ho(n_i, m_i, n_j, m_j, n_l, m_l, n_k, m_k), whatever the order in which a
    compiler given fastmath adds the terms and whether or not it fuses multiplications and
    additions, is the element of the article up to [coulomb_error] times the sum of the
    absolute values of the terms of its formula. *)
Theorem C137_error :
  forall Gam e M ni mi nj mj nk mk nl ml z, is_gamma Gam -> 0 <= e <= / 1000000 -> libm_accurate Gam e M ->
  (quanta ni mi + quanta nj mj + quanta nk mk + quanta nl ml <= 48)%nat ->
  coulomb64 M ni mi nj mj nl ml nk mk z ->
  Rabs (z - anisimovas_matulis Gam ni mi nj mj nk mk nl ml)
  <= coulomb_error e (quanta ni mi + quanta nj mj + quanta nk mk + quanta nl ml) * coulomb_size Gam ni mi nj mj nk mk nl ml + / 2 ^ 1055.
Proof. exact coulomb_accuracy. Qed.
Print Assumptions C137_error.
(** In numbers, for orbitals of the first 13 shells (91 orbitals). *)
Theorem C137_shells :
  forall Gam e M ni mi nj mj nk mk nl ml z, is_gamma Gam -> 0 <= e <= / 2 ^ 51 -> libm_accurate Gam e M ->
  (quanta ni mi <= 12)%nat -> (quanta nj mj <= 12)%nat -> (quanta nk mk <= 12)%nat -> (quanta nl ml <= 12)%nat ->
  coulomb64 M ni mi nj mj nl ml nk mk z ->
  Rabs (z - anisimovas_matulis Gam ni mi nj mj nk mk nl ml) <= 2 / 10 ^ 10 * coulomb_size Gam ni mi nj mj nk mk nl ml + / 2 ^ 1055.
Proof. exact coulomb_accuracy_shells. Qed.
Print Assumptions C137_shells.
(** Elements that do not conserve angular momentum are zero, without any error. *)
Theorem C137_momentum :
  forall M ni mi nj mj nk mk nl ml z, (mi + mj <> mk + ml)%Z -> coulomb64 M ni mi nj mj nl ml nk mk z -> z = 0.
Proof. exact momentum_exact. Qed.
Print Assumptions C137_momentum.
(** There is a result. *)
Theorem C137_exists :
  forall M ni mi nj mj nk mk nl ml, exists z, coulomb64 M ni mi nj mj nl ml nk mk z.
Proof. exact (fun M ni mi nj mj nk mk nl ml => coulomb64_total M ni mi nj mj nl ml nk mk). Qed.
Print Assumptions C137_exists.
(** Correctly rounded log, exp and lgamma meet the hypothesis. *)
Theorem C137_libm : forall Gam, is_gamma Gam -> libm_accurate Gam (/ 2 ^ 52) rounded_libm.
Proof. exact rounded_accurate. Qed.
Print Assumptions C137_libm.
(** The interaction of two particles in the lowest orbital, sqrt(pi/2): a relative error. *)
Theorem C137_ground :
  forall e M z, 0 <= e <= / 2 ^ 51 -> libm_accurate half_gamma e M -> coulomb64 M 0 0 0 0 0 0 0 0 z ->
  Rabs (z - sqrt (PI / 2)) <= 2 / 10 ^ 10 * sqrt (PI / 2) + / 2 ^ 1055.
Proof. exact ground_accuracy. Qed.
Print Assumptions C137_ground.
Example C137_instance :
  is_gamma half_gamma /\ libm_accurate half_gamma (/ 2 ^ 52) rounded_libm /\ 0 <= / 2 ^ 52 <= / 2 ^ 51 /\ / 2 ^ 51 <= / 1000000 /\
  (quanta 5 2 <= 12)%nat /\ exists z, coulomb64 rounded_libm 5 2 0 (-1) 1 0 3 1 z.
Proof.
  split; [exact half_gamma_ok|]. split; [exact (rounded_accurate half_gamma half_gamma_ok)|].
  split; [lra|]. split; [lra|]. split; [cbv; auto with arith | apply coulomb64_total].
Qed.
