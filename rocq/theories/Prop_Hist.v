(** Properties of histories of operations: C07, C11, C32. *)
From Coq Require Import List Arith ZArith Lia Bool.
From Verif Require Import Scalar Py Numpy Spec BasisSet BasisSpec Examples Histories SizeProofs FlagProofs BraProofs HistExamples.
Import ListNotations.

(** C07 as claimed: after any successful history every stored array has the
    sizes announced by l and dim. *)
Definition C07_claim : Prop :=
  forall (K : scalar) (ops : list (op K)) (c : cls) (m l dim : nat) (i s : bool) (b' : basis K),
  run_ok ops (new_basis K c m l dim i s) = Some b' -> forall f, size_ok b' f.
(** It fails: spin doubling, then a change to three of the four spin-orbitals. *)
Theorem C07_refuted : ~ C07_claim.
Proof. exact sizes_refuted. Qed.
Print Assumptions C07_refuted.
(** It fails for bra_spf as well, when spf is unset. *)
Theorem C07_refuted_bra : exists (ops : list (op QI)) (b' : basis QI),
  run_ok ops (new_basis QI Base 0 2 1 false false) = Some b' /\ ~ size_ok b' F_bra.
Proof. exact sizes_refuted_bra. Qed.
Print Assumptions C07_refuted_bra.
(** What holds for every successful history: h, s, u, dipole moments, orbitals
    and the two-body spin operator have the right sizes. *)
Theorem C07_core_sizes : forall (K : scalar) (ops : list (op K)) (c : cls) (m l dim : nat) (i s : bool) (b' : basis K),
  run_ok ops (new_basis K c m l dim i s) = Some b' ->
  forall f, In f [F_h; F_s; F_u; F_dip; F_spf; F_sp2tb] -> size_ok b' f.
Proof. exact core_sizes_from_new. Qed.
Print Assumptions C07_core_sizes.
(** All attributes, when no rectangular change meets spin matrices and no
    resizing operation meets dual orbitals without orbitals. *)
Theorem C07_all_sizes : forall (K : scalar) (ops : list (op K)) (c : cls) (m l dim : nat) (i s : bool) (b' : basis K),
  run_ok ops (new_basis K c m l dim i s) = Some b' -> along resize_safe ops (new_basis K c m l dim i s) ->
  forall f, size_ok b' f.
Proof. exact all_sizes_from_new. Qed.
Print Assumptions C07_all_sizes.
Example C07_instance : along resize_safe ex_history (new_basis QI Base 0 2 1 false false) /\
  exists b', run_ok ex_history (new_basis QI Base 0 2 1 false false) = Some b' /\ b_l b' = 4 /\
    option_map shape (b_arr b' F_spz) = Some [4; 4] /\ option_map shape (b_arr b' F_bra) = Some [4; 3].
Proof. exact ex_history_safe. Qed.

(** C11 as claimed. *)
Definition C11_claim : Prop :=
  forall (K : scalar) (ops : list (op K)) (c : cls) (m l dim : nat) (i : bool),
  flag_truthful (run_any ops (new_basis K c m l dim i false)).
(** It fails: assigning u does not reset the flag. *)
Theorem C11_refuted : ~ C11_claim.
Proof. exact flag_refuted. Qed.
Print Assumptions C11_refuted.
(** It fails without any assignment to u after the flag is raised, for compact
    DVR storage ... *)
Theorem C11_refuted_dvr : exists b' : basis QI,
  run_ok [OSetH ex_h; OSetU ex_h; OAntiSym; OChange (eye 2) None] (new_basis QI SincDVR 0 2 1 false false) = Some b' /\
  ~ flag_truthful b'.
Proof. exact flag_refuted_dvr. Qed.
Print Assumptions C11_refuted_dvr.
(** ... and for spin doubling after anti-symmetrization. *)
Theorem C11_refuted_double : exists b' : basis QI,
  run_ok [OSetH ex_h; OSetS ex_s; OSetU ex_u; OAntiSym; ODouble None true] (new_basis QI Base 0 2 1 false false) = Some b' /\
  ~ flag_truthful b'.
Proof. exact flag_refuted_double. Qed.
Print Assumptions C11_refuted_double.
(** What holds: for every history, failing operations included, that avoids
    these three situations. *)
Theorem C11_flag_truthful : forall (K : scalar) (ops : list (op K)) (c : cls) (m l dim : nat) (i s : bool),
  along flag_safe ops (new_basis K c m l dim i s) -> flag_truthful (run_any ops (new_basis K c m l dim i s)).
Proof. exact flag_tells_truth. Qed.
Print Assumptions C11_flag_truthful.
Example C11_instance : along flag_safe ex_history (new_basis QI Base 0 2 1 false false) /\
  b_asym (run_any ex_history (new_basis QI Base 0 2 1 false false)) = true.
Proof. exact ex_history_flag. Qed.

(** C32 as claimed. *)
Definition C32_claim : Prop :=
  forall (K : scalar) (ops : list (op K)) (c : cls) (m l dim : nat) (i s : bool),
  (forall x, ~ In (OSetBra x) ops) -> bra_follows (run_any ops (new_basis K c m l dim i s)).
(** It fails: set spf, read bra_spf, set spf again. *)
Theorem C32_refuted : ~ C32_claim.
Proof. exact bra_refuted. Qed.
Print Assumptions C32_refuted.
(** What holds: for every history, failing operations included, without
    assignments to bra_spf, where spf is only assigned before bra_spf was first
    computed and C_tilde is the conjugate transpose of C. *)
Theorem C32_dual_orbitals_follow : forall (K : scalar) (ops : list (op K)) (c : cls) (m l dim : nat) (i s : bool),
  along bra_safe ops (new_basis K c m l dim i s) -> bra_follows (run_any ops (new_basis K c m l dim i s)).
Proof. exact dual_orbitals_follow. Qed.
Print Assumptions C32_dual_orbitals_follow.
Example C32_instance : along bra_safe ex_history (new_basis QI Base 0 2 1 false false) /\
  option_map shape (b_arr (run_any ex_history (new_basis QI Base 0 2 1 false false)) F_bra) = Some [4; 3].
Proof. exact ex_history_bra. Qed.
