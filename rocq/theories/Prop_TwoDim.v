(** C40, C41, C51, C52: orbitals of the two-dimensional oscillators. *)
From Coq Require Import List Arith ZArith Lia Bool Reals Lra.
From Verif Require Import Py TwoDim TwoDimProofs FieldProofs TwoDimExamples.
Import ListNotations.

Open Scope Z_scope.
(** C40. [get_index_p] maps the pairs (n >= 0, m) one to one onto the numbers p >= 0, and
    [get_indices_nm] is its inverse. *)
Theorem C40_number_of_indices :
  forall n m, 0 <= n -> 0 <= get_index_p n m /\ get_indices_nm (get_index_p n m) = Some (n, m).
Proof. exact (fun n m H => conj (index_nonneg n m H) (indices_of_index n m H)). Qed.
Print Assumptions C40_number_of_indices.
Theorem C40_indices_of_number :
  forall p, 0 <= p -> exists n m, get_indices_nm p = Some (n, m) /\ 0 <= n /\ get_index_p n m = p.
Proof. exact index_of_indices. Qed.
Print Assumptions C40_indices_of_number.
Example C40_instance : get_indices_nm 17 = Some (2, -1) /\ get_index_p 2 (-1) = 17 /\ get_indices_nm 12 = Some (2, 0) /\ get_indices_nm 13 = Some (1, 2).
Proof. repeat split. Qed.

(** C41. Energy k is that of the k consecutive orbitals from k(k-1)/2 on; so the
    diagonal never decreases. *)
Theorem C41_shells :
  forall k, 1 <= k -> exists first, 0 <= first /\ 2 * first = k * (k - 1) /\
  forall p, 0 <= p -> (one_body_diagonal p = Some k <-> first <= p < first + k).
Proof. exact shell_interval. Qed.
Print Assumptions C41_shells.
Theorem C41_monotone :
  forall p q k k', 0 <= p <= q -> one_body_diagonal p = Some k -> one_body_diagonal q = Some k' -> k <= k'.
Proof. exact diagonal_monotone. Qed.
Print Assumptions C41_monotone.
Theorem C41_energy :
  forall p, 0 <= p -> exists n m, get_indices_nm p = Some (n, m) /\ one_body_diagonal p = Some (2 * n + Z.abs m + 1) /\ 1 <= 2 * n + Z.abs m + 1.
Proof. exact diagonal_energy. Qed.
Print Assumptions C41_energy.
Example C41_instance : map one_body_diagonal [0; 1; 2; 3; 4; 5; 6] = map Some [1; 2; 2; 3; 3; 3; 4].
Proof. reflexivity. Qed.

Open Scope R_scope.
(** C51. The single-particle energies in the field, and their order. *)
Definition field_energy (omega_0 omega_c : R) (s : Z * Z) : R :=
  sqrt (omega_0 ^ 2 + omega_c ^ 2 / 4) * (2 * IZR (fst s) + IZR (Z.abs (snd s)) + 1) - omega_c * IZR (snd s) / 2.
Definition lower (omega_0 omega_c : R) (s t : Z * Z) : Prop :=
  field_energy omega_0 omega_c s < field_energy omega_0 omega_c t \/
  (field_energy omega_0 omega_c s = field_energy omega_0 omega_c t /\ (snd s < snd t)%Z).
(** Orbital p has exactly the orbitals 0..p-1 below it, in the whole spectrum. *)
Theorem C51_lowest_states :
  forall l omega_0 omega_c rows, omega_0 <> 0 -> field_states l omega_0 omega_c = Ok rows ->
  length rows = l /\
  forall p s, nth_error rows p = Some s -> (0 <= fst s)%Z /\
    forall t, (0 <= fst t)%Z -> (lower omega_0 omega_c t s <-> exists q, (q < p)%nat /\ nth_error rows q = Some t).
Proof. exact field_lowest'. Qed.
Print Assumptions C51_lowest_states.
(** The construction succeeds when the energies are above the resolution of the level
    search, and fails far below it. *)
Theorem C51_succeeds_partial :
  forall l omega_0 omega_c, (1 <= l)%nat -> omega_0 <> 0 ->
  2 / 1000000 <= sqrt (omega_0 ^ 2 + omega_c ^ 2 / 4) * (INR l + 4) -> exists rows, field_states l omega_0 omega_c = Ok rows.
Proof. exact field_succeeds. Qed.
Print Assumptions C51_succeeds_partial.
Definition C51_claim : Prop :=
  forall l omega_0 omega_c, (1 <= l)%nat -> 0 < omega_0 -> exists rows, field_states l omega_0 omega_c = Ok rows.
Theorem C51_refuted : ~ C51_claim.
Proof. exact field_refuted. Qed.
Print Assumptions C51_refuted.
Theorem C51_fails_below_resolution :
  forall l omega_0 omega_c, (1 <= l)%nat -> omega_0 <> 0 ->
  sqrt (omega_0 ^ 2 + omega_c ^ 2 / 4) * (4 * INR l + 9) < 5 / 1000000000 -> field_states l omega_0 omega_c = Err IndexError.
Proof. exact field_fails. Qed.
Print Assumptions C51_fails_below_resolution.
Example C51_instance : exists rows, field_states 6 1 (1 / 2) = Ok rows /\ length rows = 6%nat.
Proof. exact field_instance. Qed.

(** C52. *)
Theorem C52_field_free :
  forall l omega_0, (1 <= l)%nat -> 2 / 1000000 <= Rabs omega_0 * (INR l + 4) ->
  exists rows, field_states l omega_0 0 = Ok rows /\ length rows = l /\
  forall p, (p < l)%nat -> nth_error rows p = get_indices_nm (Z.of_nat p).
Proof. exact field_free_ok. Qed.
Print Assumptions C52_field_free.
Theorem C52_field_free_rows :
  forall l omega_0 rows p, omega_0 <> 0 -> field_states l omega_0 0 = Ok rows -> (p < l)%nat ->
  nth_error rows p = get_indices_nm (Z.of_nat p).
Proof. exact field_free. Qed.
Print Assumptions C52_field_free_rows.
Example C52_instance : exists rows, field_states 4 1 0 = Ok rows /\ nth_error rows 3 = Some (0, -2)%Z.
Proof. exact field_free_instance. Qed.
