(** C142: Exact states with opposite angular momenta. *)
From Coq Require Import List Arith ZArith Reals Lra Lia.
From Coquelicot Require Import Coquelicot.
From Verif Require Import Scalar ScalarC Py Numpy BasisSet Spec TwoDim Cache CacheProofs CacheExamples TwoDimBasis PlaneProofs Systems FockSpec InnerSpec RaiseSpec FockSpectrumSpec SharpSpec ReversalSpec ReversalProofs ReversalTheorems ReversalSystems ReversalField.
Import ListNotations.
Open Scope R_scope.

(** Whenever exchanging orbitals changes no element, every complete list of exact states has a
    second one with the same energies.  Any integers of the orbitals that add up to M in a
    state of the first list do so, exchanged, in the state of the second, and the spins are
    the same. *)
Theorem C142_exchange :
  forall k l (h : nat -> nat -> C) u pi, exchange l pi -> unchanged1 l pi h -> unchanged2 l pi u -> forall m d E Psi, let n := spin_orbitals k l in
  spectrum n (many_body k l h u) m d E Psi -> exists Psi', spectrum n (many_body k l h u) m d E Psi' /\
    (forall g g' p M, (forall q, (q < l)%nat -> g' q = g (pi q)) -> (p < d)%nat -> amounts n (per_spin k g) M (Psi p) -> amounts n (per_spin k g') M (Psi' p)) /\
    (k = Spatial -> forall p M, (p < d)%nat -> amounts n spin_of M (Psi p) -> amounts n spin_of M (Psi' p)).
Proof. exact many_pairs. Qed.
Print Assumptions C142_exchange.
(** When the exchange reverses the integers, a state in which they add up to something
    else than 0 shares its energy with another state. *)
Theorem C142_degenerate :
  forall k l (h : nat -> nat -> C) u pi g, hermitian (K := CC) l h -> hermitian2 (K := CC) l u -> exchange l pi -> unchanged1 l pi h -> unchanged2 l pi u ->
  (forall p, (p < l)%nat -> g (pi p) = (- g p)%Z) ->
  forall m d E Psi p M, let n := spin_orbitals k l in spectrum n (many_body k l h u) m d E Psi -> (p < d)%nat -> amounts n (per_spin k g) M (Psi p) -> M <> 0%Z ->
  exists q, (q < d)%nat /\ q <> p /\ E q = E p.
Proof. exact reversed_degenerate. Qed.
Print Assumptions C142_degenerate.
(** The two-dimensional oscillator with complete shells *)
Theorem C142_oscillator :
  forall npm spin anti l k L N omega mass e (files : fs) b t, (2 * l = k * (k + 1))%nat -> (forall d n f, files d n = Some f -> f = image n) ->
  oscillator npm spin anti l L N omega mass e files = (Ok b, t) -> angular_pairs l b (fun p => snd (shell_state p)).
Proof. exact oscillator_pairs. Qed.
Print Assumptions C142_oscillator.
(** Reversing the magnetic field changes no exact energy, provided the orbitals fill their levels. *)
Theorem C142_field :
  forall npm spin anti l L N omega_0 mass omega_c rows b b', omega_0 <> 0 -> field_states l omega_0 omega_c = Ok rows -> whole_levels omega_0 omega_c rows ->
  field_oscillator npm spin anti l L N omega_0 mass omega_c = (Ok tt, b) -> field_oscillator npm spin anti l L N omega_0 mass (- omega_c) = (Ok tt, b') -> same_energies l b b'.
Proof. exact field_reversed. Qed.
Print Assumptions C142_field.

(** Three orbitals with m = 0, -1, 1 are complete shells; the determinant with one electron in the
    second has angular momentum -1. *)
Example C142_instance :
  (exists b t, oscillator 0 false false 3 8 201 1 1 (Setting false 0 true) no_files = (Ok b, t)) /\ (2 * 3 = 2 * (2 + 1))%nat /\
  map (fun p => snd (shell_state p)) [0; 1; 2]%nat = [0; -1; 1]%Z /\ total_charge 6 (per_spin Spatial (fun p => snd (shell_state p))) (Nat.testbit 4) = (-1)%Z /\
  exchange 3 (fun p => match p with 1 => 2 | 2 => 1 | _ => p end)%nat /\ (forall p, (p < 3)%nat -> snd (shell_state (match p with 1 => 2 | 2 => 1 | _ => p end)%nat) = (- snd (shell_state p))%Z).
Proof.
  split; [|split; [reflexivity|split; [reflexivity|split; [reflexivity|split]]]].
  - destruct (plane_oscillator 0 false false 3 8 201 1 1 (Setting false 0 true) no_files ltac:(lra) ltac:(lra) ltac:(discriminate) ltac:(left; reflexivity)) as (b & t & E & _). eauto.
  - intros p Hp. destruct p as [|[|[|p]]]; try lia; split; try reflexivity; lia.
  - intros p Hp. destruct p as [|[|[|p]]]; try lia; reflexivity.
Qed.
Example C142_field_instance : exists rows b b', field_states 6 1 2 = Ok rows /\ whole_levels 1 2 rows /\ field_oscillator 0 false false 6 8 201 1 1 2 = (Ok tt, b) /\ field_oscillator 0 false false 6 8 201 1 1 (- (2)) = (Ok tt, b').
Proof. exact reversal_instance. Qed.
