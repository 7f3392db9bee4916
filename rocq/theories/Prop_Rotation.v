(** C119-C121: the Fock matrix as the response of the reference energy. *)
From Coq Require Import Reals List Arith ZArith Lia Bool.
From Coquelicot Require Import Coquelicot.
From Verif Require Import Scalar ScalarC Py Numpy Spec BasisSet BasisSpec Examples EnergyFacts Systems SystemFacts SystemExamples FockExamples
  RotationSpec RotationTheorems RotationExamples KoopmansProofs.
Import ListNotations.
Local Open Scope nat_scope.

(** C119: for every change of basis, with D the change of the density matrix of the occupied orbitals,
    E' = E + 2 tr (D F) + (2 u - exchange)(D, D) for closed shells, E + tr (D F) + u(D, D)/2 for general orbitals. *)
Theorem C119_expansion : forall (K : scalar) s (w : world K) k N l n x b (C : arr K) Ct (h u : arr K) f, sys_at w s k N l x b ->
  shape C = [l; n] -> tilde_shape C Ct n l -> spin_mats_ok b l n -> (b_arr b F_spf = None -> b_arr b F_bra = None) -> N <= n ->
  b_arr b F_h = Some h -> b_arr b F_u = Some u -> buffer_ok f h u -> particle_sym l (ten u) ->
  exists w' e e' F, sys_change_basis s C Ct w = (Ok tt, w') /\ fock_matrix s h u f w = (Ok F, w) /\
    reference_energy s w = (Ok e, w) /\ reference_energy s w' = (Ok e', w') /\
    let D := density_change N (mat C) (tilde C Ct) in
    e' = sadd e (match k with
      | General => sadd (trace2 l D (mat F)) (smul shalf (curv l (ten u) D D))
      | Spatial => sadd (smul (sadd s1 s1) (trace2 l D (mat F))) (curv l (fun p q r s => ssub (smul (sadd s1 s1) (ten u p q r s)) (ten u p q s r)) D D)
      end).
Proof. exact energy_expansion. Qed.
Print Assumptions C119_expansion.
Example C119_expansion_instance : sys_at ex_w 0 Spatial 1 2 ex_sys ex_basis /\ shape ex_X = [2; 2] /\ spin_mats_ok ex_basis 2 2 /\
  b_arr ex_basis F_h = Some ex_h /\ b_arr ex_basis F_u = Some ex_u /\ buffer_ok NoBuffer ex_h ex_u /\ particle_sym 2 (ten ex_u) /\
  density_change 1 (mat ex_X) (tilde ex_X None) 1 1 = qz 1 0 /\ sys_at fk_w 1 General 1 2 ex_gsys fk_basis.
Proof.
  split; [exact ex_sys_at|]. split; [reflexivity|]. split; [left; reflexivity|]. do 3 (split; [reflexivity|]). split; [exact ex_u_particle|].
  split; [qi | exact fk_sys_at].
Qed.

(** Rotating occupied orbital i towards empty orbital a by the angle t, with phase z, changes the
    energy at the rate 2 Re (z F_ia + conj(z) F_ai) for closed shells, half of it for general orbitals. *)
Theorem C119_gradient : forall s (w : world CC) k N l x b (h u : arr CC) f i a z, sys_at w s k N l x b ->
  (b_arr b F_spf = None -> b_arr b F_bra = None) ->
  b_arr b F_h = Some h -> b_arr b F_u = Some u -> buffer_ok f h u -> particle_sym l (ten u) ->
  i < N -> N <= a < l -> (z * Cconj z)%C = RtoC 1 ->
  exists (F : arr CC) (e : R -> CC), fock_matrix s h u f w = (Ok F, w) /\ reference_energy s w = (Ok (e 0%R), w) /\
    (forall t, exists w', sys_change_basis s (rotation l i a t z) None w = (Ok tt, w') /\ reference_energy s w' = (Ok (e t), w')) /\
    is_derive (fun t => Re (e t)) 0%R ((match k with General => 1 | Spatial => 2 end) * Re (z * mat F i a + Cconj z * mat F a i)%C)%R.
Proof. exact fock_gradient. Qed.
Print Assumptions C119_gradient.

(** C120: orbitals of lowest energy among all unitary changes of basis have no Fock matrix elements
    between occupied and empty orbitals. *)
Theorem C120_brillouin : forall s (w : world CC) k N l x b (h u : arr CC) f e, sys_at w s k N l x b ->
  (b_arr b F_spf = None -> b_arr b F_bra = None) ->
  b_arr b F_h = Some h -> b_arr b F_u = Some u -> buffer_ok f h u ->
  hermitian l (mat h) -> hermitian2 l (ten u) -> particle_sym l (ten u) ->
  reference_energy s w = (Ok e, w) ->
  (forall (C : arr CC) w' e', shape C = [l; l] ->
     (forall p q, p < l -> q < l -> mmul l (adj (mat C)) (mat C) p q = delta p q) ->
     sys_change_basis s C None w = (Ok tt, w') -> reference_energy s w' = (Ok e', w') -> (Re e <= Re e')%R) ->
  exists F, fock_matrix s h u f w = (Ok F, w) /\ forall i a, i < N -> N <= a < l -> mat F a i = RtoC 0 /\ mat F i a = RtoC 0.
Proof. exact brillouin. Qed.
Print Assumptions C120_brillouin.
Example C120_instance : sys_at lv_w 0 Spatial 1 2 lv_sys lv_basis /\ hermitian 2 (mat lv_h) /\ hermitian2 2 (ten lv_u) /\ particle_sym 2 (ten lv_u) /\
  buffer_ok NoBuffer lv_h lv_u /\ reference_energy 0 lv_w = (Ok (RtoC 0), lv_w) /\
  forall (C : arr CC) w' e', shape C = [2; 2] ->
    (forall p q, p < 2 -> q < 2 -> mmul 2 (adj (mat C)) (mat C) p q = delta p q) ->
    sys_change_basis 0 C None lv_w = (Ok tt, w') -> reference_energy 0 w' = (Ok e', w') -> (Re (RtoC 0) <= Re e')%R.
Proof.
  split; [exact lv_at|]. split; [exact lv_hermitian|]. split; [exact lv_hermitian2|]. split; [exact lv_particle|]. split; [reflexivity|].
  split; [exact lv_energy | exact lv_minimal].
Qed.

(** C121: removing the last particle (the last pair) with set_system_size. *)
Theorem C121_koopmans : forall (K : scalar) s (w : world K) k m l x b (h u : arr K) f, sys_at w s k (S m) l x b ->
  b_arr b F_h = Some h -> b_arr b F_u = Some u -> buffer_ok f h u -> particle_sym l (ten u) -> (k = General -> antisym_ket l (ten u)) ->
  exists w' e e' F, set_system_size s (Z.of_nat m) (Z.of_nat l) w = (Ok tt, w') /\ fock_matrix s h u f w = (Ok F, w) /\
    reference_energy s w = (Ok e, w) /\ reference_energy s w' = (Ok e', w') /\
    e = sadd e' (match k with General => mat F m m | Spatial => ssub (smul (sadd s1 s1) (mat F m m)) (ten u m m m m) end).
Proof. exact koopmans. Qed.
Print Assumptions C121_koopmans.
Example C121_instance : sys_at ex_w 0 Spatial 1 2 ex_sys ex_basis /\ particle_sym 2 (ten ex_u) /\ sys_at fk_w 1 General 1 2 ex_gsys fk_basis /\
  particle_sym 2 (ten fk_u) /\ antisym_ket 2 (ten fk_u) /\ buffer_ok NoBuffer ex_h fk_u.
Proof.
  split; [exact ex_sys_at|]. split; [exact ex_u_particle|]. split; [exact fk_sys_at|]. split; [exact fk_particle|]. split; [exact fk_antisym | reflexivity].
Qed.
