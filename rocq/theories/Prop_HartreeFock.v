(** C130: orbitals of lowest energy. *)
From Coq Require Import List Arith ZArith Reals Lra Lia Bool.
From Coquelicot Require Import Coquelicot.
From Verif Require Import Scalar ScalarC Py Numpy BasisSet Spec BasisSpec Examples EnergyFacts Systems SystemFacts SystemExamples FockExamples RotationSpec RotationExamples SpectralSpec HartreeFockTheorems HartreeFockExamples.
Import ListNotations.
Open Scope R_scope.

(** Among all unitary changes of basis of a system with Hermitian elements there is one with the
    lowest reference energy, before and after which no other is better, whose Fock matrix is
    diagonal with real orbital energies, ascending among occupied and among empty orbitals. *)
Theorem C130_exists :
  forall (w : world CC) s k N l x (b : basis CC) (h u : arr CC), sys_at w s k N l x b ->
  (b_arr b F_spf = None -> b_arr b F_bra = None) -> b_arr b F_h = Some h -> b_arr b F_u = Some u ->
  hermitian l (mat h) -> hermitian2 l (ten u) -> particle_sym l (ten u) ->
  exists (C : arr CC) w' e h' u' ep, shape C = [l; l] /\ unitary l (mat C) /\
    sys_change_basis s C None w = (Ok tt, w') /\ reference_energy s w' = (Ok (RtoC e), w') /\
    (forall (C1 : arr CC) w1 e1, shape C1 = [l; l] -> unitary l (mat C1) -> sys_change_basis s C1 None w = (Ok tt, w1) -> reference_energy s w1 = (Ok e1, w1) -> e <= Re e1) /\
    (forall (C1 : arr CC) w1 e1, shape C1 = [l; l] -> unitary l (mat C1) -> sys_change_basis s C1 None w' = (Ok tt, w1) -> reference_energy s w1 = (Ok e1, w1) -> e <= Re e1) /\
    sys_get s F_h w' = (Ok (Some h'), w') /\ sys_get s F_u w' = (Ok (Some u'), w') /\ buffer_ok (Buffer (zeros [l; l] Complex128)) h' u' /\
    (forall f, buffer_ok f h' u' -> exists F, fock_matrix s h' u' f w' = (Ok F, w') /\ shape F = [l; l] /\
      forall p q, (p < l)%nat -> (q < l)%nat -> mat F p q = (if (p =? q)%nat then RtoC (ep p) else RtoC 0)) /\
    (forall p q, (p <= q)%nat -> (q < l)%nat -> (q < N \/ N <= p)%nat -> ep p <= ep q).
Proof. exact hartree_fock. Qed.
Print Assumptions C130_exists.
Example C130_exists_instance : sys_at lv_w 0 Spatial 1 2 lv_sys lv_basis /\ hermitian 2 (mat lv_h) /\ hermitian2 2 (ten lv_u) /\ particle_sym 2 (ten lv_u) /\
  sys_at gv_w 0 General 1 2 gv_sys gv_basis /\ hermitian2 2 (ten gv_u) /\ particle_sym 2 (ten gv_u).
Proof.
  split; [exact lv_at|]. split; [exact lv_hermitian|]. split; [exact lv_hermitian2|]. split; [exact lv_particle|].
  split; [exact gv_at|]. split; [exact gv_hermitian2 | exact gv_particle].
Qed.

(** When a change of basis mixes occupied orbitals among each other and empty ones among each
    other, the new Fock matrix is the old one in the new basis. *)
Theorem C130_fock_follows :
  forall (K : scalar) s (w : world K) k N l x b C Ct (h u : arr K) f, sys_at w s k N l x b -> shape C = [l; l] -> tilde_shape C Ct l l ->
  (b_arr b F_spf = None -> b_arr b F_bra = None) -> b_arr b F_h = Some h -> b_arr b F_u = Some u -> buffer_ok f h u ->
  (forall i a, (i < N)%nat -> (N <= a < l)%nat -> mat C i a = s0 /\ mat C a i = s0) ->
  (forall p q, (p < l)%nat -> (q < l)%nat -> mmul l (mat C) (tilde C Ct) p q = delta p q) ->
  (forall p q, (p < l)%nat -> (q < l)%nat -> mmul l (tilde C Ct) (mat C) p q = delta p q) ->
  exists w' h' u' F, sys_change_basis s C Ct w = (Ok tt, w') /\ sys_get s F_h w' = (Ok (Some h'), w') /\ sys_get s F_u w' = (Ok (Some u'), w') /\
    fock_matrix s h u f w = (Ok F, w) /\
    forall f', buffer_ok f' h' u' -> exists F', fock_matrix s h' u' f' w' = (Ok F', w') /\ shape F' = [l; l] /\
      forall p q, (p < l)%nat -> (q < l)%nat -> mat F' p q = T1 l (mat F) (mat C) (tilde C Ct) p q.
Proof. exact fock_follows. Qed.
Print Assumptions C130_fock_follows.
Example C130_fock_follows_instance : sys_at ex_w 0 Spatial 1 2 ex_sys ex_basis /\ shape ex_D = [2; 2]%nat /\ tilde_shape ex_D (Some ex_Dinv) 2 2 /\
  (forall i a, (i < 1)%nat -> (1 <= a < 2)%nat -> mat ex_D i a = s0 /\ mat ex_D a i = s0) /\
  (forall p q, (p < 2)%nat -> (q < 2)%nat -> mmul 2 (mat ex_D) (tilde ex_D (Some ex_Dinv)) p q = delta p q) /\
  (forall p q, (p < 2)%nat -> (q < 2)%nat -> mmul 2 (tilde ex_D (Some ex_Dinv)) (mat ex_D) p q = delta p q).
Proof.
  split; [exact ex_sys_at|]. split; [reflexivity|]. split; [reflexivity|].
  split; [exact ex_D_block|]. split; [exact ex_D_inv | exact ex_Dinv_D].
Qed.

(** Putting empty orbital a in the place of occupied orbital i changes the energy by the
    difference of their diagonal elements of the Fock matrix less the interaction of the pair. *)
Theorem C130_promotion :
  forall (K : scalar) s (w : world K) k N l x b (h u : arr K) f i a, sys_at w s k N l x b ->
  (b_arr b F_spf = None -> b_arr b F_bra = None) -> b_arr b F_h = Some h -> b_arr b F_u = Some u -> buffer_ok f h u ->
  particle_sym l (ten u) -> (k = General -> antisym_ket l (ten u)) -> (i < N)%nat -> (N <= a < l)%nat ->
  exists w' e e' F, sys_change_basis s (promotion K l i a) None w = (Ok tt, w') /\ fock_matrix s h u f w = (Ok F, w) /\
    reference_energy s w = (Ok e, w) /\ reference_energy s w' = (Ok e', w') /\
    e' = sadd e (match k with
      | General => ssub (ssub (mat F a a) (mat F i i)) (ten u i a i a)
      | Spatial => ssub (sadd (sadd (smul (sadd s1 s1) (ssub (mat F a a) (mat F i i))) (ten u a a a a)) (ten u i i i i))
                        (smul (sadd s1 s1) (ssub (smul (sadd s1 s1) (ten u i a i a)) (ten u i a a i)))
      end).
Proof. exact promoted. Qed.
Print Assumptions C130_promotion.
Example C130_promotion_instance : sys_at fk_w 1 General 1 2 ex_gsys fk_basis /\ particle_sym 2 (ten fk_u) /\ antisym_ket 2 (ten fk_u) /\
  sys_at ex_w 0 Spatial 1 2 ex_sys ex_basis /\ particle_sym 2 (ten ex_u) /\ buffer_ok NoBuffer ex_h fk_u /\ buffer_ok NoBuffer ex_h ex_u.
Proof.
  split; [exact fk_sys_at|]. split; [exact fk_particle|]. split; [exact fk_antisym|]. split; [exact ex_sys_at|]. split; [exact ex_u_particle|]. split; reflexivity.
Qed.

(** So for spin-orbitals of lowest energy every empty level lies above every occupied one by at
    least the interaction of the two. *)
Theorem C130_gap :
  forall s (w : world CC) N l x b (h u : arr CC) f (e : R) i a, sys_at w s General N l x b ->
  (b_arr b F_spf = None -> b_arr b F_bra = None) -> b_arr b F_h = Some h -> b_arr b F_u = Some u -> buffer_ok f h u ->
  particle_sym l (ten u) -> antisym_ket l (ten u) -> reference_energy s w = (Ok (RtoC e), w) ->
  (forall (C : arr CC) w' e', shape C = [l; l] -> unitary l (mat C) -> sys_change_basis s C None w = (Ok tt, w') -> reference_energy s w' = (Ok e', w') -> e <= Re e') ->
  (i < N)%nat -> (N <= a < l)%nat ->
  exists F, fock_matrix s h u f w = (Ok F, w) /\ Re (mat F i i) + Re (ten u i a i a) <= Re (mat F a a).
Proof. exact gap. Qed.
Print Assumptions C130_gap.
Example C130_gap_instance : sys_at gv_w 0 General 1 2 gv_sys gv_basis /\ particle_sym 2 (ten gv_u) /\ antisym_ket 2 (ten gv_u) /\
  buffer_ok NoBuffer lv_h gv_u /\ reference_energy 0 gv_w = (Ok (RtoC 0), gv_w) /\ Re (ten gv_u 0 1 0 1) = 1 / 4 /\
  forall (C : arr CC) w' e', shape C = [2; 2]%nat -> unitary 2 (mat C) ->
    sys_change_basis 0 C None gv_w = (Ok tt, w') -> reference_energy 0 w' = (Ok e', w') -> 0 <= Re e'.
Proof.
  split; [exact gv_at|]. split; [exact gv_particle|]. split; [exact gv_antisym|]. split; [reflexivity|]. split; [exact gv_energy|]. split; [reflexivity | exact gv_minimal].
Qed.
