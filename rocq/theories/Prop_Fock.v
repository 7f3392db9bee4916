(** C88-C93: energies, Fock matrices, spin and changes of basis in second quantization. *)
From Coq Require Import List Arith ZArith Lia Bool.
From Verif Require Import Scalar Py Numpy Spec BasisSet BasisSpec Examples EnergyFacts Systems SystemFacts SystemExamples
  FockSpec FockProofs FockSystem FockExamples.
Import ListNotations.

(** The vocabulary of FockSpec.v obeys the anticommutation relations. *)
Theorem C88_fermions : forall (K : scalar) (p q : nat) (f : state K), proper f -> forall o,
  sadd (annihilate p (create q f) o) (create q (annihilate p f) o) = smul (delta p q) (f o) /\
  sadd (annihilate p (annihilate q f) o) (annihilate q (annihilate p f) o) = s0 /\
  sadd (create p (create q f) o) (create q (create p f) o) = s0.
Proof. exact fermions. Qed.
Print Assumptions C88_fermions.
(** C88: the reference energy is <Phi|H|Phi> for the determinant of the lowest orbitals. *)
Theorem C88_reference_energy : forall (K : scalar) (s : nat) (w : world K) (k : kind) (N l : nat) (x : system) (b : basis K) (h u : arr K),
  sys_at w s k N l x b -> b_arr b F_h = Some h -> b_arr b F_u = Some u -> (k = General -> antisym_ket l (ten u)) ->
  reference_energy s w = (Ok (match k with
    | General => expect l (hamiltonian l quarter (mat h) (ten u)) (lowest N)
    | Spatial => expect (2 * l) (hamiltonian (2 * l) shalf (dbl1 (mat h)) (dbl2 (ten u))) (lowest (2 * N))
    end), w).
Proof. exact reference_is_expectation. Qed.
Print Assumptions C88_reference_energy.
(** The constructed general system has the same Hamiltonian. *)
Theorem C88_constructed : forall (K : scalar) (s : nat) (va vb : list K) (w : world K) (N l : nat) (x : system) (b : basis K) (ov h u : arr K),
  sys_at w s Spatial N l x b ->
  b_cls b = Base -> orthonormal_pair va vb -> b_spin b = false -> b_asym b = false -> b_arr b F_s = Some ov ->
  (b_arr b F_spf = None -> b_arr b F_bra = None) -> sy_op x = None ->
  b_arr b F_h = Some h -> b_arr b F_u = Some u ->
  exists w' g (h' u' : arr K), construct_general s va vb true w = (Ok g, w') /\
    sys_get g F_h w' = (Ok (Some h'), w') /\ sys_get g F_u w' = (Ok (Some u'), w') /\
    (forall f : state K, proper f -> forall o,
       hamiltonian (2 * l) quarter (mat h') (ten u') f o = hamiltonian (2 * l) shalf (dbl1 (mat h)) (dbl2 (ten u)) f o) /\
    reference_energy g w' = (Ok (expect (2 * l) (hamiltonian (2 * l) quarter (mat h') (ten u')) (lowest (2 * N))), w').
Proof. exact energy_constructed. Qed.
Print Assumptions C88_constructed.
Example C88_instance : sys_at fk_w 1 General 1 2 ex_gsys fk_basis /\ antisym_ket 2 (ten fk_u) /\ ten fk_u 0 1 0 1 <> s0 /\
  sys_at ex_w 0 Spatial 1 2 ex_sys ex_basis /\ orthonormal_pair ex_va ex_vb /\ b_arr ex_basis F_s = Some ex_s /\
  proper (determinant 4 (lowest 2) : state QI).
Proof.
  split; [exact fk_sys_at|]. split; [exact fk_antisym|]. split; [qi|]. split; [exact ex_sys_at|].
  split; [exact ex_pair|]. split; [reflexivity|]. apply det_proper.
Qed.

(** C89: orbital energies are ionization and attachment energies (Koopmans); C90:
    the off-diagonal Fock elements are the couplings to singly excited determinants. *)
Theorem C89_C90_fock : forall (K : scalar) (s : nat) (w : world K) (k : kind) (N l : nat) (x : system) (b : basis K) (h u : arr K) (f : buffer K),
  sys_at w s k N l x b -> b_arr b F_h = Some h -> b_arr b F_u = Some u -> buffer_ok f h u -> particle_sym l (ten u) ->
  (k = General -> antisym_ket l (ten u)) ->
  exists e F, reference_energy s w = (Ok e, w) /\ fock_matrix s h u f w = (Ok F, w) /\
    match k with
    | General =>
        let H := hamiltonian l quarter (mat h) (ten u) in
        (forall i, i < N -> expect l H (put i false (lowest N)) = ssub e (mat F i i)) /\
        (forall a, N <= a < l -> expect l H (put a true (lowest N)) = sadd e (mat F a a)) /\
        (forall i a, i < N -> N <= a < l ->
           create i (annihilate a (H (determinant l (lowest N)))) (lowest N) = mat F a i)
    | Spatial =>
        let H := hamiltonian (2 * l) shalf (dbl1 (mat h)) (dbl2 (ten u)) in
        (forall I, I < 2 * N -> expect (2 * l) H (put I false (lowest (2 * N))) = ssub e (mat F (I / 2) (I / 2))) /\
        (forall A, 2 * N <= A < 2 * l -> expect (2 * l) H (put A true (lowest (2 * N))) = sadd e (mat F (A / 2) (A / 2))) /\
        (forall I A, I < 2 * N -> 2 * N <= A < 2 * l ->
           create I (annihilate A (H (determinant (2 * l) (lowest (2 * N))))) (lowest (2 * N)) = dbl1 (mat F) A I)
    end.
Proof. exact fock_excitations. Qed.
Print Assumptions C89_C90_fock.
Example C89_instance : sys_at fk_w 1 General 1 2 ex_gsys fk_basis /\ buffer_ok NoBuffer ex_h fk_u /\
  particle_sym 2 (ten fk_u) /\ antisym_ket 2 (ten fk_u) /\
  sys_at ex_w 0 Spatial 1 2 ex_sys ex_basis /\ buffer_ok NoBuffer ex_h ex_u /\ particle_sym 2 (ten ex_u).
Proof.
  split; [exact fk_sys_at|]. split; [reflexivity|]. split; [exact fk_particle|]. split; [exact fk_antisym|].
  split; [exact ex_sys_at|]. split; [reflexivity | exact ex_u_particle].
Qed.

(** C91: spin_2 and spin_2_tb make up S_x^2 + S_y^2 + S_z^2, and a closed shell has no
    spin; C92: the spin operators commute with the Hamiltonian. *)
Theorem C91_C92_spin : forall (K : scalar) (ab : option (list K * list K)) (anti : bool) (b : basis K) (l : nat) (s : arr K),
  (b_cls b = SincDVR -> ab = None) ->
  let va := match ab with Some p => fst p | None => default_a K end in
  let vb := match ab with Some p => snd p | None => default_b K end in
  orthonormal_pair va vb -> ready b l -> b_spin b = false -> b_asym b = false -> b_arr b F_s = Some s ->
  (forall p q, p < l -> q < l -> mat s p q = delta p q) ->
  exists b' (h u sx sy sz s2 tb : arr K), change_to_general ab anti b = (Ok true, b') /\
    b_arr b' F_h = Some h /\ b_arr b' F_u = Some u /\
    b_arr b' F_spx = Some sx /\ b_arr b' F_spy = Some sy /\ b_arr b' F_spz = Some sz /\
    b_arr b' F_sp2 = Some s2 /\ b_arr b' F_sp2tb = Some tb /\
    (forall f : state K, proper f -> forall o,
       sadd (one_body (2 * l) (mat s2) f o) (smul (if anti then shalf else s1) (two_body (2 * l) (ten tb) f o))
       = sadd (sadd (one_body (2 * l) (mat sx) (one_body (2 * l) (mat sx) f) o)
                    (one_body (2 * l) (mat sy) (one_body (2 * l) (mat sy) f) o))
              (one_body (2 * l) (mat sz) (one_body (2 * l) (mat sz) f) o)) /\
    (forall c, closed_shell c -> forall S, In S [sx; sy; sz] -> forall o,
       one_body (2 * l) (mat S) (determinant (2 * l) c) o = s0) /\
    (forall f : state K, proper f -> forall S, In S [sx; sy; sz] -> forall x o,
       one_body (2 * l) (mat S) (hamiltonian (2 * l) x (mat h) (ten u) f) o
       = hamiltonian (2 * l) x (mat h) (ten u) (one_body (2 * l) (mat S) f) o).
Proof. exact fock_spin. Qed.
Print Assumptions C91_C92_spin.
(** Every Hamiltonian of the library's form conserves the number of particles. *)
Theorem C92_particle_number : forall (K : scalar) (l : nat) (x : K) h u (f : state K), proper f -> forall o,
  one_body l delta (hamiltonian l x h u f) o = hamiltonian l x h u (one_body l delta f) o.
Proof. exact number_conserved. Qed.
Print Assumptions C92_particle_number.
Example C91_instance : ready ex_basis 2 /\ b_asym ex_basis = false /\
  (forall p q, p < 2 -> q < 2 -> mat ex_s p q = delta p q) /\ closed_shell (lowest (2 * 1)) /\
  orthonormal_pair ex_va ex_vb /\ proper (create 0 (determinant 4 (lowest 2)) : state QI).
Proof.
  split; [exact ex_ready|]. split; [reflexivity|]. split; [exact ex_s_delta|]. split; [apply lowest_closed|].
  split; [exact ex_pair|]. apply create_proper, det_proper.
Qed.

(** C93: change_basis leaves the many-body Hamiltonian unchanged when C C~ = 1, the new
    operators being those of the new orbitals. *)
Theorem C93_hamiltonian : forall (K : scalar) (b : basis K) (l k : nat) (C : arr K) (Ct : option (arr K)) (h u : arr K), ready b l ->
  shape C = [l; k] -> tilde_shape C Ct k l -> b_arr b F_h = Some h -> b_arr b F_u = Some u ->
  (forall p q, p < l -> q < l -> mmul k (mat C) (tilde C Ct) p q = delta p q) ->
  exists b' (h' u' : arr K), change_basis C Ct b = (Ok tt, b') /\ b_arr b' F_h = Some h' /\ b_arr b' F_u = Some u' /\
    forall (f : state K) o,
      one_body_in k (create_in l (mat C)) (annihilate_in l (tilde C Ct)) (mat h') f o = one_body l (mat h) f o /\
      two_body_in k (create_in l (mat C)) (annihilate_in l (tilde C Ct)) (ten u') f o = two_body l (ten u) f o.
Proof. exact hamiltonian_change. Qed.
Print Assumptions C93_hamiltonian.
(** The new operators are again those of fermions. *)
Theorem C93_operators : forall (K : scalar) (l k : nat) (C D : nat -> nat -> K),
  (forall p q, p < k -> q < k -> mmul l D C p q = delta p q) ->
  forall p q (f : state K), proper f -> p < k -> q < k -> forall o,
  sadd (annihilate_in l D p (create_in l C q f) o) (create_in l C q (annihilate_in l D p f) o) = smul (delta p q) (f o).
Proof. exact new_fermions. Qed.
Print Assumptions C93_operators.
Example C93_instance : ready ex_basis 2 /\ shape ex_D = [2; 2] /\ tilde_shape ex_D (Some ex_Dinv) 2 2 /\
  (forall p q, p < 2 -> q < 2 -> mmul 2 (mat ex_D) (tilde ex_D (Some ex_Dinv)) p q = delta p q) /\
  (forall p q, p < 2 -> q < 2 -> mmul 2 (tilde ex_D (Some ex_Dinv)) (mat ex_D) p q = delta p q) /\
  mat ex_D 0 0 <> s1.
Proof.
  split; [exact ex_ready|]. split; [reflexivity|]. split; [reflexivity|].
  split; [exact ex_D_inv|]. split; [exact ex_Dinv_D | qi].
Qed.
