(** Anti-symmetrization and spin: C09, C10, C12-C19. *)
From Coq Require Import List Arith ZArith Lia Bool.
From Verif Require Import Scalar Py Numpy Spec BasisSet BasisSpec BasisFacts ChangeProofs SpinProofs Examples.
Import ListNotations.

(** C09: one call or any larger number of calls give the same state, with
    u'[pqrs] = u[pqrs] - u[pqsr], antisymmetric in the last two indices. *)
Theorem C09_antisymmetrize_once : forall (K : scalar) (b : basis K) (l : nat) (u : arr K),
  ready b l -> b_asym b = false -> b_arr b F_u = Some u ->
  exists b' u', (forall k, for_each (seq 0 (S k)) (fun _ => anti_symmetrize_two_body) b = (Ok tt, b')) /\
    b_asym b' = true /\ b_arr b' F_u = Some u' /\ shape u' = [l; l; l; l] /\
    (forall p q r s, p < l -> q < l -> r < l -> s < l ->
       ten u' p q r s = ssub (ten u p q r s) (ten u p q s r)) /\
    antisym_ket l (ten u') /\
    (forall f, f <> F_u -> f <> F_sp2tb -> b_arr b' f = b_arr b f).
Proof. exact antisymmetrize_once. Qed.
Print Assumptions C09_antisymmetrize_once.
Theorem C09_flagged_is_final : forall (K : scalar) (b : basis K), b_asym b = true ->
  forall k, for_each (seq 0 k) (fun _ => anti_symmetrize_two_body) b = (Ok tt, b).
Proof. exact antisymmetrize_flagged. Qed.
Print Assumptions C09_flagged_is_final.
Example C09_instance : ready ex_basis 2 /\ b_asym ex_basis = false /\ b_arr ex_basis F_u = Some ex_u /\
  ten ex_u 0 1 0 1 <> ten ex_u 0 1 1 0 /\ b_asym ex_gos = true.
Proof. split; [exact ex_ready|]. repeat split; qi. Qed.

(** C10 *)
Theorem C10_full_antisymmetry : forall (K : scalar) (b : basis K) (l : nat) (u : arr K),
  ready b l -> b_asym b = false -> b_arr b F_u = Some u -> particle_sym l (ten u) ->
  exists b' u', anti_symmetrize_two_body b = (Ok tt, b') /\ b_arr b' F_u = Some u' /\
    forall p q r s, p < l -> q < l -> r < l -> s < l ->
      ten u' p q r s = sopp (ten u' q p r s) /\ ten u' p q r s = sopp (ten u' p q s r) /\
      ten u' p q r s = ten u' q p s r.
Proof. exact full_antisymmetry. Qed.
Print Assumptions C10_full_antisymmetry.
Theorem C10_survives_basis_change : forall (K : scalar) (b : basis K) (l k : nat) (C D u : arr K),
  ready b l -> shape C = [l; k] -> shape D = [k; l] -> b_arr b F_u = Some u ->
  (forall p q r s, p < l -> q < l -> r < l -> s < l ->
      ten u p q r s = sopp (ten u q p r s) /\ ten u p q r s = sopp (ten u p q s r) /\
      ten u p q r s = ten u q p s r) ->
  exists b' u', change_basis C (Some D) b = (Ok tt, b') /\ b_arr b' F_u = Some u' /\ shape u' = [k; k; k; k] /\
    forall p q r s, p < k -> q < k -> r < k -> s < k ->
      ten u' p q r s = sopp (ten u' q p r s) /\ ten u' p q r s = sopp (ten u' p q s r) /\
      ten u' p q r s = ten u' q p s r.
Proof. exact antisymmetry_survives. Qed.
Print Assumptions C10_survives_basis_change.
Example C10_instance : ready ex_basis 2 /\ particle_sym 2 (ten ex_u) /\ ready ex_gos 4 /\
  ten (the (b_arr ex_gos F_u)) 0 1 0 1 = sopp (ten (the (b_arr ex_gos F_u)) 1 0 0 1) /\
  ten (the (b_arr ex_gos F_u)) 0 1 0 1 <> s0.
Proof.
  split; [exact ex_ready|]. split; [|split; [exact ex_gos_ready|split; qi]].
  intros [|[|p]] [|[|q]] [|[|r]] [|[|s]] Hp Hq Hr Hs; try lia; qi.
Qed.

(** C12: what change_to_general_orbital_basis stores, element by element
    ([doubled1] etc. in BasisSpec.v are the formulas of the property). *)
Theorem C12_spin_doubling : forall (K : scalar) (ab : option (list K * list K)) (anti : bool)
  (b : basis K) (l : nat) (s : arr K),
  (b_cls b = SincDVR -> ab = None) ->
  let va := match ab with Some p => fst p | None => default_a K end in
  let vb := match ab with Some p => snd p | None => default_b K end in
  orthonormal_pair va vb -> ready b l -> b_spin b = false -> b_arr b F_s = Some s ->
  exists b', change_to_general ab anti b = (Ok true, b') /\
    b_l b' = 2 * l /\ b_spin b' = true /\ b_asym b' = (b_asym b || anti)%bool /\
    doubled1 l (b_arr b F_h) (b_arr b' F_h) /\ doubled1 l (b_arr b F_s) (b_arr b' F_s) /\
    doubled_dip (b_dim b) l (b_arr b F_dip) (b_arr b' F_dip) /\
    doubled2 l (anti && negb (b_asym b)) (b_arr b F_u) (b_arr b' F_u) /\
    doubled_spf l (b_arr b F_spf) (b_arr b' F_spf) /\
    (b_arr b F_spf <> None -> doubled_spf l (bra_view b) (b_arr b' F_bra)).
Proof. exact doubling_formula. Qed.
Print Assumptions C12_spin_doubling.
Example C12_instance : ready ex_basis 2 /\ b_spin ex_basis = false /\ b_arr ex_basis F_s = Some ex_s /\
  orthonormal_pair ex_va ex_vb /\ orthonormal_pair (default_a QI) (default_b QI).
Proof. split; [exact ex_ready|]. repeat split; qi. Qed.

(** C13: on a basis that includes spin any sequence of further calls, with any
    arguments and whether or not they raise, changes nothing. *)
Theorem C13_doubled_once : forall (K : scalar) (calls : list (option (list K * list K) * bool)) (b : basis K),
  b_spin b = true ->
  snd (fold_left (fun rb c => change_to_general (fst c) (snd c) (snd rb)) calls (Ok true, b)) = b.
Proof. exact doubled_forever. Qed.
Print Assumptions C13_doubled_once.
Example C13_instance : b_spin ex_gos = true /\ b_l ex_gos = 4.
Proof. split; vm_compute; reflexivity. Qed.

(** C14: change_basis(C, D) then spin doubling = spin doubling then
    change_basis(kron(C,1), kron(D,1)). *)
Theorem C14_doubling_commutes : forall (K : scalar) (ab : option (list K * list K)) (anti : bool)
  (b : basis K) (l k : nat) (s C D C2 D2 : arr K),
  (b_cls b = SincDVR -> ab = None) ->
  let va := match ab with Some p => fst p | None => default_a K end in
  let vb := match ab with Some p => snd p | None => default_b K end in
  orthonormal_pair va vb -> ready b l -> b_spin b = false -> b_arr b F_s = Some s ->
  spin_mats_ok b l k -> (b_arr b F_spf = None -> b_arr b F_bra = None) ->
  shape C = [l; k] -> shape D = [k; l] -> shape C2 = [2 * l; 2 * k] -> shape D2 = [2 * k; 2 * l] ->
  (forall x y, x < 2 * l -> y < 2 * k -> mat C2 x y = dbl1 (mat C) x y) ->
  (forall x y, x < 2 * k -> y < 2 * l -> mat D2 x y = dbl1 (mat D) x y) ->
  exists b1 b2 b3 b4,
    change_basis C (Some D) b = (Ok tt, b1) /\ change_to_general ab anti b1 = (Ok true, b2) /\
    change_to_general ab anti b = (Ok true, b3) /\ change_basis C2 (Some D2) b3 = (Ok tt, b4) /\
    b_l b2 = b_l b4 /\ b_spin b2 = b_spin b4 /\ b_asym b2 = b_asym b4 /\
    forall f, In f [F_h; F_s; F_u; F_dip; F_spf; F_bra] -> opt_aeq (b_arr b2 f) (b_arr b4 f).
Proof. exact doubling_commutes. Qed.
Print Assumptions C14_doubling_commutes.
Example C14_instance : ready ex_basis 2 /\ spin_mats_ok ex_basis 2 3 /\
  (b_arr ex_basis F_spf = None -> b_arr ex_basis F_bra = None) /\
  shape ex_R = [2; 3] /\ shape ex_R2 = [4; 6] /\ shape (dagger ex_R) = [3; 2] /\ shape ex_R2d = [6; 4] /\
  (forall x y, x < 4 -> y < 6 -> mat ex_R2 x y = dbl1 (mat ex_R) x y).
Proof.
  split; [exact ex_ready|]. split; [right; intros f H; cbn in H; destruct H as [<-|[<-|[<-|[<-|[]]]]]; reflexivity|].
  split; [discriminate|]. repeat split.
Qed.

(** C15 fails: a rejected spin doubling leaves the basis set changed. *)
Definition C15_claim : Prop :=
  forall (K : scalar) (b b' : basis K) (ab : option (list K * list K)) (anti : bool) (l : nat) (e : exn),
  ready b l -> change_to_general ab anti b = (Err e, b') -> b_l b' = b_l b /\ b_spin b' = b_spin b.
Theorem C15_refuted : ~ C15_claim.
Proof.
  intros H.
  destruct (rejected_doubling_pair QI [s1; s0] [s1; s0] true ex_basis 2 ex_s ex_ready) as (b' & E & L & _);
    [reflexivity | reflexivity | reflexivity | reflexivity | vm_compute; reflexivity |].
  destruct (H QI ex_basis b' (Some ([s1; s0], [s1; s0])) true 2 AssertionError ex_ready E) as [G _].
  rewrite L in G. discriminate G.
Qed.
Print Assumptions C15_refuted.
(** The two kinds of rejection, for every basis: without an overlap the flag
    and l are changed and nothing else; with a pair that fails the
    orthonormality test h, s, u are doubled too while the dipole moment and
    the orbitals are not. *)
Theorem C15_no_overlap : forall (K : scalar) (va vb : list K) (anti : bool) (b : basis K) (l : nat),
  b_l b = l -> b_spin b = false -> b_arr b F_s = None ->
  to_general_base va vb anti b = (Err AttributeError, set_l (2 * l) (set_spin true b)).
Proof. exact rejected_doubling_no_overlap. Qed.
Print Assumptions C15_no_overlap.
Theorem C15_bad_pair : forall (K : scalar) (va vb : list K) (anti : bool) (b : basis K) (l : nat) (s : arr K),
  ready b l -> b_spin b = false -> b_arr b F_s = Some s -> length va = 2 -> length vb = 2 ->
  (small (ssub (ip2 va va) s1) && small (ssub (ip2 vb vb) s1) && small (ssub (ip2 va vb) s0) = false)%bool ->
  exists b', to_general_base va vb anti b = (Err AssertionError, b') /\
    b_l b' = 2 * l /\ b_spin b' = true /\
    doubled1 l (b_arr b F_h) (b_arr b' F_h) /\ doubled1 l (b_arr b F_s) (b_arr b' F_s) /\
    doubled2 l false (b_arr b F_u) (b_arr b' F_u) /\
    forall f, In f [F_dip; F_spf; F_bra; F_spx; F_spy; F_spz; F_sp2; F_sp2tb] -> b_arr b' f = b_arr b f.
Proof. exact rejected_doubling_pair. Qed.
Print Assumptions C15_bad_pair.
(** And the object cannot be repaired by calling again: the flag is set. *)
Theorem C15_no_retry : forall (K : scalar) (ab : option (list K * list K)) (anti : bool) (b : basis K),
  b_spin b = true -> snd (change_to_general ab anti b) = b.
Proof. exact double_twice. Qed.
Print Assumptions C15_no_retry.
Example C15_instance : ready ex_basis 2 /\ b_spin ex_basis = false /\ b_arr ex_basis F_s = Some ex_s /\
  (small (ssub (ip2 [qz 1 0; qz 1 0] [qz 1 0; qz 1 0]) s1) = false)%bool.
Proof. split; [exact ex_ready|]. repeat split; vm_compute; reflexivity. Qed.

(** C16 *)
Theorem C16_pauli_algebra : forall (K : scalar) (va vb : list K), orthonormal_pair va vb ->
  exists x y z,
    setup_pauli_matrices (column (of_list Complex128 va)) (column (of_list Complex128 vb)) = Ok (x, y, z) /\
    (forall m, In m [x; y; z] -> shape m = [2; 2] /\ hermitian 2 (mat m) /\
       sadd (mat m 0 0) (mat m 1 1) = s0 /\
       forall i j, i < 2 -> j < 2 -> mmul 2 (mat m) (mat m) i j = delta i j) /\
    forall i j, i < 2 -> j < 2 ->
      mmul 2 (mat x) (mat y) i j = smul si (mat z i j) /\ mmul 2 (mat y) (mat z) i j = smul si (mat x i j) /\
      mmul 2 (mat z) (mat x) i j = smul si (mat y i j).
Proof. exact pauli_algebra. Qed.
Print Assumptions C16_pauli_algebra.
Example C16_instance : orthonormal_pair ex_va ex_vb.
Proof. exact ex_pair. Qed.

(** C17 *)
Theorem C17_spin_algebra : forall (K : scalar) (ab : option (list K * list K)) (anti : bool)
  (b : basis K) (l : nat) (s : arr K),
  (b_cls b = SincDVR -> ab = None) ->
  let va := match ab with Some p => fst p | None => default_a K end in
  let vb := match ab with Some p => snd p | None => default_b K end in
  orthonormal_pair va vb -> ready b l -> b_spin b = false -> b_arr b F_s = Some s ->
  (forall p q, p < l -> q < l -> mat s p q = delta p q) ->
  exists b' sx sy sz, change_to_general ab anti b = (Ok true, b') /\
    b_arr b' F_spx = Some sx /\ b_arr b' F_spy = Some sy /\ b_arr b' F_spz = Some sz /\
    forall P Q, P < 2 * l -> Q < 2 * l ->
      ssub (mmul (2 * l) (mat sx) (mat sy) P Q) (mmul (2 * l) (mat sy) (mat sx) P Q) = smul si (mat sz P Q) /\
      ssub (mmul (2 * l) (mat sy) (mat sz) P Q) (mmul (2 * l) (mat sz) (mat sy) P Q) = smul si (mat sx P Q) /\
      ssub (mmul (2 * l) (mat sz) (mat sx) P Q) (mmul (2 * l) (mat sx) (mat sz) P Q) = smul si (mat sy P Q).
Proof. exact spin_algebra. Qed.
Print Assumptions C17_spin_algebra.
Theorem C17_spin_elements : forall (K : scalar) (ab : option (list K * list K)) (anti : bool)
  (b : basis K) (l : nat) (s : arr K),
  (b_cls b = SincDVR -> ab = None) ->
  let va := match ab with Some p => fst p | None => default_a K end in
  let vb := match ab with Some p => snd p | None => default_b K end in
  orthonormal_pair va vb -> ready b l -> b_spin b = false -> b_arr b F_s = Some s ->
  exists b' sx sy sz px py pz, change_to_general ab anti b = (Ok true, b') /\
    b_arr b' F_spx = Some sx /\ b_arr b' F_spy = Some sy /\ b_arr b' F_spz = Some sz /\
    b_arr b' F_sigx = Some px /\ b_arr b' F_sigy = Some py /\ b_arr b' F_sigz = Some pz /\
    shape sx = [2 * l; 2 * l] /\ shape sy = [2 * l; 2 * l] /\ shape sz = [2 * l; 2 * l] /\
    (forall i j, mat px i j = T1 2 pauli_x (spin_cols va vb) (adj (spin_cols va vb)) i j /\
                 mat py i j = T1 2 pauli_y (spin_cols va vb) (adj (spin_cols va vb)) i j /\
                 mat pz i j = T1 2 pauli_z (spin_cols va vb) (adj (spin_cols va vb)) i j) /\
    forall P Q, mat sx P Q = smul shalf (smul (mat s (P / 2) (Q / 2)) (mat px (P mod 2) (Q mod 2))) /\
                mat sy P Q = smul shalf (smul (mat s (P / 2) (Q / 2)) (mat py (P mod 2) (Q mod 2))) /\
                mat sz P Q = smul shalf (smul (mat s (P / 2) (Q / 2)) (mat pz (P mod 2) (Q mod 2))).
Proof. exact spin_elements. Qed.
Print Assumptions C17_spin_elements.
Example C17_instance : ready ex_basis 2 /\ b_spin ex_basis = false /\ b_arr ex_basis F_s = Some ex_s /\
  (forall p q, p < 2 -> q < 2 -> mat ex_s p q = delta p q) /\ orthonormal_pair ex_va ex_vb.
Proof.
  split; [exact ex_ready|]. split; [reflexivity|]. split; [reflexivity|]. split; [exact ex_s_delta | exact ex_pair].
Qed.

(** C18 fails: spin_2 is not 3/4 of the overlap for a general overlap. *)
Definition C18_claim : Prop :=
  forall (K : scalar) (b b' : basis K) (anti : bool) (l : nat) (s s' s2 : arr K),
  ready b l -> b_spin b = false -> b_arr b F_s = Some s -> change_to_general None anti b = (Ok true, b') ->
  b_arr b' F_s = Some s' -> b_arr b' F_sp2 = Some s2 ->
  forall P Q, P < 2 * l -> Q < 2 * l -> mat s2 P Q = smul (three_quarters K) (mat s' P Q).
Theorem C18_refuted : ~ C18_claim.
Proof.
  intros H.
  destruct (spin_2_cubes_the_overlap QI None true ex_basis2 2 ex_s2) as (b' & s2 & E & E2 & _ & G2);
    [reflexivity | exact default_pair | exact ex_ready2 | reflexivity | reflexivity |].
  destruct (doubling_formula QI None true ex_basis2 2 ex_s2) as (b'' & E' & _ & _ & _ & _ & Ds & _);
    [reflexivity | exact default_pair | exact ex_ready2 | reflexivity | reflexivity |].
  rewrite E in E'. injection E' as <-.
  unfold doubled1 in Ds. cbn [b_arr ex_basis2 set_arr upd field_eqb] in Ds.
  destruct (b_arr b' F_s) as [s'|] eqn:Es; [|destruct Ds].
  specialize (H QI ex_basis2 b' true 2 ex_s2 s' s2 ex_ready2 eq_refl eq_refl E Es E2 0 0 ltac:(lia) ltac:(lia)).
  rewrite G2, (proj2 Ds) in H by lia. revert H. qi.
Qed.
Print Assumptions C18_refuted.
(** What spin_2 is, for every overlap s: 3/4 kron(s s s, 1_2). *)
Theorem C18_spin_2_cubes_the_overlap : forall (K : scalar) (ab : option (list K * list K)) (anti : bool)
  (b : basis K) (l : nat) (s : arr K),
  (b_cls b = SincDVR -> ab = None) ->
  let va := match ab with Some p => fst p | None => default_a K end in
  let vb := match ab with Some p => snd p | None => default_b K end in
  orthonormal_pair va vb -> ready b l -> b_spin b = false -> b_arr b F_s = Some s ->
  exists b' s2, change_to_general ab anti b = (Ok true, b') /\ b_arr b' F_sp2 = Some s2 /\
    shape s2 = [2 * l; 2 * l] /\
    forall P Q, P < 2 * l -> Q < 2 * l ->
      mat s2 P Q = smul (three_quarters K) (dbl1 (mmul l (mmul l (mat s) (mat s)) (mat s)) P Q).
Proof. exact spin_2_cubes_the_overlap. Qed.
Print Assumptions C18_spin_2_cubes_the_overlap.
(** Hence right for an orthonormal spatial basis. *)
Theorem C18_orthonormal_case : forall (K : scalar) (ab : option (list K * list K)) (anti : bool)
  (b : basis K) (l : nat) (s : arr K),
  (b_cls b = SincDVR -> ab = None) ->
  let va := match ab with Some p => fst p | None => default_a K end in
  let vb := match ab with Some p => snd p | None => default_b K end in
  orthonormal_pair va vb -> ready b l -> b_spin b = false -> b_arr b F_s = Some s ->
  (forall p q, p < l -> q < l -> mat s p q = delta p q) ->
  exists b' s2 s', change_to_general ab anti b = (Ok true, b') /\ b_arr b' F_sp2 = Some s2 /\
    b_arr b' F_s = Some s' /\
    forall P Q, P < 2 * l -> Q < 2 * l -> mat s2 P Q = smul (three_quarters K) (mat s' P Q).
Proof. exact spin_2_orthonormal. Qed.
Print Assumptions C18_orthonormal_case.
Example C18_instance : ready ex_basis2 2 /\ b_arr ex_basis2 F_s = Some ex_s2 /\
  sadd (three_quarters QI) (qr 1 4) = s1 /\ (forall p q, p < 2 -> q < 2 -> mat ex_s p q = delta p q).
Proof. split; [exact ex_ready2|]. split; [reflexivity|]. split; [qi | exact ex_s_delta]. Qed.

(** C19: <S^2> = sum_i spin_2[i,i] + sum_ij spin_2_tb[i,j,i,j] over the first
    2m spin-orbitals (basis_set.py:654-704) is 0. *)
Theorem C19_closed_shell_singlet : forall (K : scalar) (ab : option (list K * list K))
  (b : basis K) (l m : nat) (s : arr K),
  (b_cls b = SincDVR -> ab = None) ->
  let va := match ab with Some p => fst p | None => default_a K end in
  let vb := match ab with Some p => snd p | None => default_b K end in
  orthonormal_pair va vb -> ready b l -> b_spin b = false -> b_asym b = false -> b_arr b F_s = Some s ->
  (forall p q, p < l -> q < l -> mat s p q = delta p q) -> m <= l ->
  exists b' s2 tb, change_to_general ab true b = (Ok true, b') /\ b_arr b' F_sp2 = Some s2 /\
    b_arr b' F_sp2tb = Some tb /\
    sadd (sumn (2 * m) (fun i => mat s2 i i))
         (sumn (2 * m) (fun i => sumn (2 * m) (fun j => ten tb i j i j))) = s0.
Proof. exact closed_shell_singlet. Qed.
Print Assumptions C19_closed_shell_singlet.
Example C19_instance : ready ex_basis 2 /\ b_asym ex_basis = false /\
  (forall p q, p < 2 -> q < 2 -> mat ex_s p q = delta p q) /\ 1 <= 2 /\
  mat (the (b_arr ex_gos F_sp2)) 0 0 <> s0.
Proof. split; [exact ex_ready|]. split; [reflexivity|]. split; [exact ex_s_delta|]. split; [lia | qi]. Qed.
