(** C131: time evolution of the electrons of a system under h_t and u_t. *)
From Coq Require Import List Arith ZArith Reals Lra Lia Bool.
From Coquelicot Require Import Coquelicot.
From Verif Require Import Scalar ScalarC Py Numpy BasisSet Spec BasisSpec OneDimSpec Systems SystemFacts Worlds OperatorSpec RotationExamples.
From Verif Require Import FockSpec InnerSpec RaiseSpec RaiseFock FockSpectrumSpec EvolutionSpec EvolutionTheorems EvolutionExamples.
Import ListNotations.
Open Scope R_scope.

(** A system with Hermitian elements carries an operator that keeps them Hermitian (a laser, a
    switched interaction, or a weighted one-body term, with real values).  Then h_t and u_t can
    be read at every time, however often they were read before, and the Schroedinger equation
    i d psi/dt = H(t) psi they define keeps overlaps (so norms and probabilities), keeps the
    number of particles, has at most one solution from a given state, and, for an operator that
    is continuous in time, has one from every state and every starting time. *)
Theorem C131_driven :
  forall (w : world CC) s k l x (h u : arr CC) d M, evolving w s l x h u d M -> sy_kind x = k -> hermitian l (mat h) -> hermitian2 l (ten u) -> hermitian_drive l d M ->
  forall ops, List.Forall reads ops -> let w' := wrun_any ops w in let n := spin_orbitals k l in let H t := many_body k l (h_at s w' t) (u_at s w' t) in
  (forall t, exists a w2 c, sys_h_t (K := CC) s (RtoC t) w' = (Ok (Some a), w2) /\ sys_u_t (K := CC) s (RtoC t) w' = (Ok (Some c), w') /\ shape a = [l; l] /\ shape c = [l; l; l; l] /\
     h_at s w' t = mat a /\ u_at s w' t = ten c) /\
  (forall psi phi, evolution n H psi -> evolution n H phi -> forall t1 t2, inner (K := CC) n (psi t1) (phi t1) = inner (K := CC) n (psi t2) (phi t2)) /\
  (forall psi m t0, evolution n H psi -> particle_state n m (psi t0) -> forall t, particle_state n m (psi t)) /\
  (forall psi phi t0, evolution n H psi -> evolution n H phi -> same_state n (psi t0) (phi t0) -> forall t, same_state n (psi t) (phi t)) /\
  (continuous_drive l d M -> forall t0 f, proper f -> exists psi, evolution n H psi /\ same_state n (psi t0) f).
Proof. exact evolution_driven. Qed.
Print Assumptions C131_driven.
(** The energy changes only as fast as the elements do ... *)
Theorem C131_rate :
  forall (w : world CC) s k l x (h u : arr CC) d M, evolving w s l x h u d M -> sy_kind x = k -> hermitian l (mat h) -> hermitian2 l (ten u) -> hermitian_drive l d M ->
  forall ops, List.Forall reads ops -> let w' := wrun_any ops w in let n := spin_orbitals k l in let H t := many_body k l (h_at s w' t) (u_at s w' t) in
  forall psi t h' f', evolution n H psi ->
  (forall p q, (p < l)%nat -> (q < l)%nat -> derivative (fun y => one_body_term (K := CC) M d (RtoC y) p q) t (h' p q)) ->
  derivative (fun y => two_body_factor (K := CC) M (RtoC y)) t f' ->
  derivative (fun y => inner (K := CC) n (psi y) (H y (psi y))) t (inner (K := CC) n (psi t) (many_body k l h' (fun p q r z => (f' * ten u p q r z)%C) (psi t))).
Proof. exact evolution_rate. Qed.
Print Assumptions C131_rate.
(** ... for a laser with fixed polarization, by the derivative of the pulse times the
    expectation value of the dipole moment along the polarization. *)
Theorem C131_laser :
  forall (w : world CC) s k l x (h u dp : arr CC) E eps dim, evolving w s l x h u (Some dp) (MLaser E eps) -> sy_kind x = k -> hermitian l (mat h) -> hermitian2 l (ten u) ->
  hermitian_drive l (Some dp) (MLaser E eps) -> shape dp = [dim; l; l] ->
  forall ops, List.Forall reads ops -> let w' := wrun_any ops w in let n := spin_orbitals k l in let H t := many_body k l (h_at s w' t) (u_at s w' t) in
  forall psi t (e : nat -> C) z, evolution n H psi -> (forall y i, eps (RtoC y) i = e i) -> derivative (fun y => E (RtoC y)) t z ->
  derivative (fun y => inner (K := CC) n (psi y) (H y (psi y))) t (z * inner (K := CC) n (psi t) (observable k l (dipole_along (K := CC) dim e dp) (psi t)))%C.
Proof. exact evolution_power. Qed.
Print Assumptions C131_laser.
(** Without an operator the energy is kept, and every state of m particles is the sum of its
    components along the exact eigenstates, each turning with its own phase exp(-i E t). *)
Theorem C131_stationary :
  forall (w : world CC) s k N l x (b : basis CC) (h u : arr CC), sys_at w s k N l x b -> sy_op x = None -> b_arr b F_h = Some h -> b_arr b F_u = Some u ->
  hermitian l (mat h) -> hermitian2 l (ten u) ->
  let n := spin_orbitals k l in let X := many_body k l (mat h) (ten u) in
  (forall t, h_at s w t = mat h /\ u_at s w t = ten u) /\
  forall m psi, evolution n (fun t => many_body k l (h_at s w t) (u_at s w t)) psi -> particle_state n m (psi 0) ->
    (exists E Psi, spectrum n X m (choose n m) E Psi) /\
    (forall E Psi, spectrum n X m (choose n m) E Psi -> forall t,
       same_state n (psi t) (fun o => sumn (K := CC) (choose n m) (fun p => (phase (E p * t) * inner (K := CC) n (Psi p) (psi 0) * Psi p o)%C))) /\
    (forall t, inner (K := CC) n (psi t) (X (psi t)) = inner (K := CC) n (psi 0) (X (psi 0))).
Proof. exact evolution_stationary. Qed.
Print Assumptions C131_stationary.
(** Two orbitals with energies 0 and 1, a dipole moment between them and the pulse sin t: the
    reference determinant has an evolution. *)
Example C131_instance : evolving dv_w 0 2 dv_sys lv_h lv_u (Some dv_dip) dv_means /\ hermitian 2 (mat lv_h) /\ hermitian2 2 (ten lv_u) /\
  hermitian_drive 2 (Some dv_dip) dv_means /\ continuous_drive 2 (Some dv_dip) dv_means /\ (forall t, derivative (fun y => RtoC (sin (Re (RtoC y)))) t (RtoC (cos t))) /\
  (exists psi, evolution 4 (fun t => many_body Spatial 2 (h_at 0 dv_w t) (u_at 0 dv_w t)) psi /\ same_state 4 (psi 0) (reference_det Spatial 2 1)) /\
  sys_at lv_w 0 Spatial 1 2 lv_sys lv_basis /\ sy_op lv_sys = None.
Proof.
  split; [exact dv_evolving|]. split; [exact lv_hermitian|]. split; [exact lv_hermitian2|]. split; [exact dv_hermitian|]. split; [exact dv_continuous|].
  split; [exact sin_der|]. split; [|split; [exact lv_at | reflexivity]].
  destruct (C131_driven dv_w 0 Spatial 2 dv_sys lv_h lv_u (Some dv_dip) dv_means dv_evolving eq_refl lv_hermitian lv_hermitian2 dv_hermitian [] (List.Forall_nil _)) as (_ & _ & _ & _ & G).
  apply (G dv_continuous 0). unfold reference_det. apply (proj1 (det_particles CC _ _)).
Qed.
