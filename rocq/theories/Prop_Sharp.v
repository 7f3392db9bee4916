(** C136: Exact states with sharp quantum numbers. *)
From Coq Require Import List Arith ZArith Reals Lra Lia.
From Coquelicot Require Import Coquelicot.
From Verif Require Import Scalar ScalarC Py Numpy BasisSet Spec BasisSpec OneDim LineProofs DotProofs GridExamples ParitySpec BoxTheorems TwoDim FieldProofs TwoDimExamples Cache CacheProofs CacheExamples TwoDimBasis PlaneProofs Systems SystemFacts SystemProofs Worlds OperatorSpec.
From Verif Require Import RotationExamples FockSpec InnerSpec RaiseSpec FockSpectrumSpec EvolutionSpec EvolutionExamples SharpSpec SharpProofs SharpTheorems SharpSystems.
Import ListNotations.
Open Scope R_scope.

(** Whatever labels of the orbitals the elements keep: the m-electron states have an orthonormal
    basis of exact eigenstates in each of which all determinants have the same labels, and, for a
    spatial system, the same number of electrons with spin up. *)
Theorem C136_states :
  forall k l (h : nat -> nat -> C) u ts, hermitian (K := CC) l h -> hermitian2 (K := CC) l u -> kept l h u ts -> forall m,
  let n := spin_orbitals k l in
  exists E Psi, spectrum n (many_body k l h u) m (choose n m) E Psi /\ forall p, (p < choose n m)%nat -> forall t, In t (labels k ts) -> sharp n t (Psi p).
Proof. exact (fun k l h u ts A B D m => proj1 (many_sharp k l h u ts A B D m)). Qed.
Print Assumptions C136_states.
(** An eigenstate whose energy belongs to no other level is sharp by itself. *)
Theorem C136_simple :
  forall k l (h : nat -> nat -> C) u ts, hermitian (K := CC) l h -> hermitian2 (K := CC) l u -> kept l h u ts -> forall m,
  let n := spin_orbitals k l in let X := many_body k l h u in
  forall d E Psi p f e, spectrum n X m d E Psi -> (p < d)%nat -> (forall q, (q < d)%nat -> q <> p -> E q <> E p) ->
  particle_state n m f -> eigenstate (K := CC) n X e f -> e = RtoC (E p) -> forall t, In t (labels k ts) -> sharp n t f.
Proof. exact (fun k l h u ts A B D m => proj1 (proj2 (many_sharp k l h u ts A B D m))). Qed.
Print Assumptions C136_simple.
(** Every part of an eigenstate with one value of a label is an eigenstate or null. *)
Theorem C136_component :
  forall k l (h : nat -> nat -> C) u ts, hermitian (K := CC) l h -> hermitian2 (K := CC) l u -> kept l h u ts ->
  let n := spin_orbitals k l in let X := many_body k l h u in
  forall t M E f, In t (labels k ts) -> eigenstate (K := CC) n X E f -> (exists o, among n o /\ component n t M f o <> RtoC 0) -> eigenstate (K := CC) n X E (component n t M f).
Proof. exact (fun k l h u ts A B D => proj2 (proj2 (many_sharp k l h u ts A B D 0%nat))). Qed.
Print Assumptions C136_component.
(** The two-dimensional oscillators keep the total angular momentum, *)
Theorem C136_oscillator :
  forall npm spin anti l L N omega mass e (files : fs) b t, (forall d n f, files d n = Some f -> f = image n) ->
  oscillator npm spin anti l L N omega mass e files = (Ok b, t) -> conserved l b [Label (fun p => snd (shell_state p)) 0].
Proof. exact oscillator_conserved. Qed.
Print Assumptions C136_oscillator.
Theorem C136_field :
  forall npm spin anti l L N omega_0 mass omega_c rows b, field_states l omega_0 omega_c = Ok rows ->
  field_oscillator npm spin anti l L N omega_0 mass omega_c = (Ok tt, b) -> conserved l b [Label (fun p => snd (nth p rows (0, 0)%Z)) 0].
Proof. exact field_conserved. Qed.
Print Assumptions C136_field.
(** the double well whether it is even or odd, *)
Theorem C136_double_well :
  forall npm spin anti l L N omega mass e barrier axis (files : fs) b t, 0 < mass -> 0 < omega -> (forall d n f, files d n = Some f -> f = image n) ->
  double_well npm spin anti l L N omega mass e barrier axis files = (Ok b, t) -> conserved l b [Label (fun p => snd (shell_state p)) 2].
Proof. exact double_well_conserved. Qed.
Print Assumptions C136_double_well.
(** and symmetric lines the parity, the number of electrons in odd orbitals modulo 2. *)
Theorem C136_ODHO :
  forall npm spin anti l L N omega a alpha beta b, odho npm spin anti l L N omega a alpha beta = (Ok tt, b) -> conserved l b [Label Z.of_nat 2].
Proof. exact line_conserved. Qed.
Print Assumptions C136_ODHO.
Theorem C136_ODQD :
  forall npm spin anti l L N a alpha beta V eigh b, odqd npm spin anti l L N a alpha beta V eigh = (Ok tt, b) -> 0 < L -> solves L N V eigh ->
  (forall x, - L <= x <= L -> V (- x) = V x) -> conserved l b [Label Z.of_nat 2].
Proof. exact dot_conserved. Qed.
Print Assumptions C136_ODQD.
(** construct_general_orbital_system leaves the states and their labels as they are. *)
Theorem C136_general :
  forall (w : world CC) s (va vb : list CC) N l x (b : basis CC) (ov : arr CC) ts, sys_at w s Spatial N l x b ->
  b_cls b = Base -> orthonormal_pair va vb -> b_spin b = false -> b_asym b = false -> b_arr b F_s = Some ov ->
  (b_arr b F_spf = None -> b_arr b F_bra = None) -> sy_op x = None -> conserved l b ts ->
  exists w' g (h' u' : arr CC), construct_general s va vb true w = (Ok g, w') /\ sys_get g F_h w' = (Ok (Some h'), w') /\ sys_get g F_u w' = (Ok (Some u'), w') /\
    forall m, exists E Psi, spectrum (2 * l) (many_body General (2 * l) (mat h') (ten u')) m (choose (2 * l) m) E Psi /\
      forall p, (p < choose (2 * l) m)%nat -> forall t, In t (spin_label :: map of_orbital ts) -> sharp (2 * l) t (Psi p).
Proof. exact general_sharp. Qed.
Print Assumptions C136_general.
(** Under the elements returned by h_t and u_t the weight of every value of a label stays the same
    when the time-dependent operator keeps the label too; so sharp states stay sharp. *)
Theorem C136_evolution :
  forall (w : world CC) s k l x (h u : arr CC) d M ts, evolving w s l x h u d M -> sy_kind x = k -> hermitian l (mat h) -> hermitian2 l (ten u) -> hermitian_drive l d M ->
  kept l (mat h) (ten u) ts -> (forall t y, In t ts -> keeps1 l t (one_body_term (K := CC) M d (RtoC y))) ->
  forall ops, List.Forall reads ops -> let w' := wrun_any ops w in let n := spin_orbitals k l in let H y := many_body k l (h_at s w' y) (u_at s w' y) in
  forall psi t Q, evolution n H psi -> In t (labels k ts) ->
  (forall y z, inner (K := CC) n (component n t Q (psi y)) (component n t Q (psi y)) = inner (K := CC) n (component n t Q (psi z)) (component n t Q (psi z))) /\
  (forall y z, sharp n t (psi y) -> sharp n t (psi z)).
Proof. exact evolution_sharp. Qed.
Print Assumptions C136_evolution.
(** Three orbitals with m = 0, -1, 1: two electrons with opposite spins in the first, and one in
    each of the others, have the same labels; with equal spins in the first two they have others.
    The laser of C131 keeps the spin. *)
Example C136_instance :
  (exists b t, oscillator 0 false false 6 8 201 1 1 (Setting false 0 true) no_files = (Ok b, t)) /\
  map (fun p => snd (shell_state p)) [0; 1; 2]%nat = [0; -1; 1]%Z /\
  (let t := of_orbital (Label (fun p => snd (shell_state p)) 0) in let o c := Nat.testbit c in
   total_charge 6 (charge t) (o 3%nat) = 0%Z /\ total_charge 6 (charge spin_label) (o 3%nat) = 0%Z /\
   total_charge 6 (charge t) (o 36%nat) = 0%Z /\ total_charge 6 (charge spin_label) (o 36%nat) = 0%Z /\
   total_charge 6 (charge t) (o 5%nat) = (-1)%Z /\ total_charge 6 (charge spin_label) (o 5%nat) = 2%Z) /\
  (exists rows, field_states 6 1 (1 / 2) = Ok rows) /\
  (exists b, odho 0 false false 3 10 401 1 1 1 0 = (Ok tt, b)) /\
  (exists b, odqd 0 false false 4 10 101 1 1 0 (fun _ => 3) (box_solver 10 3) = (Ok tt, b)) /\ solves 10 101 (fun _ => 3) (box_solver 10 3) /\
  evolving dv_w 0 2 dv_sys lv_h lv_u (Some dv_dip) dv_means /\ hermitian_drive 2 (Some dv_dip) dv_means /\ kept 2 (mat lv_h) (ten lv_u) [] /\ In spin_label (labels Spatial []).
Proof.
  split; [|split; [reflexivity|split; [repeat split|split; [|split; [|split; [|split]]]]]].
  - destruct (plane_oscillator 0 false false 6 8 201 1 1 (Setting false 0 true) no_files ltac:(lra) ltac:(lra) ltac:(discriminate) ltac:(left; reflexivity)) as (b & t & E & _). eauto.
  - destruct field_instance as (rows & E & _). eauto.
  - eexists. apply odho_ok. repeat constructor.
  - eexists. apply dot_ok; lia.
  - apply box_solver_right; lra.
  - split; [exact dv_evolving|]. split; [exact dv_hermitian|]. split; [intros t []|]. left. reflexivity.
Qed.
