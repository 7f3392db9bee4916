(** C139: Symmetric quantum dots in static fields. *)
From Coq Require Import List Arith ZArith Reals Lra Lia.
From Coquelicot Require Import Coquelicot.
From Verif Require Import Scalar ScalarC Py Numpy BasisSet Spec BasisSpec OneDim LineProofs DotProofs GridExamples ParitySpec BoxTheorems TwoDim FieldProofs SincDvr SincProofs TwoDimExamples Cache CacheProofs CacheExamples TwoDimBasis PlaneProofs Systems SystemFacts SystemProofs Worlds OperatorSpec.
From Verif Require Import KineticSpec RotationExamples FockSpec InnerSpec RaiseSpec FockSpectrumSpec EvolutionSpec EvolutionExamples SharpSpec StaticSpec StaticProofs StaticSystems.
Import ListNotations.
Open Scope R_scope.

(** Whenever h and u keep a parity of the orbitals and the Hermitian matrix d changes it: the exact
    energies of h + F d and h - F d are the same, *)
Theorem C139_reversed :
  forall k l h d u t, modulus t = 2%Z -> hermitian (K := CC) l h -> hermitian2 (K := CC) l u -> hermitian (K := CC) l d -> keeps1 l t h -> keeps2 l t u -> reverses l t d ->
  forall F m d1 E Psi, spectrum (spin_orbitals k l) (many_body k l (in_field h d F) u) m d1 E Psi ->
  exists Psi', spectrum (spin_orbitals k l) (many_body k l (in_field h d (- F)) u) m d1 E Psi'.
Proof. exact spectrum_reversed. Qed.
Print Assumptions C139_reversed.
(** and the least energy never rises with the strength of the field. *)
Theorem C139_lowered :
  forall k l h d u t, modulus t = 2%Z -> hermitian (K := CC) l h -> hermitian2 (K := CC) l u -> hermitian (K := CC) l d -> keeps1 l t h -> keeps2 l t u -> reverses l t d ->
  forall F F' m d1 d2 E E' Psi Psi', (m <= spin_orbitals k l)%nat -> Rabs F <= Rabs F' ->
  spectrum (spin_orbitals k l) (many_body k l (in_field h d F) u) m d1 E Psi -> spectrum (spin_orbitals k l) (many_body k l (in_field h d F') u) m d2 E' Psi' -> E' O <= E O.
Proof. exact ground_lowered. Qed.
Print Assumptions C139_lowered.
(** Without a field the state of a simple level has no mean value of d. *)
Theorem C139_moment :
  forall k l h u D t, hermitian (K := CC) l h -> hermitian2 (K := CC) l u -> modulus t = 2%Z -> keeps1 l t h -> keeps2 l t u -> reverses l t D ->
  forall m d E Psi p, let n := spin_orbitals k l in spectrum n (many_body k l h u) m d E Psi -> (p < d)%nat -> (forall q, (q < d)%nat -> q <> p -> E q <> E p) ->
  inner (K := CC) n (Psi p) (observable k l D (Psi p)) = RtoC 0.
Proof. exact simple_moment. Qed.
Print Assumptions C139_moment.
(** With or without symmetry every level follows the field continuously, by at most m c for every
    unit of F when mean values of d are between -c and c. *)
Theorem C139_follow :
  forall l h d u c, hermitian (K := CC) l h -> hermitian2 (K := CC) l u -> hermitian (K := CC) l d -> form_between l d (- c) c ->
  forall F F' m d1 d2 E E' Psi Psi', spectrum (2 * l) (many_body Spatial l (in_field h d F) u) m d1 E Psi -> spectrum (2 * l) (many_body Spatial l (in_field h d F') u) m d2 E' Psi' ->
  d1 = d2 /\ forall p, (p < d1)%nat -> Rabs (E' p - E p) <= INR m * c * Rabs (F' - F).
Proof. exact levels_follow. Qed.
Print Assumptions C139_follow.
(** The dots of the library that are symmetric about their middle *)
Theorem C139_ODHO :
  forall npm spin anti l L N omega a alpha beta b, 0 < omega -> odho npm spin anti l L N omega a alpha beta = (Ok tt, b) -> field_symmetric l 1 b.
Proof. exact line_field. Qed.
Print Assumptions C139_ODHO.
Theorem C139_ODQD :
  forall npm spin anti l L N a alpha V eigh b, odqd npm spin anti l L N a alpha 0 V eigh = (Ok tt, b) -> 0 < L -> solves L N V eigh ->
  (forall x, - L <= x <= L -> V (- x) = V x) -> field_symmetric l 1 b.
Proof. exact dot_field. Qed.
Print Assumptions C139_ODQD.
Theorem C139_TwoDim :
  forall npm spin anti l L N omega mass e (files : fs) b t, 0 < mass -> 0 < omega -> (forall d n f, files d n = Some f -> f = image n) ->
  oscillator npm spin anti l L N omega mass e files = (Ok b, t) -> field_symmetric l 2 b.
Proof. exact oscillator_field. Qed.
Print Assumptions C139_TwoDim.
Theorem C139_TwoDimDW :
  forall npm spin anti l L N omega mass e barrier axis (files : fs) b t, 0 < mass -> 0 < omega -> (forall d n f, files d n = Some f -> f = image n) ->
  double_well npm spin anti l L N omega mass e barrier axis files = (Ok b, t) -> field_symmetric l 2 b.
Proof. exact double_well_field. Qed.
Print Assumptions C139_TwoDimDW.
Theorem C139_TwoDimB :
  forall npm spin anti l L N omega_0 mass omega_c rows b, 0 < mass -> omega_0 <> 0 -> field_states l omega_0 omega_c = Ok rows ->
  field_oscillator npm spin anti l L N omega_0 mass omega_c = (Ok tt, b) -> field_symmetric l 2 b.
Proof. exact field_field. Qed.
Print Assumptions C139_TwoDimB.
(** The sinc-DVR basis set on its symmetric grid. *)
Theorem C139_sinc_dvr :
  forall npm spin anti l L a alpha V b, odsincdvr npm spin anti l L a alpha 0 V U4d = (Ok tt, b) -> (forall x, - L <= x <= L -> V (- x) = V x) -> 0 <= L -> field_symmetric l 1 b.
Proof. exact dvr_field. Qed.
Print Assumptions C139_sinc_dvr.
(** The elements returned by h_t and u_t: at no time is the least energy above the one without
    field, and it is the same at times with opposite fields. *)
Theorem C139_laser :
  forall (w : world CC) s k l x (h u : arr CC) d M t, evolving w s l x h u d M -> sy_kind x = k -> hermitian l (mat h) -> hermitian2 l (ten u) -> hermitian_drive l d M ->
  modulus t = 2%Z -> keeps1 l t (mat h) -> keeps2 l t (ten u) -> (forall y, reverses l t (one_body_term (K := CC) M d (RtoC y))) -> (forall y, two_body_factor (K := CC) M (RtoC y) = RtoC 1) ->
  forall ops, List.Forall reads ops -> let w' := wrun_any ops w in let n := spin_orbitals k l in let H y := many_body k l (h_at s w' y) (u_at s w' y) in
  forall m, (forall y e Psi E0 Psi0, (m <= n)%nat -> spectrum n (H y) m (choose n m) e Psi -> spectrum n (many_body k l (mat h) (ten u)) m (choose n m) E0 Psi0 -> e O <= E0 O) /\
    (forall y z e Psi, (forall p q, (p < l)%nat -> (q < l)%nat -> one_body_term (K := CC) M d (RtoC z) p q = (- one_body_term (K := CC) M d (RtoC y) p q)%C) ->
      spectrum n (H y) m (choose n m) e Psi -> exists Psi', spectrum n (H z) m (choose n m) e Psi').
Proof. exact laser_levels. Qed.
Print Assumptions C139_laser.
(** Calls that meet the hypotheses; the two orbitals of C131 in an oscillating field *)
Example C139_instance :
  (exists b, odho 0 false false 3 10 401 1 1 1 0 = (Ok tt, b)) /\
  (exists b, odqd 0 false false 4 10 101 1 1 0 (fun _ => 3) (box_solver 10 3) = (Ok tt, b)) /\ solves 10 101 (fun _ => 3) (box_solver 10 3) /\
  (exists b t, oscillator 0 false false 6 8 201 1 1 (Setting false 0 true) no_files = (Ok b, t)) /\
  (exists b t, double_well 0 false false 6 8 201 1 1 (Setting false 0 true) 2 0 no_files = (Ok b, t)) /\
  (exists rows, field_states 6 1 (1 / 2) = Ok rows) /\
  (exists b, odsincdvr 0 false false 11 10 1 1 0 (fun x => x ^ 2) U4d = (Ok tt, b)) /\
  let t := Label Z.of_nat 2 in
  evolving dv_w 0 2 dv_sys lv_h lv_u (Some dv_dip) dv_means /\ hermitian_drive 2 (Some dv_dip) dv_means /\ keeps1 2 t (mat lv_h) /\ keeps2 2 t (ten lv_u) /\
  (forall y, reverses 2 t (one_body_term (K := CC) dv_means (Some dv_dip) (RtoC y))) /\ (forall y, two_body_factor (K := CC) dv_means (RtoC y) = RtoC 1) /\
  one_body_term (K := CC) dv_means (Some dv_dip) (RtoC (PI / 2)) 0 1 = Ci.
Proof.
  split; [eexists; apply odho_ok; repeat constructor|]. split; [eexists; apply dot_ok; lia|]. split; [apply box_solver_right; lra|].
  split; [destruct (plane_oscillator 0 false false 6 8 201 1 1 (Setting false 0 true) no_files ltac:(lra) ltac:(lra) ltac:(discriminate) ltac:(left; reflexivity)) as (b & t & E & _); eauto|].
  split; [destruct (plane_double_well 0 false false 6 8 201 1 1 (Setting false 0 true) 2 0 no_files ltac:(lra) ltac:(lra) ltac:(discriminate) ltac:(left; reflexivity)) as (b & t & E & _); eauto|].
  split; [destruct field_instance as (rows & E & _); eauto|]. split; [destruct (dvr_ok 0 false false 11 10 1 1 0 (fun x => x ^ 2) U4d ltac:(discriminate) ltac:(lia)) as (b & E & _); eauto|]. intros t.
  split; [exact dv_evolving|]. split; [exact dv_hermitian|].
  split; [intros [|[|p]] [|[|q]] Hp Hq N; try lia; try (exfalso; apply N; reflexivity); exists 0%Z; reflexivity|].
  split; [intros p q r z _ _ _ _ N; exfalso; apply N; reflexivity|].
  split; [|split; [reflexivity|]].
  - intros y p q Hp Hq N [c Ec]. rewrite dv_term in N. cbn in Ec.
    destruct p as [|[|p]]; [| |lia]; (destruct q as [|[|q]]; [| |lia]); cbn in Ec; try lia; apply N; apply injective_projections; cbn; ring.
  - rewrite dv_term. rewrite sin_PI2. apply injective_projections; cbn; ring.
Qed.
