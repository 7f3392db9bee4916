(** C143: The exact energies add up to the traces of the elements. *)
From Coq Require Import List Arith ZArith Reals Lra Lia.
From Coquelicot Require Import Coquelicot.
From Verif Require Import Scalar ScalarC Py Numpy BasisSet Spec OneDim OneDimSpec LineProofs SincDvr SincProofs GridSpec Systems SystemFacts RaiseTheorems RotationExamples TwoDim Orbitals Coulomb CoulombProofs Cache CacheProofs CacheExamples TwoDimBasis PlaneProofs.
From Verif Require Import FockSpec InnerSpec RaiseSpec FockSpectrumSpec TraceSpec TraceProofs TraceSystems GridSpec.
Import ListNotations.
Open Scope R_scope.

(** Any Hermitian elements, any number of electrons *)
Theorem C143_sum :
  forall k l h u m d E Psi, hermitian (K := CC) l h -> hermitian2 (K := CC) l u -> (k = General -> antisym_ket (K := CC) l u) ->
  spectrum (spin_orbitals k l) (many_body k l h u) m d E Psi -> RtoC (rsum d E) = energy_sum k l m h u.
Proof. exact energies_total. Qed.
Print Assumptions C143_sum.
(** So the traces lie between the least and the largest energy, times the number of states. *)
Theorem C143_mean :
  forall k l h u m d E Psi, hermitian (K := CC) l h -> hermitian2 (K := CC) l u -> (k = General -> antisym_ket (K := CC) l u) ->
  spectrum (spin_orbitals k l) (many_body k l h u) m d E Psi -> INR d * E O <= Re (energy_sum k l m h u) <= INR d * E (d - 1)%nat.
Proof. exact mean_between. Qed.
Print Assumptions C143_mean.
(** A system of the library; with every orbital occupied the reference energy is the only energy. *)
Theorem C143_system :
  forall (w : world CC) s k N l x (b : basis CC) (h u : arr CC), sys_at w s k N l x b -> b_arr b F_h = Some h -> b_arr b F_u = Some u ->
  hermitian l (mat h) -> hermitian2 l (ten u) -> (k = General -> antisym_ket l (ten u)) ->
  let n := spin_orbitals k l in let m := electrons k N in let d := choose n m in
  exists E Psi, spectrum n (many_body k l (mat h) (ten u)) m d E Psi /\ RtoC (rsum d E) = energy_sum k l m (mat h) (ten u) /\
    INR d * E O <= Re (energy_sum k l m (mat h) (ten u)) /\
    (N = l -> d = 1%nat /\ reference_energy s w = (Ok (RtoC (E O)), w)).
Proof. exact system_total. Qed.
Print Assumptions C143_system.
(** Sinc functions: the sum of the energies in terms of the potential and the repulsion alone *)
Theorem C143_sinc_dvr :
  forall npm spin anti l L a alpha beta V b, odsincdvr npm spin anti l L a alpha beta V U4d = (Ok tt, b) ->
  let v p q := alpha / sqrt ((OneDimSpec.point L l p - OneDimSpec.point L l q) ^ 2 + a ^ 2) in
  energies_add l b (2 * rsum l (fun p => PI ^ 2 / (6 * spacing L l ^ 2) + V (OneDimSpec.point L l p))) (2 * rsum l (fun p => rsum l (v p)) - rsum l (fun p => v p p)).
Proof. exact dvr_total. Qed.
Print Assumptions C143_sinc_dvr.
Theorem C143_ODHO :
  forall npm spin anti l L N omega a alpha beta b, odho npm spin anti l L N omega a alpha beta = (Ok tt, b) ->
  exists u, b_arr b F_u = Some u /\ energies_add l b (omega * INR l ^ 2) (rsum l (fun p => rsum l (fun q => 2 * Re (ten u p q p q) - Re (ten u p q q p)))).
Proof. exact line_total. Qed.
Print Assumptions C143_ODHO.
(** Two dimensions, k complete shells *)
Theorem C143_oscillator :
  forall npm spin anti l k L N omega mass e (files : fs) b t, (2 * l = k * (k + 1))%nat -> (forall d n f, files d n = Some f -> f = image n) ->
  oscillator npm spin anti l L N omega mass e files = (Ok b, t) ->
  energies_add l b (omega * (INR k * (INR k + 1) * (2 * INR k + 1)) / 3) (sqrt omega * rsum l (fun p => rsum l (fun q => 2 * coulomb_of shell_state p q p q - coulomb_of shell_state p q q p))).
Proof. exact plane_total. Qed.
Print Assumptions C143_oscillator.

(** Two electrons on four spin-orbitals: six states; a spin-orbital is occupied in three of
    them, a pair in one. *)
Example C143_instance :
  choose 4 2 = 6%nat /\ with_one 4 2 = 3%nat /\ with_two 4 2 = 1%nat /\
  (exists b, odsincdvr 0 false false 11 10 1 1 0 (fun x => x ^ 2 / 2) U4d = (Ok tt, b)) /\
  (exists b, odho 0 false false 3 10 401 1 1 1 0 = (Ok tt, b)) /\
  (exists b t, oscillator 0 false false 3 8 201 1 1 (Setting false 0 true) no_files = (Ok b, t)) /\ (2 * 3 = 2 * (2 + 1))%nat.
Proof.
  do 3 (split; [reflexivity|]). split; [|split; [|split; [|reflexivity]]].
  - destruct (dvr_ok 0 false false 11 10 1 1 0 (fun x => x ^ 2 / 2) U4d) as (b & E & _); [discriminate | lia | eauto].
  - eexists. apply odho_ok; repeat constructor.
  - destruct (plane_oscillator 0 false false 3 8 201 1 1 (Setting false 0 true) no_files ltac:(lra) ltac:(lra) ltac:(discriminate) ltac:(left; reflexivity)) as (b & t & E & _). eauto.
Qed.
Example C143_system_instance :
  sys_at lv_w 0 Spatial 1 2 lv_sys lv_basis /\ b_arr lv_basis F_h = Some lv_h /\ b_arr lv_basis F_u = Some lv_u /\ hermitian 2 (mat lv_h) /\ hermitian2 2 (ten lv_u).
Proof. split; [exact lv_at|]. do 2 (split; [reflexivity|]). split; [exact lv_hermitian | exact lv_hermitian2]. Qed.
