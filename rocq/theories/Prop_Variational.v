(** C132: exact energies do not depend on the representation, and fewer orbitals never lower
    them. *)
From Coq Require Import List Arith ZArith Reals Lra Lia Bool.
From Coquelicot Require Import Coquelicot.
From Verif Require Import Scalar ScalarC Py Numpy BasisSet Spec BasisSpec OneDim OneDimSpec LineProofs DotProofs GridProofs GridExamples GridSpec SpectralSpec Systems SystemFacts RotationExamples HartreeFockExamples.
From Verif Require Import TwoDim Cache CacheProofs CacheExamples TwoDimBasis PlaneProofs FockSpec InnerSpec RaiseSpec RaiseFock RaiseTheorems FockSpectrumSpec VariationalSpec VariationalTheorems VariationalSystems.
Import ListNotations.
Open Scope R_scope.

(** The energies of every number m of electrons are determined by the elements h and u ... *)
Theorem C132_unique :
  forall k l h u, hermitian (K := CC) l h -> hermitian2 (K := CC) l u -> forall m d d' E E' Psi Psi',
  spectrum (spin_orbitals k l) (many_body k l h u) m d E Psi -> spectrum (spin_orbitals k l) (many_body k l h u) m d' E' Psi' ->
  d = d' /\ forall p, (p < d)%nat -> E p = E' p.
Proof. exact energies_unique. Qed.
Print Assumptions C132_unique.

(** ... and after a change of basis to n orthonormal orbitals the p-th energy is at least the
    p-th energy before; it is the same when no orbital was dropped. *)
Theorem C132_change :
  forall (w : world CC) s k N l x (b : basis CC) (h u A : arr CC) n, sys_at w s k N l x b -> b_arr b F_h = Some h -> b_arr b F_u = Some u ->
  hermitian l (mat h) -> hermitian2 l (ten u) -> shape A = [l; n] -> (N <= n)%nat -> orthonormal_columns l n (mat A) ->
  exists w' (h' u' : arr CC), sys_change_basis s A None w = (Ok tt, w') /\
    sys_get s F_h w' = (Ok (Some h'), w') /\ sys_get s F_u w' = (Ok (Some u'), w') /\ hermitian n (mat h') /\ hermitian2 n (ten u') /\
    forall m, exists E Psi E' Psi',
      spectrum (spin_orbitals k l) (many_body k l (mat h) (ten u)) m (choose (spin_orbitals k l) m) E Psi /\
      spectrum (spin_orbitals k n) (many_body k n (mat h') (ten u')) m (choose (spin_orbitals k n) m) E' Psi' /\
      (forall p, (p < choose (spin_orbitals k n) m)%nat -> (p < choose (spin_orbitals k l) m)%nat /\ E p <= E' p) /\
      (n = l -> forall p, (p < choose (spin_orbitals k l) m)%nat -> E' p = E p).
Proof. exact variational_change. Qed.
Print Assumptions C132_change.

(** In whatever orthonormal orbitals, the reference energy is at least the exact ground-state
    energy of the basis they were made from. *)
Theorem C132_reference :
  forall (w : world CC) s k N l x (b : basis CC) (h u A : arr CC) n, sys_at w s k N l x b -> b_arr b F_h = Some h -> b_arr b F_u = Some u ->
  hermitian l (mat h) -> hermitian2 l (ten u) -> (k = General -> antisym_ket l (ten u)) ->
  spin_mats_ok b l n -> (b_arr b F_spf = None -> b_arr b F_bra = None) ->
  shape A = [l; n] -> (N <= n)%nat -> orthonormal_columns l n (mat A) ->
  exists w' e, sys_change_basis s A None w = (Ok tt, w') /\ reference_energy s w' = (Ok (RtoC e), w') /\
    forall d E Psi, spectrum (spin_orbitals k l) (many_body k l (mat h) (ten u)) (electrons k N) d E Psi -> (0 < d)%nat /\ E 0%nat <= e.
Proof. exact variational_reference. Qed.
Print Assumptions C132_reference.

(** construct_general_orbital_system keeps the energies and the exact states of all numbers of
    electrons. *)
Theorem C132_constructed :
  forall (w : world CC) s (va vb : list CC) N l x (b : basis CC) (ov h u : arr CC), sys_at w s Spatial N l x b ->
  b_cls b = Base -> orthonormal_pair va vb -> b_spin b = false -> b_asym b = false -> b_arr b F_s = Some ov ->
  (b_arr b F_spf = None -> b_arr b F_bra = None) -> sy_op x = None -> b_arr b F_h = Some h -> b_arr b F_u = Some u ->
  exists w' g (h' u' : arr CC), construct_general s va vb true w = (Ok g, w') /\ sys_get g F_h w' = (Ok (Some h'), w') /\ sys_get g F_u w' = (Ok (Some u'), w') /\
    forall m d E Psi, spectrum (spin_orbitals Spatial l) (many_body Spatial l (mat h) (ten u)) m d E Psi <->
                      spectrum (spin_orbitals General (2 * l)) (many_body General (2 * l) (mat h') (ten u')) m d E Psi.
Proof. exact variational_constructed. Qed.
Print Assumptions C132_constructed.

(** The constructors called with more orbitals and otherwise equal arguments never give a higher
    energy, for any number of electrons and any level. *)
Theorem C132_ODHO :
  forall npm spin anti l l' L N omega a alpha beta b b', (l <= l')%nat ->
  odho npm spin anti l L N omega a alpha beta = (Ok tt, b) -> odho npm spin anti l' L N omega a alpha beta = (Ok tt, b') -> never_raised l l' b b'.
Proof. exact line_more. Qed.
Print Assumptions C132_ODHO.
Theorem C132_ODQD :
  forall npm spin anti l l' L N a alpha beta V eigh b b', (l <= l')%nat ->
  odqd npm spin anti l L N a alpha beta V eigh = (Ok tt, b) -> odqd npm spin anti l' L N a alpha beta V eigh = (Ok tt, b') -> never_raised l l' b b'.
Proof. exact dot_more. Qed.
Print Assumptions C132_ODQD.
Theorem C132_TwoDim :
  forall npm spin anti l l' L N omega mass e e' (files files' : fs) b b' t t', (l <= l')%nat ->
  (forall d n f, files d n = Some f -> f = image n) -> (forall d n f, files' d n = Some f -> f = image n) ->
  oscillator npm spin anti l L N omega mass e files = (Ok b, t) -> oscillator npm spin anti l' L N omega mass e' files' = (Ok b', t') -> never_raised l l' b b'.
Proof. exact oscillator_more. Qed.
Print Assumptions C132_TwoDim.
Theorem C132_TwoDimDW :
  forall npm spin anti l l' L N omega mass e e' barrier axis (files files' : fs) b b' t t', 0 < mass -> 0 < omega -> (l <= l')%nat ->
  (forall d n f, files d n = Some f -> f = image n) -> (forall d n f, files' d n = Some f -> f = image n) ->
  double_well npm spin anti l L N omega mass e barrier axis files = (Ok b, t) -> double_well npm spin anti l' L N omega mass e' barrier axis files' = (Ok b', t') -> never_raised l l' b b'.
Proof. exact double_well_more. Qed.
Print Assumptions C132_TwoDimDW.

(** A column (3/5, 4i/5) and a unitary 2x2 matrix with it. *)
Definition va_column : arr CC := @Arr CC [2; 1]%nat Complex128 (fun idx => match idx with [0%nat; 0%nat] => RtoC (3 / 5) | _ => (0, 4 / 5) end).
Definition va_unitary : arr CC := @Arr CC [2; 2]%nat Complex128 (fun idx => match idx with
  | [0%nat; 0%nat] => RtoC (3 / 5) | [1%nat; 0%nat] => (0, 4 / 5) | [0%nat; 1%nat] => (0, 4 / 5) | _ => RtoC (3 / 5) end).
Example C132_instance :
  sys_at lv_w 0 Spatial 1 2 lv_sys lv_basis /\ hermitian 2 (mat lv_h) /\ hermitian2 2 (ten lv_u) /\
  sys_at gv_w 0 General 1 2 gv_sys gv_basis /\ hermitian2 2 (ten gv_u) /\ antisym_ket 2 (ten gv_u) /\ spin_mats_ok gv_basis 2 1 /\
  orthonormal_columns 2 1 (mat va_column) /\ orthonormal_columns 2 2 (mat va_unitary) /\
  (choose (spin_orbitals Spatial 2) 2 = 6 /\ choose (spin_orbitals Spatial 1) 2 = 1)%nat /\
  (exists b b', odho 0 false false 3 10 401 1 1 1 0 = (Ok tt, b) /\ odho 0 false false 7 10 401 1 1 1 0 = (Ok tt, b') /\
    sys_at (line_w b) 0 Spatial 1 3 (System Spatial 0 (Some 0%nat) 1 3 2 (PySlice 0 1) (PySlice 1 3) None) b /\
    b_cls b = Base /\ b_spin b = false /\ b_asym b = false /\ b_arr b F_s <> None /\ b_arr b F_spf <> None) /\
  orthonormal_pair (default_a CC) (default_b CC) /\
  (exists b t b' t', oscillator 0 false false 6 8 201 1 1 (Setting false 0 true) no_files = (Ok b, t) /\ oscillator 0 false false 12 8 201 1 1 (Setting false 0 true) no_files = (Ok b', t')).
Proof.
  split; [exact lv_at|]. split; [exact lv_hermitian|]. split; [exact lv_hermitian2|]. split; [exact gv_at|]. split; [exact gv_hermitian2|]. split; [exact gv_antisym|].
  split; [right; intros f [<-|[<-|[<-|[<-|[]]]]]; reflexivity|].
  split. { intros p q Hp Hq. assert (p = 0%nat) by lia. assert (q = 0%nat) by lia. subst. cbn. unfold RtoC, Cconj, Cmult, Cplus. cbn. f_equal; field. }
  split. { intros p q Hp Hq. destruct p as [|[|p]]; [| |lia]; (destruct q as [|[|q]]; [| |lia]); cbn; unfold RtoC, Cconj, Cmult, Cplus; cbn; f_equal; field. }
  split; [split; reflexivity|]. split; [|split].
  - assert (E : odho 0 false false 3 10 401 1 1 1 0 = (Ok tt, line_basis 0 false false 3 10 401 1 1 1)) by (apply odho_ok; repeat constructor).
    assert (E' : odho 0 false false 7 10 401 1 1 1 0 = (Ok tt, line_basis 0 false false 7 10 401 1 1 1)) by (apply odho_ok; repeat constructor).
    eexists _, _. split; [exact E|]. split; [exact E'|]. split; [apply line_sys, E|]. repeat split; discriminate.
  - unfold orthonormal_pair, ip2, default_a, default_b. cbn. unfold Cplus, Cmult, Cconj, RtoC. cbn. repeat split; f_equal; ring.
  - destruct (plane_oscillator 0 false false 6 8 201 1 1 (Setting false 0 true) no_files ltac:(lra) ltac:(lra) ltac:(discriminate) ltac:(left; reflexivity)) as (b & t & E & _).
    destruct (plane_oscillator 0 false false 12 8 201 1 1 (Setting false 0 true) no_files ltac:(lra) ltac:(lra) ltac:(discriminate) ltac:(left; reflexivity)) as (b' & t' & E' & _). eauto 6.
Qed.
