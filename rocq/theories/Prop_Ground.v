(** C129: the exact states of the electrons exist. *)
From Coq Require Import List Arith ZArith Reals Lra Lia Bool.
From Coquelicot Require Import Coquelicot.
From Verif Require Import Scalar ScalarC Py Numpy BasisSet Spec BasisSpec OneDim OneDimSpec LineProofs GridProofs GridExamples GridSpec DotProofs ParitySpec SpectralSpec SpectralProofs Systems SystemFacts RotationExamples.
From Verif Require Import FockSpec InnerSpec RaiseSpec RaiseFock RaiseTheorems FockSpectrumSpec FockSpectrum GroundTheorems.
Import ListNotations.
Open Scope R_scope.

(** The states of the electrons of a system with Hermitian elements have an orthonormal basis
    of n-choose-m eigenstates, n the number of spin-orbitals, m that of the electrons.  Norm and
    energy of every state are those of its expansion, there are no other energies, and the
    reference energy is that of the ground state or above it; it is that of the ground state
    only when the reference determinant is an exact eigenstate. *)
Theorem C129_spectrum :
  forall (w : world CC) s k N l x (b : basis CC) (h u : arr CC), sys_at w s k N l x b -> b_arr b F_h = Some h -> b_arr b F_u = Some u ->
  hermitian l (mat h) -> hermitian2 l (ten u) -> (k = General -> antisym_ket l (ten u)) ->
  let n := spin_orbitals k l in let m := electrons k N in let X := many_body k l (mat h) (ten u) in
  exists E Psi, spectrum n X m (choose n m) E Psi /\ (0 < choose n m)%nat /\
    (forall f, particle_state n m f -> inner n f f = RtoC (rsum (choose n m) (fun p => Cmod (inner n (Psi p) f) ^ 2)) /\
       inner n f (X f) = RtoC (rsum (choose n m) (fun p => E p * Cmod (inner n (Psi p) f) ^ 2))) /\
    (forall E' f, particle_state n m f -> eigenstate (K := CC) n X E' f -> exists p, (p < choose n m)%nat /\ E' = RtoC (E p)) /\
    exists e, reference_energy s w = (Ok (RtoC e), w) /\ E 0%nat <= e /\
      (e = E 0%nat -> eigenstate (K := CC) n X (RtoC e) (reference_det k l N)).
Proof. exact ground_system. Qed.
Print Assumptions C129_spectrum.
Example C129_spectrum_instance :
  (exists b h u, odho 0 false false 3 10 401 1 1 1 0 = (Ok tt, b) /\
    sys_at (line_w b) 0 Spatial 1 3 (System Spatial 0 (Some 0%nat) 1 3 2 (PySlice 0 1) (PySlice 1 3) None) b /\
    b_arr b F_h = Some h /\ b_arr b F_u = Some u /\ hermitian 3 (mat h) /\ hermitian2 3 (ten u)) /\
  choose (spin_orbitals Spatial 3) (electrons Spatial 1) = 15%nat /\
  sys_at lv_w 0 Spatial 1 2 lv_sys lv_basis /\ hermitian 2 (mat lv_h) /\ hermitian2 2 (ten lv_u) /\ choose (spin_orbitals Spatial 2) (electrons Spatial 1) = 6%nat.
Proof.
  split; [|split; [reflexivity|]].
  - assert (E : odho 0 false false 3 10 401 1 1 1 0 = (Ok tt, line_basis 0 false false 3 10 401 1 1 1)) by (apply odho_ok; repeat constructor).
    destruct (line_h _ _ _ _ _ _ _ _ _ _ _ E) as (h & Eh & _ & Gh). destruct (line_two_body _ _ _ _ _ _ _ _ _ _ _ E) as (u & Eu & _ & _ & Hu).
    eexists. exists h, u. split; [exact E|]. split; [apply line_sys, E|]. split; [exact Eh|]. split; [exact Eu|]. split; [|exact Hu].
    intros p q _ _. rewrite !Gh. rewrite (Nat.eqb_sym q p). destruct (Nat.eqb_spec p q) as [->|N]; cbn; unfold Cconj, RtoC; cbn; f_equal; ring.
  - split; [exact lv_at|]. split; [exact lv_hermitian|]. split; [exact lv_hermitian2 | reflexivity].
Qed.

(** What ODQD asks of its eigensolver can be had on every grid, for every potential; the
    constructor then succeeds. *)
Theorem C129_solver :
  forall npm spin anti l L N a alpha beta V, (3 <= N)%nat -> (l <= N - 2)%nat ->
  exists eigh b, solves L N V eigh /\ odqd npm spin anti l L N a alpha beta V eigh = (Ok tt, b).
Proof. exact solver_exists. Qed.
Print Assumptions C129_solver.
(** Every Hermitian matrix has an orthonormal basis of eigenvectors. *)
Theorem C129_matrix : forall n (h : nat -> nat -> C), hermitian (K := CC) n h -> exists w v, eigensystem n h w v.
Proof. exact spectral. Qed.
Print Assumptions C129_matrix.
Example C129_matrix_instance : hermitian (K := CC) 2 (fun i j => if (i =? j)%nat then RtoC 1 else if (i <? j)%nat then Ci else (- Ci)%C).
Proof.
  intros p q Hp Hq. destruct p as [|[|p]]; [| |lia]; (destruct q as [|[|q]]; [| |lia]); cbn; unfold Ci, RtoC, Cconj, Copp; cbn; f_equal; ring.
Qed.
