(** One electron in the dots with a diagonal h. *)
From Coq Require Import List Arith ZArith Reals Lra Lia Bool Classical.
From Coquelicot Require Import Coquelicot.
From Verif Require Import Scalar ScalarC Py Numpy BasisSet Spec OneDim OneDimSpec LineProofs Systems.
From Verif Require Import TwoDim TwoDimProofs Orbitals Coulomb CoulombProofs Cache CacheProofs MatrixProofs TwoDimBasis PlaneProofs DipoleTheorems.
From Verif Require Import FockSpec InnerSpec RaiseSpec StrengthSystems SymmetryProofs HoleSpec ElectronProofs.
Import ListNotations.
Open Scope R_scope.

Lemma diagonal_eigenvalue l (A : nat -> nat -> C) (e : nat -> R) x : (forall p q, (p < l)%nat -> (q < l)%nat -> A p q = if (p =? q)%nat then RtoC (e p) else RtoC 0) ->
  eigenvalue l A x <-> exists p, (p < l)%nat /\ x = e p.
Proof.
  intros H.
  assert (R : forall c p, (p < l)%nat -> sumn (K := CC) l (fun q => (A p q * c q)%C) = (RtoC (e p) * c p)%C).
  { intros c p Hp. rewrite (sumn_pick CC l p _ Hp); [rewrite H by assumption; rewrite Nat.eqb_refl; reflexivity|].
    intros q Hq N. rewrite H by assumption. destruct (Nat.eqb_spec p q); [congruence|]. apply injective_projections; cbn; ring. }
  split.
  - intros (c & (p & Hp & N) & E). exists p. split; [exact Hp|]. specialize (E p Hp). rewrite R in E by exact Hp.
    assert (Z : (RtoC (x - e p) * c p)%C = RtoC 0).
    { transitivity (RtoC x * c p - RtoC (e p) * c p)%C; [apply injective_projections; cbn; ring|]. rewrite E. apply injective_projections; cbn; ring. }
    apply NNPP. intros Ne. assert (Nz : RtoC (x - e p) <> RtoC 0) by (intros F; apply (f_equal fst) in F; cbn in F; lra).
    exact (Cmult_neq_0 _ _ Nz N Z).
  - intros (p & Hp & ->). exists (fun q => if (q =? p)%nat then RtoC 1 else RtoC 0). split.
    + exists p. split; [exact Hp|]. rewrite Nat.eqb_refl. intros F. apply (f_equal fst) in F. cbn in F. lra.
    + intros q Hq. rewrite R by exact Hq. destruct (Nat.eqb_spec q p) as [->|N]; [reflexivity|]. apply injective_projections; cbn; ring.
Qed.
Lemma line_electron npm spin anti l L N omega a alpha beta b : odho npm spin anti l L N omega a alpha beta = (Ok tt, b) ->
  exists h u, b_arr b F_h = Some h /\ b_arr b F_u = Some u /\ forall E, exact_energy Spatial l (mat h) (ten u) 1 E <-> exists p, (p < l)%nat /\ E = omega * (INR p + 1 / 2).
Proof.
  intros E. destruct (line_h _ _ _ _ _ _ _ _ _ _ _ E) as (h & Eh & _ & Gh). destruct (odho_result _ _ _ _ _ _ _ _ _ _ _ E) as (Eb & _).
  exists h. eexists. split; [exact Eh|]. split; [rewrite Eb; reflexivity|]. intros x. rewrite electron_kind. apply diagonal_eigenvalue. intros; apply Gh.
Qed.
Lemma shell_level omega p k : (k * (k + 1) <= 2 * p < (k + 1) * (k + 2))%nat -> oscillator_element omega p p = omega * (INR k + 1).
Proof.
  intros Hk. unfold oscillator_element. rewrite Nat.eqb_refl. unfold get_shell_energy. destruct (shell_number p) as (k' & Hk' & E).
  assert (k' = k) by nia. subst k'. rewrite E, <- INR_IZR_INZ, S_INR. ring.
Qed.
Lemma plane_electron npm spin anti l L N omega mass e (files : fs) b t : sound files -> oscillator npm spin anti l L N omega mass e files = (Ok b, t) ->
  exists h u, b_arr b F_h = Some h /\ b_arr b F_u = Some u /\ forall E, exact_energy Spatial l (mat h) (ten u) 1 E <-> exists k : nat, (k * (k + 1) < 2 * l)%nat /\ E = omega * (INR k + 1).
Proof.
  intros F E. destruct (plane_hermitian _ _ _ _ _ _ _ _ _ _ _ _ F E) as (h & u & Eh & Eu & Hh & Hu & Gh & Gu). exists h, u. split; [exact Eh|]. split; [exact Eu|].
  intros x. rewrite electron_kind, (diagonal_eigenvalue l (mat h) (fun p => oscillator_element omega p p)).
  2: { intros p q _ _. rewrite Gh. destruct (Nat.eqb_spec p q) as [->|D]; [reflexivity|]. unfold oscillator_element. destruct (Nat.eqb_spec p q); [contradiction|]. try reflexivity; f_equal; ring. }
  split.
  - intros (p & Hp & ->). destruct (shell_number p) as (k & Hk & _). exists k. split; [lia | apply shell_level, Hk].
  - intros (k & Hk & ->). exists (k * (k + 1) / 2)%nat.
    assert (X : (k * (k + 1) = 2 * (k * (k + 1) / 2))%nat).
    { clear. assert (Y : exists m, (k * (k + 1) = 2 * m)%nat) by (induction k as [|k [m IH]]; [exists 0%nat; reflexivity | exists (m + k + 1)%nat; lia]).
      destruct Y as (m & ->). rewrite (Nat.mul_comm 2 m), Nat.div_mul by lia. lia. }
    split; [lia|]. symmetry. apply shell_level. rewrite <- X. lia.
Qed.
