(** Exchanging orbitals turns exact states into exact states. *)
From Coq Require Import List Arith ZArith Reals Lra Lia Bool.
From Coquelicot Require Import Coquelicot.
From Verif Require Import Scalar ScalarC Py Numpy BasisSet Spec OneDimSpec DotProofs SpectralSpec SpectralProofs Systems.
From Verif Require Import FockSpec FockProofs InnerSpec InnerProofs RaiseSpec RaiseProofs RaiseFock RaiseTheorems FockSpectrumSpec FockSpectrum GroundTheorems HartreeFockProofs OrbitalMap OrbitalEnergy VariationalSpec VariationalTheorems SharpSpec SharpProofs SharpTheorems StaticProofs FreeSpec FreeProofs ReversalSpec.
Import ListNotations.
Open Scope R_scope.
Local Notation S_ := (sumn (K := CC)).
Local Notation state := (FockSpec.state CC).
Local Notation inner := (InnerSpec.inner (K := CC)).
Local Notation dag := (adj (K := CC)).

(** As many orthonormal states as there are levels are complete. *)
Lemma orthonormal_complete n X N d E Psi (Phi : nat -> state) : spectrum n X N d E Psi -> (forall p, (p < d)%nat -> particle_state n N (Phi p)) ->
  (forall p q, (p < d)%nat -> (q < d)%nat -> inner n (Phi p) (Phi q) = kronecker p q) ->
  forall f, particle_state n N f -> forall o, among n o -> f o = S_ d (fun q => (inner n (Phi q) f * Phi q o)%C).
Proof.
  intros Sp HP HO f Hf o Ho. set (M := fun p q => inner n (Psi p) (Phi q)).
  assert (EI : forall a b, particle_state n N a -> inner n a b = S_ d (fun p => (Cconj (inner n (Psi p) a) * inner n (Psi p) b)%C)) by (intros a b; exact (expand_inner n N d X E Psi Sp a b)).
  assert (U : unitary d M). { intros p q Hp Hq. unfold mmul, adj, M. cbn [smul sconj CC]. etransitivity; [symmetry; apply (EI (Phi p) (Phi q) (HP p Hp))|]. rewrite (HO p q Hp Hq). reflexivity. }
  pose proof (unitary_other d M U) as U'.
  transitivity (S_ d (fun q => S_ d (fun p => S_ d (fun p' => (Cconj (M p q) * inner n (Psi p) f * (M p' q * Psi p' o))%C)))).
  - transitivity (S_ d (fun p => S_ d (fun p' => (delta (K := CC) p' p * (inner n (Psi p) f * Psi p' o))%C))).
    + rewrite (sp_complete _ _ _ _ _ _ Sp f Hf o Ho). apply csum_ext. intros p Hp. rewrite (csum_pick d p); [|exact Hp|].
      * unfold delta. rewrite Nat.eqb_refl. apply injective_projections; cbn; ring.
      * intros p' _ Ne. unfold delta. rewrite (proj2 (Nat.eqb_neq p' p) Ne). apply injective_projections; cbn; ring.
    + etransitivity; [|symmetry; apply (sumn_swap CC)]. apply csum_ext. intros p Hp. etransitivity; [|symmetry; apply (sumn_swap CC)]. apply csum_ext. intros p' Hp'. rewrite <- (U' p' p Hp' Hp). unfold mmul, adj. etransitivity; [exact (sumn_mul_r CC d (inner n (Psi p) f * Psi p' o)%C (fun k => (M p' k * Cconj (M p k))%C))|]. apply csum_ext. intros k _. cbn [smul CC]. ring.
  - apply csum_ext. intros q Hq. rewrite (EI (Phi q) f (HP q Hq)). rewrite (sp_complete _ _ _ _ _ _ Sp (Phi q) (HP q Hq) o Ho) at 1.
    etransitivity; [|symmetry; exact (sumn_mul_r CC d _ _)]. apply csum_ext. intros p _. etransitivity; [|symmetry; exact (sumn_mul_l CC d _ _)]. reflexivity.
Qed.

Section Map.
  Variables (n : nat) (x : C) (H : nat -> nat -> C) (U : nat -> nat -> nat -> nat -> C) (pi : nat -> nat).
  Hypothesis (Hpi : exchange n pi) (H1 : unchanged1 n pi H) (H2 : unchanged2 n pi U).
  Local Notation T := (turn pi (fun _ => 1)).
  Local Notation X := (hamiltonian (K := CC) n x H U).
  Definition swapped : state -> state := embed (K := CC) n T n.
  Lemma one_sq (p : nat) : 1 * 1 = 1.
  Proof. ring. Qed.
  Lemma T_columns : orthonormal_columns n n T.
  Proof. apply turn_columns; [exact Hpi | exact one_sq]. Qed.
  Lemma swapped_state N f : particle_state n N f -> particle_state n N (swapped f).
  Proof. apply embed_particles. Qed.
  Lemma swapped_inner N f g : particle_state n N f -> particle_state n N g -> inner n (swapped f) (swapped g) = inner n f g.
  Proof. apply (isometry n n T T_columns). Qed.
  Lemma swapped_form y h u h' u' N f g : particle_state n N f -> particle_state n N g ->
    (forall p q, (p < n)%nat -> (q < n)%nat -> h (pi p) (pi q) = h' p q) ->
    (forall p q r s, (p < n)%nat -> (q < n)%nat -> (r < n)%nat -> (s < n)%nat -> u (pi p) (pi q) (pi r) (pi s) = u' p q r s) ->
    inner n (swapped f) (hamiltonian (K := CC) n y h u (swapped g)) = inner n f (hamiltonian (K := CC) n y h' u' g).
  Proof.
    intros Hf Hg E1 E2. unfold swapped. rewrite (hamiltonian_form n n T T_columns y h u N f g Hf Hg). apply (inner_ext CC). intros o. apply hamiltonian_coeff.
    - intros p q Hp Hq. rewrite tr1_turn by (assumption || exact one_sq). rewrite E1 by assumption. apply injective_projections; cbn; ring.
    - intros p q r s Hp Hq Hr Hs. rewrite tr2_turn by (assumption || exact one_sq). rewrite E2 by assumption. apply injective_projections; cbn; ring.
  Qed.
  Section Levels.
    Variables (N d : nat) (E : nat -> R) (Psi : nat -> state).
    Hypothesis Sp : spectrum n X N d E Psi.
    Local Notation Phi p := (swapped (Psi p)).
    Lemma Psi_state p : (p < d)%nat -> particle_state n N (Psi p).
    Proof. intros Hp. apply (sp_state _ _ _ _ _ _ Sp p Hp). Qed.
    Lemma Phi_complete f : particle_state n N f -> forall o, among n o -> f o = S_ d (fun q => (inner n (Phi q) f * Phi q o)%C).
    Proof.
      apply (orthonormal_complete n X N d E Psi (fun p => Phi p) Sp).
      - intros p Hp. apply swapped_state, Psi_state, Hp.
      - intros p q Hp Hq. rewrite (swapped_inner N) by (apply Psi_state; assumption). apply (sp_orthonormal _ _ _ _ _ _ Sp); assumption.
    Qed.
    (** An operator that multiplies Psi p by a number does the same, exchanged, to its image. *)
    Lemma image_value y h u h' u' p (c : C) : (p < d)%nat ->
      (forall p q, (p < n)%nat -> (q < n)%nat -> h (pi p) (pi q) = h' p q) ->
      (forall p q r s, (p < n)%nat -> (q < n)%nat -> (r < n)%nat -> (s < n)%nat -> u (pi p) (pi q) (pi r) (pi s) = u' p q r s) ->
      (forall o, among n o -> hamiltonian (K := CC) n y h' u' (Psi p) o = (c * Psi p o)%C) ->
      forall o, among n o -> hamiltonian (K := CC) n y h u (Phi p) o = (c * Phi p o)%C.
    Proof.
      intros Hp E1 E2 Ev o Ho. pose proof (Psi_state p Hp) as Pp.
      rewrite (Phi_complete _ (hamiltonian_particles n y h u N _ (swapped_state N _ Pp)) o Ho). rewrite (csum_pick d p); [|exact Hp|].
      - rewrite (swapped_form y h u h' u' N _ _ Pp Pp E1 E2). rewrite (inner_ext_among CC n (Psi p) _ (fun o => (c * Psi p o)%C) Ev).
        etransitivity; [apply (f_equal (fun z => (z * Phi p o)%C)); exact (inner_scal CC n (Psi p) c (Psi p))|]. rewrite (sp_orthonormal _ _ _ _ _ _ Sp p p Hp Hp). unfold kronecker. rewrite Nat.eqb_refl. apply injective_projections; cbn; ring.
      - intros q Hq Ne. rewrite (swapped_form y h u h' u' N _ _ (Psi_state q Hq) Pp E1 E2). rewrite (inner_ext_among CC n (Psi q) _ (fun o => (c * Psi p o)%C) Ev).
        etransitivity; [apply (f_equal (fun z => (z * Phi q o)%C)); exact (inner_scal CC n (Psi q) c (Psi p))|]. rewrite (sp_orthonormal _ _ _ _ _ _ Sp q p Hq Hp). unfold kronecker. rewrite (proj2 (Nat.eqb_neq q p) Ne). apply injective_projections; cbn; ring.
    Qed.
    Lemma unit_nonzero (f : state) : inner n f f = RtoC 1 -> exists o, among n o /\ f o <> RtoC 0.
    Proof.
      intros I. apply Classical_Prop.NNPP. intros No. assert (Z : inner n f f = RtoC 0).
      - etransitivity; [apply (inner_ext_among CC n f f (fun o => (RtoC 0 * f o)%C))|].
        + intros o Ho. destruct (Classical_Prop.classic (f o = RtoC 0)) as [->|Ne]; [apply injective_projections; cbn; ring|]. exfalso. apply No. exists o. split; assumption.
        + etransitivity; [exact (inner_scal CC n f (RtoC 0) f)|]. apply injective_projections; cbn; ring.
      - rewrite Z in I. injection I. lra.
    Qed.
    Lemma swapped_spectrum : spectrum n X N d E (fun p => Phi p).
    Proof.
      split.
      - intros p Hp. destruct (sp_state _ _ _ _ _ _ Sp p Hp) as [A [_ [_ Ev]]]. pose proof (swapped_state N _ A) as B. split; [exact B|]. split; [exact (proj1 B)|]. split.
        + apply unit_nonzero. rewrite (swapped_inner N _ _ A A). rewrite (sp_orthonormal _ _ _ _ _ _ Sp p p Hp Hp). unfold kronecker. rewrite Nat.eqb_refl. reflexivity.
        + exact (image_value x H U H U p (RtoC (E p)) Hp H1 H2 Ev).
      - intros p q Hp Hq. rewrite (swapped_inner N) by (apply Psi_state; assumption). apply (sp_orthonormal _ _ _ _ _ _ Sp); assumption.
      - exact (sp_ascending _ _ _ _ _ _ Sp).
      - exact Phi_complete.
    Qed.
    (** Sums over the occupied spin-orbitals *)
    Definition measure (g : nat -> Z) (p q : nat) : C := if (p =? q)%nat then RtoC (IZR (g p)) else RtoC 0.
    Lemma charge_level m (g : nat -> Z) o : IZR (total_charge m g o) = level_sum m (fun p => IZR (g p)) o.
    Proof. induction m as [|m IH]; [reflexivity|]. cbn [total_charge level_sum]. rewrite plus_IZR, IH. destruct (o m); reflexivity. Qed.
    Lemma measured g (f : state) o : proper f -> hamiltonian (K := CC) n (RtoC 0) (measure g) (fun _ _ _ _ => RtoC 0) f o = (RtoC (IZR (total_charge n g o)) * f o)%C.
    Proof.
      intros Pf. unfold hamiltonian. rewrite (diagonal_one n (measure g) (fun p => IZR (g p)) f o) by (try assumption; intros p q _ _; reflexivity). rewrite charge_level. apply injective_projections; cbn; ring.
    Qed.
    Lemma swapped_amounts g g' p M : (forall q, (q < n)%nat -> g' q = g (pi q)) -> (p < d)%nat -> amounts n g M (Psi p) -> amounts n g' M (Phi p).
    Proof.
      intros Eg Hp A o Ho Nz. pose proof (Psi_state p Hp) as Pp. pose proof (swapped_state N _ Pp) as Pw.
      assert (V := image_value (RtoC 0) (measure g') (fun _ _ _ _ => RtoC 0) (measure g) (fun _ _ _ _ => RtoC 0) p (RtoC (IZR M)) Hp).
      assert (Q : (RtoC (IZR (total_charge n g' o)) * Phi p o = RtoC (IZR M) * Phi p o)%C).
      { rewrite <- (measured g' _ o (proj1 Pw)). apply V; [| reflexivity | | exact Ho].
        - intros a b Ha Hb. unfold measure. destruct (Hpi a Ha) as [Ia Ja]. destruct (Hpi b Hb) as [Ib Jb]. rewrite (Eg _ Ia), Ja. destruct (Nat.eqb_spec a b) as [->|Ne]; [rewrite Nat.eqb_refl; reflexivity|]. rewrite (proj2 (Nat.eqb_neq (pi a) (pi b))); [reflexivity|]. intros C. apply Ne. rewrite <- Ja, <- Jb, C. reflexivity.
        - intros o' Ho'. rewrite (measured g _ o' (proj1 Pp)). destruct (Classical_Prop.classic (Psi p o' = RtoC 0)) as [->|Ne]; [apply injective_projections; cbn; ring|]. rewrite (A o' Ho' Ne). reflexivity. }
      apply eq_IZR. assert (R : (RtoC (IZR (total_charge n g' o)) = RtoC (IZR M))%C). { apply (f_equal (fun z => (z * / Phi p o)%C)) in Q. rewrite <- !Cmult_assoc, Cinv_r, !Cmult_1_r in Q by exact Nz. exact Q. }
      injection R. tauto.
    Qed.
  End Levels.
End Map.
