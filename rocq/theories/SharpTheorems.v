(** Many-electron states with sharp quantum numbers, for the systems of the library. *)
From Coq Require Import List Arith ZArith Znumtheory Reals Lra Lia Bool.
From Coquelicot Require Import Coquelicot.
From Verif Require Import Scalar ScalarC Spec OneDimSpec OneDimProofs DotProofs GridSpec GridProofs PositiveForms SpectralSpec SpectralProofs.
From Verif Require Import FockSpec FockProofs InnerSpec InnerProofs RaiseSpec RaiseProofs RaiseFock RaiseTheorems FockSpectrumSpec FockSpectrum GroundTheorems Systems SharpSpec SharpProofs.
From Verif Require Import EvolutionSpec EvolutionCalculus EvolutionProofs VariationalTheorems.
Import ListNotations.
Open Scope R_scope.
Local Notation S_ := (sumn (K := CC)).
Local Notation state := (FockSpec.state CC).
Local Notation inner := (InnerSpec.inner (K := CC)).

(** X keeps the quantum number t. *)
Definition conserves (l : nat) (t : label) (X : state -> state) : Prop := forall P f, closed_class t P -> held l t P f -> held l t P (X f).

Section Operator.
  Variables (l : nat) (X : state -> state) (ts : list label).
  Hypothesis XL : linear CC X.
  Hypothesis XS : symmetric_operator l X.
  Hypothesis XT : forall t, In t ts -> conserves l t X.
  Section Number.
    Variable N : nat.
    Hypothesis XP : forall f, particle_state l N f -> particle_state l N (X f).
    Notation d := (length (codes l N)).
    Notation e := (occ_nr l N).
    Definition akin (i j : nat) : Prop := List.Forall (fun t => alike t (total_charge l (charge t) (e i)) (total_charge l (charge t) (e j))) ts.
    Lemma sharp_spectrum : exists E Psi, spectrum l X N d E Psi /\ forall p, (p < d)%nat -> forall t, In t ts -> sharp l t (Psi p).
    Proof.
      destruct (class_eigensystem d (xmat l N X) akin) as (w & v & Ev & Wv).
      - intros i j. apply List.Forall_dec. intros t. apply alike_dec.
      - intros i. apply List.Forall_forall. intros t _. apply alike_refl.
      - intros i j H. apply List.Forall_forall. intros t Ht. apply alike_sym. exact (proj1 (List.Forall_forall _ _) H t Ht).
      - intros i j k H1 H2. apply List.Forall_forall. intros t Ht. apply (alike_trans t _ (total_charge l (charge t) (e j))); [exact (proj1 (List.Forall_forall _ _) H1 t Ht) | exact (proj1 (List.Forall_forall _ _) H2 t Ht)].
      - apply xmat_hermitian; assumption.
      - intros i j Hi Hj No. unfold xmat. apply Classical_Prop.NNPP. intros Nz. apply No. apply List.Forall_forall. intros t Ht. apply Classical_Prop.NNPP. intros Na. apply Nz.
        refine (XT t Ht _ _ (class_closed t _) (det_held l t (e j)) (e i) (e_among l N i Hi) Na).
      - exists w, (fun p => combine l N (fun i => v i p)). split; [apply spectrum_from; assumption|]. intros p Hp t Ht.
        assert (Fd : forall o, combine l N (fun i => v i p) o <> RtoC 0 -> exists j, (j < d)%nat /\ v j p <> RtoC 0 /\ total_charge l (charge t) o = total_charge l (charge t) (e j)).
        { intros o Nz. apply Classical_Prop.NNPP. intros No. apply Nz. apply csum_zero. intros j Hj. destruct (Classical_Prop.classic (v j p = RtoC 0)) as [Z|Z]; [rewrite Z; cx; cbn; ring|].
          unfold determinant. destruct (forallb _ _) eqn:Eb; [|cx; cbn; ring]. exfalso. apply No. exists j. split; [exact Hj|]. split; [exact Z|]. apply charge_ext. rewrite forallb_forall in Eb. intros q Hq. apply eqb_prop, Eb, in_seq. lia. }
        destruct (Classical_Prop.classic (exists i, (i < d)%nat /\ v i p <> RtoC 0)) as [(i & Hi & Ni)|No].
        + exists (total_charge l (charge t) (e i)). intros o _ Nz. destruct (Fd o Nz) as (j & Hj & Nj & Ej). rewrite Ej. exact (proj1 (List.Forall_forall _ _) (Wv p Hp j i Hj Hi Nj Ni) t Ht).
        + exists 0%Z. intros o _ Nz. destruct (Fd o Nz) as (j & Hj & Nj & _). exfalso. apply No. exists j. split; assumption.
    Qed.
  End Number.
  Section OneLabel.
    Variables (t : label).
    Hypothesis Xt : conserves l t X.
    Lemma component_proper M (f : state) : proper f -> proper (component l t M f).
    Proof. intros Pf o o' H. unfold component. rewrite (charge_ext l (charge t) o o' ltac:(intros; apply H)), (Pf o o' H). reflexivity. Qed.
    Lemma component_operator M f o : among l o -> X (component l t M f) o = component l t M (X f) o.
    Proof.
      intros A. set (r := fun o => if Zdivide_dec (modulus t) (total_charge l (charge t) o - M) then RtoC 0 else f o).
      assert (Sum : X f o = (RtoC 1 * X (component l t M f) o + RtoC 1 * X r o)%C).
      { rewrite <- linear_combination by exact XL. apply (lin_ext CC _ XL). intros o'. unfold component, r. destruct (Zdivide_dec _ _); [apply keep_left | apply keep_right]. }
      unfold component at 2. destruct (Zdivide_dec _ _) as [Y|N].
      - rewrite Sum. assert (Z : X r o = RtoC 0); [|rewrite Z; apply keep_left].
        refine (Xt (fun z => ~ alike t z M) r _ _ o A _).
        + intros a b Hab Na Hb. apply Na. apply (alike_trans t a b M); assumption.
        + intros o' A' NN. unfold r. destruct (Zdivide_dec _ _) as [_|N]; [reflexivity|]. exfalso. apply NN. exact N.
        + intros NN. apply NN. exact Y.
      - refine (Xt (fun z => alike t z M) (component l t M f) (class_closed t M) _ o A N).
        intros o' A' Na. unfold component. destruct (Zdivide_dec _ _) as [Y|_]; [contradiction | reflexivity].
    Qed.
    Lemma component_eigenstate M E f : eigenstate (K := CC) l X E f -> (exists o, among l o /\ component l t M f o <> RtoC 0) -> eigenstate (K := CC) l X E (component l t M f).
    Proof.
      intros (Pf & _ & Ef) Nz. split; [apply component_proper, Pf|]. split; [exact Nz|]. intros o A. rewrite component_operator by exact A. unfold component. destruct (Zdivide_dec _ _); [apply Ef, A | cx; cbn; ring].
    Qed.
  End OneLabel.
  (** A state whose energy is not shared is sharp. *)
  Lemma simple_sharp N d E Psi p f e t : spectrum l X N d E Psi -> (forall q, (q < d)%nat -> sharp l t (Psi q)) ->
    (p < d)%nat -> (forall q, (q < d)%nat -> q <> p -> E q <> E p) ->
    particle_state l N f -> eigenstate (K := CC) l X e f -> e = RtoC (E p) -> sharp l t f.
  Proof.
    intros Sp Sh Hp Sm Pf (Pr & _ & Ef) ->.
    assert (Or : forall q, (q < d)%nat -> q <> p -> inner l (Psi q) f = RtoC 0).
    { intros q Hq Nq. destruct (sp_state _ _ _ _ _ _ Sp q Hq) as [_ (Pq & _ & Eq)].
      assert (A1 : inner l (Psi q) (X f) = (RtoC (E p) * inner l (Psi q) f)%C).
      { etransitivity; [apply (inner_ext_among CC l (Psi q) (X f) (fun o => (RtoC (E p) * f o)%C)); intros o A; apply Ef, A|]. exact (inner_scal CC l (Psi q) (RtoC (E p)) f). }
      assert (A2 : inner l (Psi q) (X f) = (RtoC (E q) * inner l (Psi q) f)%C).
      { rewrite (XS (Psi q) f Pq Pr). etransitivity; [apply (inner_ext_l l (X (Psi q)) (fun o => (RtoC (E q) * Psi q o)%C) f); intros o A; apply Eq, A|].
        rewrite inner_scal_l. cring. }
      specialize (Sm q Hq Nq). rewrite A1 in A2. assert (Z : (RtoC (E p - E q) * inner l (Psi q) f)%C = RtoC 0) by (rewrite RtoC_minus; replace ((RtoC (E p) - RtoC (E q)) * inner l (Psi q) f)%C with (RtoC (E p) * inner l (Psi q) f - RtoC (E q) * inner l (Psi q) f)%C by ring; rewrite A2; ring).
      apply Classical_Prop.NNPP. intros C. refine (Cmult_neq_0 _ _ _ C Z). intros C'. apply RtoC_inj in C'. lra. }
    destruct (Sh p Hp) as [M HM]. exists M. intros o A Nz. apply HM; [exact A|]. intros Z. apply Nz. rewrite (sp_complete _ _ _ _ _ _ Sp f Pf o A).
    apply csum_zero. intros q Hq. destruct (Nat.eq_dec q p) as [->|Nq]; [rewrite Z | rewrite Or by assumption]; cring.
  Qed.
End Operator.

(** ** The Hamiltonians of systems *)
Lemma double_keeps1 l t h : keeps1 l t h -> keeps1 (2 * l) (of_orbital t) (dbl1 (K := CC) h).
Proof.
  intros Kh P Q HP HQ. unfold dbl1. destruct (same_parity P Q); [|intros C; exfalso; apply C; reflexivity]. intros Nz. exact (Kh (P / 2)%nat (Q / 2)%nat ltac:(apply Nat.div_lt_upper_bound; lia) ltac:(apply Nat.div_lt_upper_bound; lia) Nz).
Qed.
Lemma double_keeps2 l t u : keeps2 l t u -> keeps2 (2 * l) (of_orbital t) (dbl2 (K := CC) u).
Proof.
  intros Ku P Q R S HP HQ HR HS. unfold dbl2. destruct (same_parity P R && same_parity Q S); [|intros C; exfalso; apply C; reflexivity]. intros Nz.
  refine (Ku (P / 2)%nat (Q / 2)%nat (R / 2)%nat (S / 2)%nat _ _ _ _ Nz); apply Nat.div_lt_upper_bound; lia.
Qed.
Lemma spin_parity P Q : same_parity P Q = true -> charge spin_label P = charge spin_label Q.
Proof. unfold same_parity. cbn. intros H. apply eqb_prop in H. rewrite H. reflexivity. Qed.
Lemma spin_keeps1 n h : keeps1 n spin_label (dbl1 (K := CC) h).
Proof.
  intros P Q _ _. unfold dbl1. destruct (same_parity P Q) eqn:E; [|intros C; exfalso; apply C; reflexivity]. intros _. rewrite (spin_parity P Q E). apply alike_refl.
Qed.
Lemma spin_keeps2 n u : keeps2 n spin_label (dbl2 (K := CC) u).
Proof.
  intros P Q R S _ _ _ _. unfold dbl2. destruct (same_parity P R) eqn:E1; [|intros C; exfalso; apply C; reflexivity]. destruct (same_parity Q S) eqn:E2; [|intros C; exfalso; apply C; reflexivity].
  intros _. rewrite (spin_parity P R E1), (spin_parity Q S E2). apply alike_refl.
Qed.
Lemma many_conserves k l h u ts : kept l h u ts -> forall t, In t (labels k ts) -> conserves (spin_orbitals k l) t (many_body k l h u).
Proof.
  intros Kt t Ht P f HP Hf. destruct k; cbn [labels spin_orbitals many_body] in *.
  - destruct (Kt t Ht). apply held_hamiltonian; assumption.
  - destruct Ht as [<-|Ht].
    + apply held_hamiltonian; [exact HP | apply spin_keeps1 | apply spin_keeps2 | exact Hf].
    + apply in_map_iff in Ht. destruct Ht as (t' & <- & Ht). destruct (Kt t' Ht). apply held_hamiltonian; [exact HP | apply double_keeps1; assumption | apply double_keeps2; assumption | exact Hf].
Qed.
Lemma many_sharp k l h u ts : hermitian (K := CC) l h -> hermitian2 (K := CC) l u -> kept l h u ts ->
  forall N, let n := spin_orbitals k l in let X := many_body k l h u in
  (exists E Psi, spectrum n X N (choose n N) E Psi /\ forall p, (p < choose n N)%nat -> forall t, In t (labels k ts) -> sharp n t (Psi p)) /\
  (forall d E Psi p f e, spectrum n X N d E Psi -> (p < d)%nat -> (forall q, (q < d)%nat -> q <> p -> E q <> E p) ->
     particle_state n N f -> eigenstate (K := CC) n X e f -> e = RtoC (E p) -> forall t, In t (labels k ts) -> sharp n t f) /\
  (forall t M E f, In t (labels k ts) -> eigenstate (K := CC) n X E f -> (exists o, among n o /\ component n t M f o <> RtoC 0) -> eigenstate (K := CC) n X E (component n t M f)).
Proof.
  intros Hh Hu Kt N n X. assert (XL : linear CC X) by apply many_linear. assert (XS : symmetric_operator n X) by (apply many_body_symmetric; assumption).
  assert (XT : forall t, In t (labels k ts) -> conserves n t X) by (apply many_conserves, Kt).
  assert (XP : forall f, particle_state n N f -> particle_state n N (X f)) by (intros f Hf; unfold X; destruct k; apply hamiltonian_particles, Hf).
  destruct (sharp_spectrum n X (labels k ts) XL XS XT N XP) as (E & Psi & Sp & Sh). rewrite codes_length in Sp, Sh. split; [|split].
  - exists E, Psi. split; assumption.
  - intros d E' Psi' p f e Sp' Hp Sm Pf Ef He t Ht. destruct (energies_unique k l h u Hh Hu N _ _ _ _ _ _ Sp Sp') as [Ed Ee]. fold n in Ed. subst d.
    apply (simple_sharp n X XS N (choose n N) E Psi p f e t Sp (fun q Hq => Sh q Hq t Ht) Hp); try assumption.
    + intros q Hq Nq. rewrite !Ee by assumption. apply Sm; assumption.
    + rewrite Ee by exact Hp. exact He.
  - intros t M E' f Ht. apply (component_eigenstate n X XL t (XT t Ht)).
Qed.
(** Time *)
Lemma weight_kept n (H : R -> state -> state) psi t M : (forall x, symmetric_operator n (H x)) -> (forall x, linear CC (H x)) -> (forall x, conserves n t (H x)) -> evolution n H psi ->
  evolution n H (fun x => component n t M (psi x)) /\
  (forall a b, inner n (component n t M (psi a)) (component n t M (psi a)) = inner n (component n t M (psi b)) (component n t M (psi b))) /\
  (forall a b, sharp n t (psi a) -> sharp n t (psi b)).
Proof.
  intros Sy L Kt E.
  assert (G : forall Q, evolution n H (fun x => component n t Q (psi x))).
  { intros Q. split; [intros x; apply component_proper, E|]. intros x o A. rewrite (component_operator n (H x) (L x) t (Kt x) Q (psi x) o A).
    unfold component. destruct (Zdivide_dec _ _); [apply E, A|]. replace (- Ci * RtoC 0)%C with (RtoC 0) by ring. apply d_const. }
  split; [apply G|]. split; [apply (overlap_kept n H _ _ Sy); apply G|].
  intros a b [Q HQ]. exists Q. intros o A Nz.
  assert (D : evolution n H (fun x o => (RtoC 1 * psi x o + - RtoC 1 * component n t Q (psi x) o)%C)) by (apply evolution_combination; [exact L | exact E | apply G]).
  assert (Z : (RtoC 1 * psi b o + - RtoC 1 * component n t Q (psi b) o)%C = RtoC 0).
  { pose proof (evolution_zero n H _ a Sy D) as W. cbv beta in W. apply W; [|exact A]. intros o' A'. unfold component. destruct (Zdivide_dec _ _) as [_|No]; [apply minus_self|].
    destruct (Classical_Prop.classic (psi a o' = RtoC 0)) as [Z|Z]; [rewrite Z; apply minus_self|]. exfalso. apply No. apply HQ; assumption. }
  apply minus_zero in Z. unfold component in Z. destruct (Zdivide_dec _ _) as [Y|_]; [exact Y | contradiction].
Qed.
Lemma many_weight k l (h : R -> nat -> nat -> C) (u : R -> nat -> nat -> nat -> nat -> C) ts psi t M :
  (forall x, hermitian (K := CC) l (h x)) -> (forall x, hermitian2 (K := CC) l (u x)) -> (forall x, kept l (h x) (u x) ts) -> In t (labels k ts) ->
  let n := spin_orbitals k l in evolution n (fun x => many_body k l (h x) (u x)) psi ->
  (forall a b, inner n (component n t M (psi a)) (component n t M (psi a)) = inner n (component n t M (psi b)) (component n t M (psi b))) /\
  (forall a b, sharp n t (psi a) -> sharp n t (psi b)).
Proof.
  intros Hh Hu Kt Ht n E. apply (weight_kept n (fun x => many_body k l (h x) (u x)) psi t M); [| | |exact E].
  - intros x. apply many_body_symmetric; [apply Hh | apply Hu].
  - intros x. apply many_linear.
  - intros x. exact (many_conserves k l (h x) (u x) ts (Kt x) t Ht).
Qed.
