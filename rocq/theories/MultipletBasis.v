(** Common eigenstates of two operators. *)
From Coq Require Import List Arith ZArith Znumtheory Reals Lra Lia Bool.
From Coquelicot Require Import Coquelicot.
From Verif Require Import Scalar ScalarC Spec OneDimSpec OneDimProofs DotProofs GridSpec GridProofs PositiveForms SpectralSpec SpectralProofs SpinProofs.
From Verif Require Import FockSpec FockProofs FockSystem InnerSpec InnerProofs RaiseSpec RaiseProofs RaiseFock RaiseTheorems FockSpectrumSpec FockSpectrum GroundTheorems Systems SharpSpec SharpProofs SharpTheorems EvolutionProofs MultipletSpec MultipletProofs MultipletLadder.
Import ListNotations.
Open Scope R_scope.
Local Notation S_ := (sumn (K := CC)).
Local Notation state := (FockSpec.state CC).
Local Notation inner := (InnerSpec.inner (K := CC)).

(** ** S^2 keeps the labels *)
Section Labels.
  Variable l : nat.
  Notation n := (2 * l)%nat.
  Notation so := (spin_op l).
  Notation up := MultipletProofs.up.
  Notation down := MultipletProofs.down.
  Notation zed := MultipletProofs.zed.
  Lemma squared_half f o : S_squared l f o = (RtoC (1 / 2) * so up (so down f) o + RtoC (1 / 2) * so down (so up f) o + so zed (so zed f) o)%C.
  Proof.
    unfold S_squared. rewrite x_so, y_so.
    rewrite !(lin_ext CC _ (so_linear l _) (S_x l f) _ (x_so l f) o), !(lin_ext CC _ (so_linear l _) (S_y l f) _ (y_so l f) o), !so_lin.
    change (S_z l (S_z l f) o) with (so zed (so zed f) o).
    set (a := so up (so up f) o). set (b := so down (so up f) o). set (c := so up (so down f) o). set (d := so down (so down f) o). set (e := so zed (so zed f) o).
    clearbody a b c d e. unfold Ci. destruct a, b, c, d, e. unfold Cplus, Cmult, Copp, RtoC. cbn [fst snd]. apply injective_projections; cbn [fst snd]; field.
  Qed.
  Lemma orbital_so t m P f : closed_class (of_orbital t) P -> held n (of_orbital t) P f -> held n (of_orbital t) P (so m f).
  Proof.
    intros HP Hf. apply held_one; [exact HP | | exact Hf]. intros p q _ _. destruct (Nat.eqb_spec (p / 2) (q / 2)) as [E|_]; [|intros C; exfalso; apply C; reflexivity].
    intros _. cbn [charge of_orbital]. rewrite E. apply alike_refl.
  Qed.
  Lemma shift_so (z : Z) m P f : (forall i j, (i < 2)%nat -> (j < 2)%nat -> m i j <> RtoC 0 -> (Z.of_nat j - Z.of_nat i = z)%Z) ->
    held n spin_label P f -> held n spin_label (fun x => P (x - 2 * z)%Z) (so m f).
  Proof.
    intros Hm Hf o A Ne. unfold spin_op, one_body. apply csum_zero. intros p Hp. apply csum_zero. intros q Hq.
    destruct (Nat.eqb_spec (p / 2) (q / 2)) as [E|_]; [|apply injective_projections; cbn; ring].
    destruct (Classical_Prop.classic (m (p mod 2)%nat (q mod 2)%nat = RtoC 0)) as [Z0|Nz]; [rewrite Z0; apply injective_projections; cbn; ring|].
    assert (B1 := Nat.mod_upper_bound p 2 ltac:(lia)). assert (B2 := Nat.mod_upper_bound q 2 ltac:(lia)).
    assert (Z0 : create p (annihilate q f) o = RtoC 0); [|rewrite Z0; apply injective_projections; cbn; ring].
    refine (held_create n spin_label _ p _ Hp (held_annihilate n spin_label P q f Hq Hf) o A _).
    intros Y. apply Ne. cbv beta in Y. replace (total_charge n (charge spin_label) o - 2 * z)%Z with (total_charge n (charge spin_label) o - charge spin_label p + charge spin_label q)%Z; [exact Y|].
    rewrite <- (Hm _ _ B1 B2 Nz). cbn [charge spin_label]. rewrite !mod2_even_nat. destruct (p mod 2)%nat as [|[|k]], (q mod 2)%nat as [|[|k']]; cbn [Nat.eqb]; lia.
  Qed.
  Lemma squared_spin P f : held n spin_label P f -> held n spin_label P (S_squared l f).
  Proof.
    intros Hf o A Ne. rewrite squared_half.
    assert (Hu : forall Q g, held n spin_label Q g -> held n spin_label (fun x => Q (x - 2 * 1)%Z) (so up g)).
    { intros Q g. apply (shift_so 1). intros i j Hi Hj. destruct i as [|[|i]]; [| |lia]; (destruct j as [|[|j]]; [| |lia]); intros N; first [reflexivity | exfalso; apply N; cbn; apply injective_projections; cbn; ring]. }
    assert (Hd : forall Q g, held n spin_label Q g -> held n spin_label (fun x => Q (x - 2 * -1)%Z) (so down g)).
    { intros Q g. apply (shift_so (-1)). intros i j Hi Hj. destruct i as [|[|i]]; [| |lia]; (destruct j as [|[|j]]; [| |lia]); intros N; first [reflexivity | exfalso; apply N; cbn; apply injective_projections; cbn; ring]. }
    assert (Hz : forall Q g, held n spin_label Q g -> held n spin_label (fun x => Q (x - 2 * 0)%Z) (so zed g)).
    { intros Q g. apply (shift_so 0). intros i j Hi Hj. destruct i as [|[|i]]; [| |lia]; (destruct j as [|[|j]]; [| |lia]); intros N; first [reflexivity | exfalso; apply N; cbn; apply injective_projections; cbn; ring]. }
    rewrite (Hu _ _ (Hd _ _ Hf) o A), (Hd _ _ (Hu _ _ Hf) o A), (Hz _ _ (Hz _ _ Hf) o A); [apply injective_projections; cbn; ring | | |].
    all: cbv beta; intros Y; apply Ne; revert Y; match goal with |- ?Q ?a -> ?Q ?b => replace a with b by lia end; exact (fun y => y).
  Qed.
  Lemma squared_conserves ts t : In t (labels Spatial ts) -> conserves n t (S_squared l).
  Proof.
    intros Ht P f HP Hf. cbn [labels] in Ht. destruct Ht as [<-|Ht]; [apply squared_spin, Hf|]. apply in_map_iff in Ht. destruct Ht as (t' & <- & _).
    intros o A Ne. unfold S_squared, S_x, S_y, S_z. rewrite !(orbital_so t' _ P _ HP (orbital_so t' _ P f HP Hf) o A Ne). apply injective_projections; cbn; ring.
  Qed.
End Labels.

(** ** A spectrum of X among the eigenstates of Y *)
Lemma label_values (l d : nat) (Phi : nat -> state) (ts : list label) : (forall i, (i < d)%nat -> forall t, In t ts -> sharp l t (Phi i)) ->
  exists gs : list (label * (nat -> Z)), map fst gs = ts /\
    List.Forall (fun tg => forall i, (i < d)%nat -> forall o, among l o -> Phi i o <> RtoC 0 -> alike (fst tg) (total_charge l (charge (fst tg)) o) (snd tg i)) gs.
Proof.
  induction ts as [|t ts IH]; intros H; [exists []; split; [reflexivity | constructor]|].
  destruct IH as (gs & E & F); [intros i Hi t' Ht; apply H; [exact Hi | right; exact Ht]|].
  assert (G : exists g : nat -> Z, forall i, (i < d)%nat -> forall o, among l o -> Phi i o <> RtoC 0 -> alike t (total_charge l (charge t) o) (g i)).
  { clear - H. assert (H' : forall i, (i < d)%nat -> sharp l t (Phi i)) by (intros i Hi; apply H; [exact Hi | left; reflexivity]). clear H.
    induction d as [|k IH]; [exists (fun _ => 0%Z); intros i Hi; lia|]. destruct IH as [g Hg]; [intros i Hi; apply H'; lia|]. destruct (H' k ltac:(lia)) as [M HM].
    exists (fun i => if (i =? k)%nat then M else g i). intros i Hi o A Nz. destruct (Nat.eqb_spec i k) as [->|Ne]; [apply HM; assumption | apply Hg; [lia | exact A | exact Nz]]. }
  destruct G as [g Hg]. exists ((t, g) :: gs). split; [cbn; rewrite E; reflexivity|]. constructor; [exact Hg | exact F].
Qed.
Section Joint.
  Variables (l N d : nat) (X Y : state -> state) (b : nat -> R) (Phi : nat -> state) (ts : list label).
  Hypothesis XL : linear CC X.
  Hypothesis YL : linear CC Y.
  Hypothesis XS : symmetric_operator l X.
  Hypothesis YS : symmetric_operator l Y.
  Hypothesis XP : forall f, particle_state l N f -> particle_state l N (X f).
  Hypothesis XA : forall f g, (forall o, among l o -> f o = g o) -> forall o, among l o -> X f o = X g o.
  Hypothesis XY : forall f, proper f -> forall o, Y (X f) o = X (Y f) o.
  Hypothesis XT : forall t, In t ts -> conserves l t X.
  Hypothesis Sp : spectrum l Y N d b Phi.
  Hypothesis Sh : forall i, (i < d)%nat -> forall t, In t ts -> sharp l t (Phi i).
  Definition jmat (i j : nat) : C := inner l (Phi i) (X (Phi j)).
  Lemma phi_state i : (i < d)%nat -> particle_state l N (Phi i).
  Proof. intros Hi. apply (sp_state _ _ _ _ _ _ Sp i Hi). Qed.
  Lemma jmat_hermitian : hermitian (K := CC) d jmat.
  Proof.
    intros i j Hi Hj. unfold jmat. rewrite (XS (Phi i) (Phi j)) by (apply phi_state; assumption). symmetry. apply (inner_conj CC).
  Qed.
  Lemma jmat_value i j : (i < d)%nat -> (j < d)%nat -> b i <> b j -> jmat i j = RtoC 0.
  Proof.
    intros Hi Hj Ne. destruct (phi_state i Hi) as [Pi _], (phi_state j Hj) as [Pj _]. pose proof (coefficient l N d Y b Phi YS Sp (X (Phi j)) i (proj1 (XP _ (phi_state j Hj))) Hi) as Q.
    rewrite (inner_ext_among CC l (Phi i) (Y (X (Phi j))) (fun o => (RtoC (b j) * X (Phi j) o)%C)) in Q.
    2:{ intros o A. rewrite XY by exact Pj. rewrite (XA (Y (Phi j)) (fun o => (RtoC (b j) * Phi j o)%C)); [apply (lin_scal CC _ XL) | apply (sp_state _ _ _ _ _ _ Sp j Hj) | exact A]. }
    pose proof (inner_scal CC l (Phi i) (RtoC (b j)) (X (Phi j))) as Q'. cbn [smul CC] in Q'. rewrite Q' in Q. fold (jmat i j) in Q.
    assert (Z : (RtoC (b j - b i) * jmat i j)%C = RtoC 0) by (rewrite RtoC_minus; replace ((RtoC (b j) - RtoC (b i)) * jmat i j)%C with (RtoC (b j) * jmat i j - RtoC (b i) * jmat i j)%C by cring; rewrite Q; cring).
    apply Classical_Prop.NNPP. intros C. refine (Cmult_neq_0 _ _ _ C Z). intros C'. apply RtoC_inj in C'. apply Ne. lra.
  Qed.
  Lemma inner_apart (f g : state) : (forall o, among l o -> f o = RtoC 0 \/ g o = RtoC 0) -> inner l f g = RtoC 0.
  Proof. intros H. unfold InnerSpec.inner. etransitivity; [|apply (total_zero CC l)]. apply (total_ext CC l). intros o Ho. destruct (H o) as [Z|Z]; [intros p Hp; apply (Ho p Hp) | |]; rewrite Z; apply injective_projections; cbn; ring. Qed.
  Definition mix (v : nat -> C) : state := fun o => S_ d (fun j => (v j * Phi j o)%C).
  Lemma mix_particles v : particle_state l N (mix v).
  Proof.
    split.
    - intros o o' E. apply csum_ext. intros j Hj. rewrite (proj1 (phi_state j Hj) o o' E). reflexivity.
    - intros o A Ne. apply csum_zero. intros j Hj. rewrite (proj2 (phi_state j Hj) o A Ne). apply injective_projections; cbn; ring.
  Qed.
  Lemma mix_inner v g : inner l (mix v) g = S_ d (fun j => (Cconj (v j) * inner l (Phi j) g)%C).
  Proof.
    rewrite <- (inner_conj CC). etransitivity; [apply (f_equal Cconj); exact (inner_sum CC l g d (fun p o => (v p * Phi p o)%C))|]. etransitivity; [exact (csum_conj d _)|]. apply csum_ext. intros p _.
    pose proof (inner_scal CC l g (v p) (Phi p)) as Q. etransitivity; [apply (f_equal Cconj); exact Q|]. cbn [smul CC]. rewrite C_conj_mul. f_equal. exact (inner_conj CC l g (Phi p)).
  Qed.
  Lemma phi_mix i v : (i < d)%nat -> inner l (Phi i) (mix v) = v i.
  Proof.
    intros Hi. rewrite <- (inner_conj CC). etransitivity; [apply (f_equal Cconj), mix_inner|]. etransitivity; [apply csum_conj|]. rewrite (csum_pick d i); [|exact Hi|].
    - rewrite (sp_orthonormal _ _ _ _ _ _ Sp i i Hi Hi). unfold kronecker. rewrite Nat.eqb_refl. cring.
    - intros j Hj Ne. rewrite (sp_orthonormal _ _ _ _ _ _ Sp j i Hj Hi). unfold kronecker. destruct (Nat.eqb_spec j i); [congruence|]. cring.
  Qed.
  Lemma mix_lin (Z : state -> state) v o : linear CC Z -> Z (mix v) o = S_ d (fun j => (v j * Z (Phi j) o)%C).
  Proof.
    intros L. unfold mix. rewrite (lin_sum CC Z L d (fun j o => (v j * Phi j o)%C) o). apply csum_ext. intros j _. exact (lin_scal CC Z L (v j) (Phi j) o).
  Qed.
  Lemma mix_X v o : among l o -> X (mix v) o = mix (fun i => S_ d (fun j => (jmat i j * v j)%C)) o.
  Proof.
    intros A. rewrite mix_lin by exact XL. unfold mix. transitivity (S_ d (fun j => S_ d (fun i => (jmat i j * v j * Phi i o)%C))).
    - apply csum_ext. intros j Hj. rewrite (sp_complete _ _ _ _ _ _ Sp (X (Phi j)) (XP _ (phi_state j Hj)) o A). rewrite csum_scal. apply csum_ext. intros i _. unfold jmat. cring.
    - rewrite (sumn_swap CC). apply csum_ext. intros i _. rewrite Cmult_comm, csum_scal. apply csum_ext. intros j _. cring.
  Qed.
  Lemma joint_spectrum : exists E Psi, spectrum l X N d E Psi /\
    forall p, (p < d)%nat -> (exists B, forall o, among l o -> Y (Psi p) o = (RtoC B * Psi p o)%C) /\ forall t, In t ts -> sharp l t (Psi p).
  Proof.
    destruct (label_values l d Phi ts Sh) as (gs & Eg & Fg). rewrite List.Forall_forall in Fg.
    destruct (class_eigensystem d jmat (fun i j => b i = b j /\ List.Forall (fun tg => alike (fst tg) (snd tg i) (snd tg j)) gs)) as (E & v & Ev & Wv).
    - intros i j. destruct (Req_EM_T (b i) (b j)) as [e|e]; [|right; intros [C _]; contradiction].
      destruct (List.Forall_dec (fun tg : label * (nat -> Z) => alike (fst tg) (snd tg i) (snd tg j)) (fun tg => alike_dec (fst tg) (snd tg i) (snd tg j)) gs) as [f|f]; [left; split; assumption | right; intros [_ C]; contradiction].
    - intros i. split; [reflexivity|]. apply List.Forall_forall. intros tg _. apply alike_refl.
    - intros i j [e H]. split; [symmetry; exact e|]. rewrite List.Forall_forall in *. intros tg Ht. apply alike_sym, H, Ht.
    - intros i j k [e H] [e' H']. split; [congruence|]. rewrite List.Forall_forall in *. intros tg Ht. apply (alike_trans (fst tg) _ (snd tg j)); [apply H, Ht | apply H', Ht].
    - exact jmat_hermitian.
    - intros i j Hi Hj No. destruct (Req_EM_T (b i) (b j)) as [e|e]; [|apply jmat_value; assumption].
      apply Classical_Prop.NNPP. intros Nz. apply No. split; [exact e|]. apply List.Forall_forall. intros tg Ht. apply Classical_Prop.NNPP. intros Na. apply Nz. unfold jmat. apply inner_apart. intros o A.
      assert (In (fst tg) ts) as It by (rewrite <- Eg; apply in_map, Ht).
      destruct (Classical_Prop.classic (alike (fst tg) (total_charge l (charge (fst tg)) o) (snd tg j))) as [Al|Nl].
      + left. apply Classical_Prop.NNPP. intros C. apply Na. apply (alike_trans (fst tg) _ (total_charge l (charge (fst tg)) o)); [apply alike_sym, (Fg tg Ht i Hi o A C) | exact Al].
      + right. refine (XT (fst tg) It _ _ (class_closed (fst tg) (snd tg j)) _ o A Nl). intros o' A' N'. apply Classical_Prop.NNPP. intros C. apply N', (Fg tg Ht j Hj o' A' C).
    - destruct Ev as [O Eq As]. exists E, (fun p => mix (fun i => v i p)).
      assert (Orth : forall p q, (p < d)%nat -> (q < d)%nat -> inner l (mix (fun i => v i p)) (mix (fun i => v i q)) = kronecker p q).
      { intros p q Hp Hq. rewrite mix_inner, <- (O p q Hp Hq). apply csum_ext. intros i Hi. rewrite phi_mix by exact Hi. reflexivity. }
      assert (Some_ : forall p, (p < d)%nat -> exists i, (i < d)%nat /\ v i p <> RtoC 0).
      { intros p Hp. apply Classical_Prop.NNPP. intros No. pose proof (O p p Hp Hp) as Z. rewrite csum_zero in Z; [unfold kronecker in Z; rewrite Nat.eqb_refl in Z; apply RtoC_inj in Z; lra|].
        intros i Hi. replace (v i p) with (RtoC 0); [cring|]. symmetry. apply Classical_Prop.NNPP. intros Nz. apply No. exists i. split; assumption. }
      split; [split|].
      + intros p Hp. split; [apply mix_particles|]. split; [apply mix_particles|]. split.
        * apply Classical_Prop.NNPP. intros No. pose proof (Orth p p Hp Hp) as Z. rewrite inner_apart in Z; [unfold kronecker in Z; rewrite Nat.eqb_refl in Z; apply RtoC_inj in Z; lra|].
          intros o A. left. apply Classical_Prop.NNPP. intros C. apply No. exists o. split; assumption.
        * intros o A. rewrite mix_X by exact A. unfold mix. rewrite csum_scal. apply csum_ext. intros i Hi. rewrite (Eq i p Hi Hp). cring.
      + exact Orth.
      + exact As.
      + intros f Hf o A. rewrite (sp_complete _ _ _ _ _ _ Sp f Hf o A).
        transitivity (S_ d (fun i => S_ d (fun j => S_ d (fun p => (inner l (Phi j) f * Phi i o * (v i p * Cconj (v j p)))%C)))).
        * apply csum_ext. intros i Hi. rewrite (csum_pick d i); [|exact Hi|].
          -- rewrite <- csum_scal. rewrite (family_complete d false (fun p j => v j p) i i); [unfold kronecker; rewrite Nat.eqb_refl; cring | | exact Hi | exact Hi]. split; [discriminate | exact O].
          -- intros j Hj Ne. rewrite <- csum_scal. rewrite (family_complete d false (fun p j => v j p) i j); [unfold kronecker; destruct (Nat.eqb_spec i j); [congruence|]; cring | | exact Hi | exact Hj]. split; [discriminate | exact O].
        * symmetry. transitivity (S_ d (fun p => S_ d (fun i => S_ d (fun j => (inner l (Phi j) f * Phi i o * (v i p * Cconj (v j p)))%C)))).
          -- apply csum_ext. intros p _. rewrite mix_inner. unfold mix. rewrite csum_scal. apply csum_ext. intros i _. rewrite Cmult_comm, csum_scal. apply csum_ext. intros j _. cring.
          -- rewrite (sumn_swap CC). apply csum_ext. intros i _. apply (sumn_swap CC).
      + intros p Hp. destruct (Some_ p Hp) as (i & Hi & Ni). split.
        * exists (b i). intros o A. rewrite mix_lin by exact YL. unfold mix. rewrite csum_scal. apply csum_ext. intros j Hj.
          destruct (Classical_Prop.classic (v j p = RtoC 0)) as [Z|Z]; [rewrite Z; cring|]. destruct (Wv p Hp i j Hi Hj Ni Z) as [e _]. rewrite e.
          destruct (sp_state _ _ _ _ _ _ Sp j Hj) as (_ & _ & _ & Ej). rewrite (Ej o A). cbn [smul CC]. cring.
        * intros t Ht. rewrite <- Eg in Ht. apply in_map_iff in Ht. destruct Ht as (tg & <- & Ht). exists (snd tg i). intros o A Nz.
          assert (exists j, (j < d)%nat /\ v j p <> RtoC 0 /\ Phi j o <> RtoC 0) as (j & Hj & Nj & Nj').
          { apply Classical_Prop.NNPP. intros No. apply Nz. apply csum_zero. intros j Hj. destruct (Classical_Prop.classic (v j p = RtoC 0)) as [Z|Z]; [rewrite Z; cring|].
            destruct (Classical_Prop.classic (Phi j o = RtoC 0)) as [Z'|Z']; [rewrite Z'; cring|]. exfalso. apply No. exists j. split; [exact Hj|]. split; assumption. }
          apply (alike_trans (fst tg) _ (snd tg j)); [exact (Fg tg Ht j Hj o A Nj')|]. destruct (Wv p Hp j i Hj Hi Nj Ni) as [_ F]. rewrite List.Forall_forall in F. apply F, Ht.
  Qed.
End Joint.
