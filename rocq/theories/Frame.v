(** Which attributes a program can change, whatever its outcome. *)
From Coq Require Import List Arith ZArith Lia Bool.
From Verif Require Import Scalar Py Numpy BasisSet BasisSpec BasisFacts ConvProofs.
Import ListNotations.

Section Frame.
  Variable K : scalar.
  Notation arr := (arr K).
  Notation basis := (basis K).
  Implicit Types (b : basis) (C D : arr).

  Definition frame {A} (fs : list field) (m : M basis A) : Prop := forall b, same_but K fs b (snd (m b)).
  Lemma same_but_refl fs b : same_but K fs b b.
  Proof. repeat split. Qed.
  Lemma same_but_trans fs b1 b2 b3 : same_but K fs b1 b2 -> same_but K fs b2 b3 -> same_but K fs b1 b3.
  Proof.
    intros (A1&A2&A3&A4&A5&A6&A7&A8) (B1&B2&B3&B4&B5&B6&B7&B8).
    repeat split; try congruence. intros f Hf. rewrite B8, A8 by exact Hf. reflexivity.
  Qed.
  Lemma frame_same {A} fs (m : M basis A) : (forall b, snd (m b) = b) -> frame fs m.
  Proof. intros H b. rewrite H. apply same_but_refl. Qed.
  Lemma frame_bind {A B} fs (m : M basis A) (k : A -> M basis B) :
    frame fs m -> (forall x, frame fs (k x)) -> frame fs (bind m k).
  Proof.
    intros Hm Hk b. unfold bind. pose proof (Hm b) as H1. destruct (m b) as [[x|e] b1]; [|exact H1].
    cbn in H1. eapply same_but_trans; [exact H1 | apply Hk].
  Qed.
  Lemma frame_for {A} fs (xs : list A) body : (forall x, frame fs (body x)) -> frame fs (for_each xs body).
  Proof. intros H. induction xs; cbn; [apply frame_same; reflexivity | apply frame_bind; auto]. Qed.
  Lemma frame_wr fs f x : In f fs -> frame fs (wr f x).
  Proof. intros Hf b. repeat split. intros g Hg. cbn. apply upd_other. congruence. Qed.
  Lemma frame_lift {A} fs (x : res A) : frame fs (lift x).
  Proof. apply frame_same. reflexivity. Qed.
  Lemma frame_ret {A} fs (x : A) : frame fs (ret x).
  Proof. apply frame_same. reflexivity. Qed.
  Lemma frame_raise {A} fs e : frame fs (@raise _ A e).
  Proof. apply frame_same. reflexivity. Qed.
  Lemma frame_get fs : frame fs get_st.
  Proof. apply frame_same. reflexivity. Qed.
  Lemma frame_rd fs f : frame fs (rd f).
  Proof. apply frame_same. reflexivity. Qed.
  Lemma frame_need fs e x : frame fs (need e x).
  Proof. destruct x; apply frame_same; reflexivity. Qed.
  Lemma frame_need_np fs : frame fs need_np.
  Proof. apply frame_same. intros b. unfold need_np. destruct (b_np b); reflexivity. Qed.
  Lemma frame_assert fs c : frame fs (py_assert c).
  Proof. apply frame_same. intros b. destruct c; reflexivity. Qed.
  Lemma frame_when fs c m : frame fs m -> frame fs (when c m).
  Proof. intros H. destruct c; [exact H | apply frame_ret]. Qed.
  Lemma frame_match {A} fs (x : option arr) (f : arr -> M basis A) (g : M basis A) :
    (forall a, frame fs (f a)) -> frame fs g -> frame fs (match x with Some a => f a | None => g end).
  Proof. destruct x; auto. Qed.
  Lemma frame_if {A} fs (c : bool) (f g : M basis A) : frame fs f -> frame fs g -> frame fs (if c then f else g).
  Proof. destruct c; auto. Qed.
End Frame.

Ltac frame_step := first
  [ apply frame_lift | apply frame_ret | apply frame_raise | apply frame_get | apply frame_rd | apply frame_need
  | apply frame_need_np | apply frame_assert | apply frame_wr; cbn; tauto
  | apply frame_bind; [|intros ?] | apply frame_for; intros ? | apply frame_match; [intros ?|] | apply frame_when
  | apply frame_if ].

Section Frames.
  Variable K : scalar.
  Notation arr := (arr K).
  Notation basis := (basis K).
  Implicit Types (b : basis) (C D : arr).
  Notation frame := (frame K).
  Lemma frame_set_sq fs f a : In f fs -> frame fs (set_sq f a).
  Proof. intros Hf. unfold set_sq. repeat frame_step. Qed.
  Lemma frame_set_spin_op fs f a : In f fs -> frame fs (set_spin_op f a).
  Proof. intros Hf. unfold set_spin_op. repeat frame_step. Qed.
  Lemma frame_set_sigma fs f a : In f fs -> frame fs (set_sigma f a).
  Proof. intros Hf. unfold set_sigma. repeat frame_step. Qed.
  Lemma frame_set_dipole fs a : In F_dip fs -> frame fs (set_dipole a).
  Proof. intros Hf. unfold set_dipole. repeat frame_step. Qed.
  Lemma frame_set_orbitals fs f x : In f fs -> frame fs (set_orbitals f x).
  Proof. intros Hf. unfold set_orbitals. destruct x; repeat frame_step. Qed.
  Lemma frame_get_bra fs : In F_bra fs -> frame fs get_bra.
  Proof.
    intros Hf. unfold get_bra. frame_step; [frame_step|]. frame_step; [frame_step|]. destruct x, x0; repeat frame_step.
  Qed.
  Lemma frame_antisym_part fs c u : In F_u fs -> In F_sp2tb fs ->
    frame fs (let* u' := lift (anti_symmetrize_u (K:=K) c u) in
      set_sq F_u u' ;;
      let* t := rd F_sp2tb in
      (match t with
       | None => ret tt
       | Some t => let* t' := lift (anti_symmetrize_u c t) in set_spin_op F_sp2tb t'
       end)).
  Proof.
    intros H1 H2. frame_step; [frame_step|]. frame_step; [apply frame_set_sq; exact H1|]. frame_step; [frame_step|].
    destruct x1; repeat frame_step.
  Qed.
  Lemma frame_one_body C D : frame [F_h; F_s] (change_basis_one_body C D).
  Proof.
    unfold change_basis_one_body.
    repeat first [apply frame_set_sq; cbn; tauto | frame_step].
  Qed.
  Lemma frame_two_body C D : frame [F_u; F_sp2tb] (change_basis_two_body C D).
  Proof.
    unfold change_basis_two_body.
    repeat first [apply frame_set_sq; cbn; tauto | apply frame_set_spin_op; cbn; tauto | frame_step].
  Qed.
  Lemma frame_dipole d C D : frame [F_dip] (change_basis_dipole d C D).
  Proof. unfold change_basis_dipole. repeat first [apply frame_set_dipole; cbn; tauto | frame_step]. Qed.
  Lemma frame_spf C D : frame [F_bra; F_spf] (change_basis_spf C D).
  Proof.
    unfold change_basis_spf.
    repeat first [apply frame_get_bra; cbn; tauto | apply frame_set_orbitals; cbn; tauto | frame_step].
  Qed.
  Lemma frame_weaken {A} fs gs (m : M basis A) : (forall f, In f fs -> In f gs) -> frame fs m -> frame gs m.
  Proof.
    intros H Hm b. destruct (Hm b) as (A1&A2&A3&A4&A5&A6&A7&A8). repeat split; auto.
  Qed.
  (** change_basis after l has been set *)
  Definition change_fields : list field := [F_h; F_s; F_u; F_sp2tb; F_dip; F_bra; F_spf].
  Definition change_rest C D : M basis unit :=
    change_basis_one_body C D ;;
    change_basis_two_body C D ;;
    let* d := rd F_dip in
    (match d with None => ret tt | Some d => change_basis_dipole d C D end) ;;
    let* spf := rd F_spf in
    (match spf with None => ret tt | Some _ => change_basis_spf C D end).
  Lemma change_basis_split C Ct b : change_basis C Ct b =
    match shape_at C 1 with
    | Ok k => change_rest C (default_tilde C Ct) (set_l k b)
    | Err e => (Err e, b)
    end.
  Proof. unfold change_basis, bind at 1, lift at 1. destruct (shape_at C 1); reflexivity. Qed.
  Lemma frame_change_rest C D : frame change_fields (change_rest C D).
  Proof.
    unfold change_rest. apply frame_bind; [eapply frame_weaken; [|apply frame_one_body]; cbn; tauto|]. intros _.
    apply frame_bind; [eapply frame_weaken; [|apply frame_two_body]; cbn; tauto|]. intros _.
    frame_step; [frame_step|]. apply frame_bind.
    - destruct x; [|frame_step]. eapply frame_weaken; [|apply frame_dipole]; cbn; tauto.
    - intros _. frame_step; [frame_step|]. destruct x0; [|frame_step].
      eapply frame_weaken; [|apply frame_spf]; cbn; tauto.
  Qed.
  Lemma frame_check_ip fs x y c : frame fs (check_ip (K:=K) x y c).
  Proof. unfold check_ip. repeat frame_step. Qed.
  Lemma frame_spin_ops s va vb :
    frame [F_a; F_b; F_sigx; F_sigy; F_sigz; F_spx; F_spy; F_spz; F_sp2; F_sp2tb] (setup_spin_ops (K:=K) s va vb).
  Proof.
    unfold setup_spin_ops. cbv zeta. do 2 (frame_step; [frame_step|]).
    do 3 (frame_step; [apply frame_check_ip|]). frame_step; [frame_step|]. destruct x4 as [[gx gy] gz].
    do 3 (frame_step; [apply frame_set_sigma; cbn; tauto|]).
    do 3 (frame_step; [apply frame_set_spin_op; cbn; tauto|]).
    repeat first [apply frame_set_spin_op; cbn; tauto | frame_step].
  Qed.
End Frames.
Arguments change_rest {K}.

(** Invariants kept by a program whatever its outcome. *)
Section Keeps.
  Variable K : scalar.
  Notation arr := (arr K).
  Notation basis := (basis K).
  Variable I : basis -> Prop.
  Definition keeps {A} (m : M basis A) : Prop := forall b : basis, I b -> I (snd (m b)).
  Lemma keeps_same {A} (m : M basis A) : (forall b, snd (m b) = b) -> keeps m.
  Proof. intros H b Hb. rewrite H. exact Hb. Qed.
  Lemma keeps_bind {A B} (m : M basis A) (k : A -> M basis B) : keeps m -> (forall x, keeps (k x)) -> keeps (bind m k).
  Proof.
    intros Hm Hk b Hb. unfold bind. specialize (Hm b Hb). destruct (m b) as [[x|e] b1]; [|exact Hm]. apply Hk. exact Hm.
  Qed.
  Lemma keeps_for {A} (xs : list A) body : (forall x, keeps (body x)) -> keeps (for_each xs body).
  Proof. intros H. induction xs; cbn; [apply keeps_same; reflexivity | apply keeps_bind; auto]. Qed.
  Lemma keeps_lift {A} (x : res A) : keeps (lift x).
  Proof. apply keeps_same. reflexivity. Qed.
  Lemma keeps_ret {A} (x : A) : keeps (ret x).
  Proof. apply keeps_same. reflexivity. Qed.
  Lemma keeps_raise {A} e : keeps (@raise _ A e).
  Proof. apply keeps_same. reflexivity. Qed.
  Lemma keeps_get : keeps get_st.
  Proof. apply keeps_same. reflexivity. Qed.
  Lemma keeps_rd f : keeps (rd f).
  Proof. apply keeps_same. reflexivity. Qed.
  Lemma keeps_need e (x : option arr) : keeps (need e x).
  Proof. destruct x; apply keeps_same; reflexivity. Qed.
  Lemma keeps_need_np : keeps need_np.
  Proof. apply keeps_same. intros b. unfold need_np. destruct (b_np b); reflexivity. Qed.
  Lemma keeps_assert c : keeps (py_assert c).
  Proof. apply keeps_same. intros b. destruct c; reflexivity. Qed.
  Lemma keeps_when c m : keeps m -> keeps (when c m).
  Proof. intros H. destruct c; [exact H | apply keeps_ret]. Qed.
  Lemma keeps_match {A} (x : option arr) (f : arr -> M basis A) (g : M basis A) :
    (forall a, keeps (f a)) -> keeps g -> keeps (match x with Some a => f a | None => g end).
  Proof. destruct x; auto. Qed.
  Lemma keeps_if {A} (c : bool) (f g : M basis A) : keeps f -> keeps g -> keeps (if c then f else g).
  Proof. destruct c; auto. Qed.
  Lemma keeps_frame {A} fs (m : M basis A) : frame K fs m -> (forall b b', same_but K fs b b' -> I b -> I b') -> keeps m.
  Proof. intros Hm H b Hb. eapply H; [apply Hm | exact Hb]. Qed.
End Keeps.
Arguments keeps {K} I {A}.
Ltac keeps_step := first
  [ apply keeps_lift | apply keeps_ret | apply keeps_raise | apply keeps_get | apply keeps_rd | apply keeps_need
  | apply keeps_need_np | apply keeps_assert
  | apply keeps_bind; [|intros ?] | apply keeps_for; intros ? | apply keeps_match; [intros ?|] | apply keeps_when
  | apply keeps_if ].

(** The pieces of change_to_general_orbital_basis and of the remaining
    operations, so that each invariant is checked piece by piece. *)
Section Pieces.
  Variable K : scalar.
  Notation arr := (arr K).
  Notation basis := (basis K).
  Implicit Types (b : basis).

  Definition double_dip : M basis unit :=
    let* d := rd F_dip in
    match d with
    | None => ret tt
    | Some d =>
        let* n := lift (alen d) in
        let* xs := lift (rmap (fun i => let! r := row d i in Ok (add_spin_one_body r)) (seq 0 n)) in
        let* d' := lift (stack xs) in
        set_dipole d'
    end.
  Definition double_orb : M basis unit :=
    let* spf := rd F_spf in
    match spf with
    | None => ret tt
    | Some spf =>
        let* spf' := lift (add_spin_spf spf) in
        set_orbitals F_spf (Some spf') ;;
        let* bra := rd F_bra in
        match bra with
        | None => ret tt
        | Some bra =>
            let* bra' := lift (add_spin_spf bra) in
            set_orbitals F_bra (Some bra')
        end
    end.
  Definition double_h (h : option arr) : M basis unit :=
    let* h := need TypeError h in
    set_sq F_h (add_spin_one_body h).
  Definition double_s : M basis unit :=
    let* s := rd F_s in
    let* s := need TypeError s in
    set_sq F_s (add_spin_one_body s).
  Definition double_u (c : cls) : M basis unit :=
    let* u := rd F_u in
    let* u := need TypeError u in
    let* u' := lift (add_spin_two_body c u) in
    set_sq F_u u'.
  Definition double_spin overlap (va vb : list K) : M basis unit :=
    let* bs2 := get_st in
    when (negb (urepr_eqb (u_repr_attr bs2) U2d)) (setup_spin_ops overlap va vb).
  Definition double_rest (va vb : list K) (anti : bool) (bs : basis) : M basis bool :=
    let* overlap := need AttributeError (b_arr bs F_s) in
    need_np ;;
    double_h (b_arr bs F_h) ;;
    double_s ;;
    double_u (b_cls bs) ;;
    double_spin overlap va vb ;;
    when anti anti_symmetrize_two_body ;;
    double_dip ;;
    double_orb ;;
    cast_to_complex ;;
    ret true.
  Lemma bind_assoc {A B C} (m : M basis A) (f : A -> M basis B) (g : B -> M basis C) b :
    bind (bind m f) g b = bind m (fun x => bind (f x) g) b.
  Proof. unfold bind. destruct (m b) as [[x|e] b1]; reflexivity. Qed.
  Lemma bind_ext {A B} (m : M basis A) (f g : A -> M basis B) b : (forall x b, f x b = g x b) -> bind m f b = bind m g b.
  Proof. intros H. unfold bind. destruct (m b) as [[x|e] b1]; [apply H | reflexivity]. Qed.
  Lemma to_general_split va vb anti b : to_general_base va vb anti b =
    if b_spin b then (Ok false, b) else double_rest va vb anti b (set_l (2 * b_l b) (set_spin true b)).
  Proof.
    unfold to_general_base, bind at 1. cbn [get_st]. destruct (b_spin b); [reflexivity|].
    unfold bind at 1, modify at 1. unfold bind at 1, modify at 1. unfold double_rest.
    apply bind_ext. intros ov b1. apply bind_ext. intros _ b2. unfold double_h. rewrite bind_assoc. apply bind_ext. intros h b3.
    apply bind_ext. intros _ b4. unfold double_s. rewrite bind_assoc. apply bind_ext. intros s b5. rewrite bind_assoc.
    apply bind_ext. intros s' b6. apply bind_ext. intros _ b7. unfold double_u. rewrite bind_assoc. apply bind_ext. intros u b8.
    rewrite bind_assoc. apply bind_ext. intros u' b9. rewrite bind_assoc. apply bind_ext. intros u'' b10.
    apply bind_ext. intros _ b11. unfold double_spin. rewrite bind_assoc. apply bind_ext. intros b12 b13.
    apply bind_ext. intros _ b14. apply bind_ext. intros _ b15. unfold double_dip. rewrite bind_assoc.
    apply bind_ext. intros d b16. apply bind_ext. intros _ b17. unfold double_orb. rewrite bind_assoc. reflexivity.
  Qed.
  Lemma set_u_repr_same r b : snd (set_u_repr r b) = b.
  Proof.
    unfold set_u_repr. unfold bind at 1. cbn [get_st]. destruct (urepr_eqb r (u_repr b)); [reflexivity|].
    unfold bind, need. destruct (b_arr b F_u); [|reflexivity]. cbn [ret].
    destruct r; try reflexivity; destruct (_ <=? _); reflexivity.
  Qed.
  (** Either the base method runs, or nothing changes and the call raises. *)
  Lemma change_to_general_cases ab anti b :
    (exists va vb, change_to_general ab anti b = to_general_base va vb anti b) \/
    (exists e, change_to_general ab anti b = (Err e, b)).
  Proof.
    remember (change_to_general ab anti b) as r eqn:Er.
    unfold change_to_general in Er. unfold bind at 1 in Er. cbn [get_st] in Er. destruct ab as [[va vb]|].
    - destruct (b_cls b); [left; eauto | right; exists TypeError; exact Er].
    - destruct (b_cls b); [left; eauto|]. revert Er. unfold when. destruct (anti && urepr_eqb (u_repr b) U2d)%bool; [|intros ->; left; eexists; eexists; reflexivity].
      intros ->. pose proof (set_u_repr_same U4d b) as H. unfold bind. destruct (set_u_repr U4d b) as [[x|e] b1]; cbn in H; subst b1.
      + left. eauto.
      + right. exists e. reflexivity.
  Qed.
  Lemma frame_double_h fs h : In F_h fs -> frame K fs (double_h h).
  Proof. intros H. unfold double_h. repeat first [apply frame_set_sq; assumption | frame_step]. Qed.
  Lemma frame_double_s fs : In F_s fs -> frame K fs double_s.
  Proof. intros H. unfold double_s. repeat first [apply frame_set_sq; assumption | frame_step]. Qed.
  Lemma frame_double_u fs c : In F_u fs -> frame K fs (double_u c).
  Proof. intros H. unfold double_u. repeat first [apply frame_set_sq; assumption | frame_step]. Qed.
  Lemma frame_double_dip fs : In F_dip fs -> frame K fs double_dip.
  Proof. intros H. unfold double_dip. repeat first [apply frame_set_dipole; assumption | frame_step]. Qed.
  Lemma frame_double_orb fs : In F_spf fs -> In F_bra fs -> frame K fs double_orb.
  Proof. intros H H'. unfold double_orb. repeat first [apply frame_set_orbitals; assumption | frame_step]. Qed.
  Definition spin_fields : list field :=
    [F_a; F_b; F_sigx; F_sigy; F_sigz; F_spx; F_spy; F_spz; F_sp2; F_sp2tb].
  Lemma frame_double_spin s va vb : frame K spin_fields (double_spin s va vb).
  Proof. unfold double_spin. frame_step; [frame_step|]. apply frame_when. apply frame_spin_ops. Qed.
  Lemma frame_get_h fs C : frame K fs (get_transformed_h C).
  Proof. unfold get_transformed_h. repeat frame_step. Qed.
  Lemma frame_get_u fs C : frame K fs (get_transformed_u C).
  Proof. unfold get_transformed_u. repeat frame_step. Qed.
  Lemma frame_density rho C Ct : frame K [F_bra] (compute_particle_density rho C Ct).
  Proof.
    unfold compute_particle_density. frame_step; [frame_step|]. frame_step; [frame_step|].
    frame_step; [apply frame_get_bra; cbn; auto|]. frame_step; [frame_step|]. destruct C; repeat frame_step.
  Qed.
End Pieces.
Arguments double_dip {K}. Arguments double_orb {K}. Arguments double_h {K}. Arguments double_s {K}.
Arguments double_u {K}. Arguments double_spin {K}. Arguments double_rest {K}.
