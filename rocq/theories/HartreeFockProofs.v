(** Orbitals of lowest energy exist, and can be made eigenvectors of their own Fock matrix. *)
From Coq Require Import List Arith ZArith Reals Lra Lia Bool Classical.
From Coquelicot Require Import Coquelicot.
From Verif Require Import Scalar ScalarC Py Numpy BasisSet Spec BasisSpec TransformFacts ChangeProofs EnergySpec EnergyProofs Systems SystemFacts SystemProofs RotationTheorems.
From Verif Require Import OneDimSpec OneDimProofs DotProofs GridSpec GridProofs PositiveForms SpectralSpec SpectralProofs Compactness.
Import ListNotations.
Open Scope R_scope.

(** ** The Fock matrix follows a rotation that keeps occupied orbitals occupied *)
Section Covariance.
  Variable K : scalar.
  Local Open Scope K_scope.
  Notation mx := (nat -> nat -> K).
  Lemma direct_follows l N (u : nat -> nat -> nat -> nat -> K) (C D : mx) p q : (N <= l)%nat -> keeps_occupied l N C D ->
    sumn N (fun i => T2 l u C D p i q i) = T1 l (fun a c => sumn N (fun i => u a i c i)) C D p q.
  Proof.
    intros HN KO. transitivity (sumn N (fun i => T1 l (fun a c => T1 l (fun b d => u a b c d) C D i i) C D p q)).
    { apply sumn_ext. intros i _. apply T2_T1. }
    rewrite <- T1_sumn. apply T1_ext; [|reflexivity|reflexivity]. intros a c _ _.
    apply (occupied_invariants K l N (fun b d => u a b c d) u C D HN KO).
  Qed.
  Lemma exchange_follows l N (u : nat -> nat -> nat -> nat -> K) (C D : mx) p q : (N <= l)%nat -> keeps_occupied l N C D ->
    sumn N (fun i => T2 l u C D p i i q) = T1 l (fun a c => sumn N (fun i => u a i i c)) C D p q.
  Proof.
    intros HN KO. transitivity (sumn N (fun i => T2 l (fun a b c d => u a b d c) C D p i q i)).
    { apply sumn_ext. intros i _. symmetry. apply (T2_ket_swap K l u). }
    exact (direct_follows l N (fun a b c d => u a b d c) C D p q HN KO).
  Qed.
  Lemma fock_general_follows l N (h : mx) u (C D : mx) p q : (N <= l)%nat -> keeps_occupied l N C D ->
    F_general N (T1 l h C D) (T2 l u C D) p q = T1 l (F_general N h u) C D p q.
  Proof.
    intros HN KO. unfold F_general. rewrite direct_follows by assumption. symmetry. apply (T1_add K l h (fun a c => sumn N (fun i => u a i c i))).
  Qed.
  Lemma fock_restricted_follows l N (h : mx) u (C D : mx) p q : (N <= l)%nat -> keeps_occupied l N C D ->
    F_restricted N (T1 l h C D) (T2 l u C D) p q = T1 l (F_restricted N h u) C D p q.
  Proof.
    intros HN KO. unfold F_restricted.
    assert (G : forall (v : nat -> nat -> nat -> nat -> K) a c, sumn N (fun i => (1 + 1) * v a i c i - v a i i c) = (1 + 1) * sumn N (fun i => v a i c i) - sumn N (fun i => v a i i c)).
    { intros v a c. rewrite sumn_mul_l, <- sumn_sub. reflexivity. }
    rewrite G, direct_follows, exchange_follows by assumption. rewrite <- T1_scale, <- T1_sub, <- T1_add.
    apply T1_ext; [|reflexivity|reflexivity]. intros a c _ _. rewrite G. reflexivity.
  Qed.
End Covariance.

(** ** One change of basis *)
Definition energy_of (K : scalar) (k : kind) (N : nat) (h : nat -> nat -> K) (u : nat -> nat -> nat -> nat -> K) : K :=
  match k with General => E_general N h u | Spatial => E_restricted N h u end.
Definition fock_of (K : scalar) (k : kind) (N : nat) (h : nat -> nat -> K) (u : nat -> nat -> nat -> nat -> K) : nat -> nat -> K :=
  match k with General => F_general N h u | Spatial => F_restricted N h u end.
Arguments energy_of {K}. Arguments fock_of {K}.
Section Change.
  Variable K : scalar.
  Lemma energy_of_ext k N l (h h' : nat -> nat -> K) u u' : (N <= l)%nat ->
    (forall p q, (p < l)%nat -> (q < l)%nat -> h p q = h' p q) ->
    (forall p q r t, (p < l)%nat -> (q < l)%nat -> (r < l)%nat -> (t < l)%nat -> u p q r t = u' p q r t) ->
    energy_of k N h u = energy_of k N h' u'.
  Proof. intros HN E1 E2. destruct k; [apply E_general_ext | apply E_restricted_ext]; intros; (apply E1 || apply E2); lia. Qed.
  Lemma fock_of_ext k N l (h h' : nat -> nat -> K) u u' p q : (N <= l)%nat ->
    (forall p q, (p < l)%nat -> (q < l)%nat -> h p q = h' p q) ->
    (forall p q r t, (p < l)%nat -> (q < l)%nat -> (r < l)%nat -> (t < l)%nat -> u p q r t = u' p q r t) ->
    (p < l)%nat -> (q < l)%nat -> fock_of k N h u p q = fock_of k N h' u' p q.
  Proof.
    intros HN E1 E2 Hp Hq. destruct k; cbn [fock_of]; unfold F_general, F_restricted; rewrite E1 by assumption; f_equal; apply sumn_ext; intros i Hi; rewrite !E2 by lia; reflexivity.
  Qed.
  Lemma energy_of_keeps k N l (h : nat -> nat -> K) u C D : (N <= l)%nat -> keeps_occupied l N C D -> energy_of k N (T1 l h C D) (T2 l u C D) = energy_of k N h u.
  Proof. intros HN KO. destruct k; [apply energy_general_invariant | apply energy_restricted_invariant]; assumption. Qed.
  Lemma fock_of_follows k N l (h : nat -> nat -> K) u C D p q : (N <= l)%nat -> keeps_occupied l N C D -> fock_of k N (T1 l h C D) (T2 l u C D) p q = T1 l (fock_of k N h u) C D p q.
  Proof. intros HN KO. destruct k; [apply fock_general_follows | apply fock_restricted_follows]; assumption. Qed.
  Lemma changed_system (w : world K) s k N l x b C Ct (h u : arr K) : sys_at w s k N l x b -> shape C = [l; l] -> tilde_shape C Ct l l ->
    (b_arr b F_spf = None -> b_arr b F_bra = None) -> b_arr b F_h = Some h -> b_arr b F_u = Some u ->
    exists w' x' b' h' u', sys_change_basis s C Ct w = (Ok tt, w') /\ sys_at w' s k N l x' b' /\ (b_arr b' F_spf = None -> b_arr b' F_bra = None) /\
      b_arr b' F_h = Some h' /\ b_arr b' F_u = Some u' /\ shape h' = [l; l] /\ shape u' = [l; l; l; l] /\
      (forall p q, (p < l)%nat -> (q < l)%nat -> mat h' p q = T1 l (mat h) (mat C) (tilde C Ct) p q) /\
      (forall p q r t, (p < l)%nat -> (q < l)%nat -> (r < l)%nat -> (t < l)%nat -> ten u' p q r t = T2 l (ten u) (mat C) (tilde C Ct) p q r t) /\
      reference_energy s w' = (Ok (energy_of k N (T1 l (mat h) (mat C) (tilde C Ct)) (T2 l (ten u) (mat C) (tilde C Ct))), w').
  Proof.
    intros A HC HD Hbra Hh Hu. destruct (sys_change_basis_ok K s w k N l x b C Ct l A HC HD) as (b' & B & E & _).
    pose proof (at_le K _ _ _ _ _ _ _ A) as HN. specialize (E HN).
    pose proof (change_basis_sys_at K s w k N l x b b' C Ct l A B (or_introl eq_refl) Hbra HN) as A'.
    destruct (default_tilde_spec K C Ct l l l HC HD) as [_ GD].
    pose proof (bc_h B) as Bh. rewrite Hh in Bh. destruct (b_arr b' F_h) as [h'|] eqn:Eh'; [|destruct Bh].
    pose proof (bc_u B) as Bu. rewrite Hu in Bu. destruct (b_arr b' F_u) as [u'|] eqn:Eu'; [|destruct Bu].
    assert (G1 : forall p q, (p < l)%nat -> (q < l)%nat -> mat h' p q = T1 l (mat h) (mat C) (tilde C Ct) p q).
    { intros p q Hp Hq. rewrite (proj2 Bh) by assumption. apply T1_ext; intros; [reflexivity | reflexivity | apply GD]. }
    assert (G2 : forall p q r t, (p < l)%nat -> (q < l)%nat -> (r < l)%nat -> (t < l)%nat -> ten u' p q r t = T2 l (ten u) (mat C) (tilde C Ct) p q r t).
    { intros p q r t Hp Hq Hr Ht. rewrite (proj2 Bu) by assumption. apply T2_ext; intros; [reflexivity | split; reflexivity | split; apply GD]. }
    eexists. eexists. exists b', h', u'. split; [exact E|]. split; [exact A'|]. split; [|split; [exact Eh'|split; [exact Eu'|split; [exact (proj1 Bh)|split; [exact (proj1 Bu)|split; [exact G1|split; [exact G2|]]]]]]].
    - intros Z. pose proof (bc_spf B) as Bs. rewrite Z in Bs. destruct (b_arr b F_spf) as [a|] eqn:Ea; [destruct Bs|]. rewrite (bc_bra0 B Ea). apply Hbra. reflexivity.
    - rewrite (reference_energy_ok K _ s k N l _ b' h' u' A' Eh' Eu' (proj1 Bh) (proj1 Bu)). f_equal. f_equal. exact (energy_of_ext k N l _ _ _ _ HN G1 G2).
  Qed.
End Change.

(** ** The unitary matrices are a compact set and the energy is continuous on it *)
Definition mof (l : nat) (r : nat -> R) (p q : nat) : C := zof r (p * l + q).
Definition mro (l : nat) (M : nat -> nat -> C) : nat -> R := rof (fun j => M (j / l)%nat (j mod l)%nat).
Lemma mof_mro l M p q : (q < l)%nat -> mof l (mro l M) p q = M p q.
Proof.
  intros Hq. unfold mof, mro. rewrite zof_rof. rewrite Nat.add_comm, Nat.div_add, Nat.mod_add by lia. rewrite Nat.div_small, Nat.mod_small by lia. reflexivity.
Qed.
Lemma slot_lt l p q : (p < l)%nat -> (q < l)%nat -> (p * l + q < l * l)%nat.
Proof. intros Hp Hq. apply Nat.lt_le_trans with (S p * l)%nat; [cbn; lia|]. apply Nat.mul_le_mono_r. lia. Qed.
Lemma steady_mof l p q : (p < l)%nat -> (q < l)%nat -> csteady (2 * (l * l)) (fun r => mof l r p q).
Proof. intros Hp Hq. apply csteady_zof, slot_lt; assumption. Qed.
Lemma csteady_sub n F G : csteady n F -> csteady n G -> csteady n (fun x => (F x - G x)%C).
Proof. intros A [B1 B2]. apply (csteady_add n F (fun x => (- G x)%C) A). split; [exact (steady_opp n _ B1) | exact (steady_opp n _ B2)]. Qed.
Lemma steady_T1 l h p q : (p < l)%nat -> (q < l)%nat -> csteady (2 * (l * l)) (fun r => T1 (K := CC) l h (mof l r) (adj (K := CC) (mof l r)) p q).
Proof.
  intros Hp Hq. unfold T1. apply (csteady_sum _ l (fun a r => sumn (K := CC) l (fun b => (Cconj (mof l r a p) * h a b * mof l r b q)%C))). intros a Ha.
  apply (csteady_sum _ l (fun b r => (Cconj (mof l r a p) * h a b * mof l r b q)%C)). intros b Hb.
  apply csteady_mul; [apply csteady_mul; [apply csteady_conj | apply csteady_const]|]; apply steady_mof; assumption.
Qed.
Lemma steady_T2 l u p q s t : (p < l)%nat -> (q < l)%nat -> (s < l)%nat -> (t < l)%nat -> csteady (2 * (l * l)) (fun r => T2 (K := CC) l u (mof l r) (adj (K := CC) (mof l r)) p q s t).
Proof.
  intros Hp Hq Hs Ht. unfold T2.
  apply (csteady_sum _ l (fun a r => sumn (K := CC) l (fun b => sumn (K := CC) l (fun c => sumn (K := CC) l (fun d => (Cconj (mof l r a p) * Cconj (mof l r b q) * u a b c d * mof l r c s * mof l r d t)%C))))). intros a Ha.
  apply (csteady_sum _ l (fun b r => sumn (K := CC) l (fun c => sumn (K := CC) l (fun d => (Cconj (mof l r a p) * Cconj (mof l r b q) * u a b c d * mof l r c s * mof l r d t)%C)))). intros b Hb.
  apply (csteady_sum _ l (fun c r => sumn (K := CC) l (fun d => (Cconj (mof l r a p) * Cconj (mof l r b q) * u a b c d * mof l r c s * mof l r d t)%C))). intros c Hc.
  apply (csteady_sum _ l (fun d r => (Cconj (mof l r a p) * Cconj (mof l r b q) * u a b c d * mof l r c s * mof l r d t)%C)). intros d Hd.
  repeat apply csteady_mul; try apply csteady_conj; try apply csteady_const; apply steady_mof; assumption.
Qed.
Definition rotated_energy (k : kind) (N l : nat) h u (M : nat -> nat -> C) : C :=
  energy_of (K := CC) k N (T1 (K := CC) l h M (adj (K := CC) M)) (T2 (K := CC) l u M (adj (K := CC) M)).
Lemma steady_energy k N l h u : (N <= l)%nat -> csteady (2 * (l * l)) (fun r => rotated_energy k N l h u (mof l r)).
Proof.
  intros HN. destruct k; cbn [rotated_energy energy_of].
  - unfold E_general. apply csteady_add.
    + apply (csteady_sum _ N (fun i r => T1 (K := CC) l h (mof l r) (adj (K := CC) (mof l r)) i i)). intros i Hi. apply steady_T1; lia.
    + apply csteady_mul; [apply csteady_const|]. apply (csteady_sum _ N (fun i r => sumn (K := CC) N (fun j => T2 (K := CC) l u (mof l r) (adj (K := CC) (mof l r)) i j i j))). intros i Hi.
      apply (csteady_sum _ N (fun j r => T2 (K := CC) l u (mof l r) (adj (K := CC) (mof l r)) i j i j)). intros j Hj. apply steady_T2; lia.
  - unfold E_restricted. apply csteady_add.
    + apply csteady_mul; [apply csteady_const|]. apply (csteady_sum _ N (fun i r => T1 (K := CC) l h (mof l r) (adj (K := CC) (mof l r)) i i)). intros i Hi. apply steady_T1; lia.
    + apply (csteady_sum _ N (fun i r => sumn (K := CC) N (fun j => ((RtoC 1 + RtoC 1) * T2 (K := CC) l u (mof l r) (adj (K := CC) (mof l r)) i j i j - T2 (K := CC) l u (mof l r) (adj (K := CC) (mof l r)) i j j i)%C))). intros i Hi.
      apply (csteady_sum _ N (fun j r => ((RtoC 1 + RtoC 1) * T2 (K := CC) l u (mof l r) (adj (K := CC) (mof l r)) i j i j - T2 (K := CC) l u (mof l r) (adj (K := CC) (mof l r)) i j j i)%C)). intros j Hj.
      apply csteady_sub; [apply csteady_mul; [apply csteady_const|]|]; apply steady_T2; lia.
Qed.
Lemma rotated_energy_ext k N l h u M M' : (N <= l)%nat -> (forall p q, (p < l)%nat -> (q < l)%nat -> M p q = M' p q) -> rotated_energy k N l h u M = rotated_energy k N l h u M'.
Proof.
  intros HN E. unfold rotated_energy. apply (energy_of_ext CC k N l); [exact HN| |].
  - intros p q Hp Hq. apply T1_ext; intros; [reflexivity | apply E; assumption | unfold adj; rewrite E by assumption; reflexivity].
  - intros p q r t Hp Hq Hr Ht. apply T2_ext; intros; [reflexivity | split; apply E; assumption | split; unfold adj; rewrite E by assumption; reflexivity].
Qed.
Lemma unitary_ext l M M' : (forall p q, (p < l)%nat -> (q < l)%nat -> M p q = M' p q) -> unitary l M -> unitary l M'.
Proof.
  intros E U p q Hp Hq. rewrite <- (U p q Hp Hq). apply mmul_ext; intros; [unfold adj; rewrite E by assumption; reflexivity | symmetry; apply E; assumption].
Qed.
Lemma unitary_delta l : unitary l (delta (K := CC)).
Proof.
  intros p q Hp Hq. etransitivity; [exact (mmul_delta_r CC l (adj (K := CC) (delta (K := CC))) p q Hq)|]. unfold adj, delta. rewrite (Nat.eqb_sym q p). destruct (p =? q)%nat; cbn; unfold Cconj, RtoC; cbn; f_equal; ring.
Qed.
Lemma unitary_entry l M p q : unitary l M -> (p < l)%nat -> (q < l)%nat -> (Re (M p q)) ^ 2 + (Im (M p q)) ^ 2 <= 1.
Proof.
  intros U Hp Hq. pose proof (U q q Hq Hq) as E. unfold delta in E. rewrite Nat.eqb_refl in E.
  assert (Z : RtoC (size l (fun i => M i q)) = RtoC 1). { etransitivity; [symmetry; exact (dot_self l (fun i => M i q)) | exact E]. }
  apply RtoC_inj in Z. rewrite <- Z. exact (size_part l (fun i => M i q) p Hp).
Qed.
Lemma unitary_other l M : unitary l M -> forall p q, (p < l)%nat -> (q < l)%nat -> mmul (K := CC) l M (adj (K := CC) M) p q = delta (K := CC) p q.
Proof.
  intros U p q Hp Hq. refine (family_complete l false (fun p i => M i p) p q _ Hp Hq). split; [intros j _ Z; discriminate Z | exact U].
Qed.
Lemma abs_le_one a b : a ^ 2 + b ^ 2 <= 1 -> Rabs a <= 1 /\ Rabs b <= 1.
Proof.
  intros H. pose proof (pow2_ge_0 a). pose proof (pow2_ge_0 b). split; rewrite <- (Rabs_R1); apply Rsqr_le_abs_0; unfold Rsqr; cbn [pow] in *; lra.
Qed.
Lemma lowest_rotation k N l h u : (N <= l)%nat -> exists M, unitary l M /\ forall M', unitary l M' -> Re (rotated_energy k N l h u M) <= Re (rotated_energy k N l h u M').
Proof.
  intros HN. destruct (attains (2 * (l * l)) 1 (fun r => unitary l (mof l r)) (fun r => Re (rotated_energy k N l h u (mof l r)))) as (r & U & Mn).
  - intros y U i Hi. assert (Hl : (l <> 0)%nat) by (intros ->; cbn in Hi; lia). set (j := Nat.div2 i).
    assert (Hj : (j < l * l)%nat) by (unfold j; pose proof (Nat.div2_odd i); destruct (Nat.odd i); cbn [Nat.b2n] in *; lia).
    assert (Hp : (j / l < l)%nat) by (apply Nat.div_lt_upper_bound; assumption). assert (Hq : (j mod l < l)%nat) by (apply Nat.mod_upper_bound; exact Hl).
    pose proof (unitary_entry l _ _ _ U Hp Hq) as B. apply abs_le_one in B. unfold mof in B. rewrite (Nat.mul_comm (j / l)), <- Nat.div_mod in B by exact Hl. unfold zof in B. cbn [Re Im fst snd] in B.
    pose proof (Nat.div2_odd i) as D. fold j in D. destruct (Nat.odd i); cbn [Nat.b2n] in D; rewrite D; [apply B|]. rewrite Nat.add_0_r. apply B.
  - exists (mro l (delta (K := CC))). apply (unitary_ext l (delta (K := CC))); [|apply unitary_delta]. intros p q _ Hq. symmetry. apply mof_mro, Hq.
  - intros x Cl p q Hp Hq. apply (csteady_closed (2 * (l * l)) (fun r => mmul (K := CC) l (adj (K := CC) (mof l r)) (mof l r) p q) x (delta (K := CC) p q)).
    + unfold mmul. apply (csteady_sum _ l (fun a r => (Cconj (mof l r a p) * mof l r a q)%C)). intros a Ha. apply csteady_mul; [apply csteady_conj|]; apply steady_mof; assumption.
    + intros e He. destruct (Cl e He) as (y & Uy & Ny). exists y. split; [apply Uy; assumption | exact Ny].
  - apply (steady_energy k N l h u HN).
  - exists (mof l r). split; [exact U|]. intros M' U'. rewrite (rotated_energy_ext k N l h u M' (mof l (mro l M')) HN) by (intros; symmetry; apply mof_mro; assumption).
    apply Mn. apply (unitary_ext l M'); [|exact U']. intros; symmetry; apply mof_mro; assumption.
Qed.
