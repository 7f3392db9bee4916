(** Canonical orbitals of lowest energy for every system with Hermitian elements. *)
From Coq Require Import List Arith ZArith Reals Lra Lia Bool Classical.
From Coquelicot Require Import Coquelicot.
From Verif Require Import Scalar ScalarC Py Numpy BasisSet Spec BasisSpec TransformFacts ChangeProofs EnergySpec EnergyProofs EnergyFacts Systems SystemFacts SystemProofs RotationSpec RotationProofs RotationTheorems.
From Verif Require Import OneDimSpec OneDimProofs DotProofs GridSpec GridProofs PositiveForms SpectralSpec SpectralProofs Compactness HartreeFockProofs.
Import ListNotations.
Open Scope R_scope.
Local Notation S_ := (sumn (K := CC)).
Local Notation tr1 := (T1 (K := CC)).
Local Notation tr2 := (T2 (K := CC)).
Local Notation mul := (mmul (K := CC)).
Local Notation dag := (adj (K := CC)).

Lemma cperm (x y z : C) : (x * (y * z) = y * (x * z))%C.
Proof. ring. Qed.
(** ** Block-diagonal eigenvectors *)
Section Block.
  Variables (N l : nat) (F : nat -> nat -> C).
  Hypothesis HN : (N <= l)%nat.
  Hypothesis HF : hermitian (K := CC) l F.
  Hypothesis HB : forall i a, (i < N)%nat -> (N <= a < l)%nat -> F a i = RtoC 0 /\ F i a = RtoC 0.
  Variables (e1 e2 : nat -> R) (v1 v2 : nat -> nat -> C).
  Hypothesis G1 : eigensystem N F e1 v1.
  Hypothesis G2 : eigensystem (l - N) (fun i j => F (N + i)%nat (N + j)%nat) e2 v2.
  Definition V (p q : nat) : C := if (p <? N)%nat then (if (q <? N)%nat then v1 p q else RtoC 0) else (if (q <? N)%nat then RtoC 0 else v2 (p - N)%nat (q - N)%nat).
  Definition eps (p : nat) : R := if (p <? N)%nat then e1 p else e2 (p - N)%nat.
  Lemma V_lo p q : (q < N)%nat -> V p q = if (p <? N)%nat then v1 p q else RtoC 0.
  Proof. intros Hq. unfold V. rewrite (proj2 (Nat.ltb_lt q N) Hq). reflexivity. Qed.
  Lemma V_hi p q : (N <= q)%nat -> V p q = if (p <? N)%nat then RtoC 0 else v2 (p - N)%nat (q - N)%nat.
  Proof. intros Hq. unfold V. rewrite (proj2 (Nat.ltb_ge q N) Hq). reflexivity. Qed.
  Lemma col_lo g q : (q < N)%nat -> S_ l (fun b => (g b * V b q)%C) = S_ N (fun b => (g b * v1 b q)%C).
  Proof.
    intros Hq. etransitivity; [apply (sumn_restrict CC l N); [exact HN|]|].
    - intros b Hb. rewrite V_lo by exact Hq. rewrite (proj2 (Nat.ltb_ge b N)) by lia. apply Cmult_0_r.
    - apply csum_ext. intros b Hb. rewrite V_lo by exact Hq. rewrite (proj2 (Nat.ltb_lt b N)) by exact Hb. reflexivity.
  Qed.
  Lemma col_hi g q : (N <= q)%nat -> S_ l (fun b => (g b * V b q)%C) = S_ (l - N) (fun b => (g (N + b)%nat * v2 b (q - N)%nat)%C).
  Proof.
    intros Hq. replace l with (N + (l - N))%nat at 1 by lia. etransitivity; [apply (sumn_app CC)|]. etransitivity; [|apply Cplus_0_l].
    apply (f_equal2 Cplus).
    - apply csum_zero. intros b Hb. rewrite V_hi by exact Hq. rewrite (proj2 (Nat.ltb_lt b N)) by exact Hb. apply Cmult_0_r.
    - apply csum_ext. intros b Hb. rewrite V_hi by exact Hq. rewrite (proj2 (Nat.ltb_ge (N + b) N)) by lia. replace (N + b - N)%nat with b by lia. reflexivity.
  Qed.
  Lemma V_unitary : unitary l V.
  Proof.
    intros p q Hp Hq. unfold mmul. change (S_ l (fun x => (dag V p x * V x q)%C) = delta (K := CC) p q). unfold delta. destruct (Nat.lt_ge_cases q N) as [Lq|Lq].
    - rewrite col_lo by exact Lq. destruct (Nat.lt_ge_cases p N) as [Lp|Lp].
      + etransitivity; [|exact (es_orthonormal _ _ _ _ G1 p q Lp Lq)]. apply csum_ext. intros b Hb. unfold adj. rewrite V_lo by exact Lp. rewrite (proj2 (Nat.ltb_lt b N)) by exact Hb. reflexivity.
      + rewrite (proj2 (Nat.eqb_neq p q)) by lia. apply csum_zero. intros b Hb. unfold adj. rewrite V_hi by exact Lp. rewrite (proj2 (Nat.ltb_lt b N)) by exact Hb. match goal with |- (_ * ?z)%C = _ => change (Cconj (RtoC 0) * z = RtoC 0)%C end; cring.
    - rewrite col_hi by exact Lq. destruct (Nat.lt_ge_cases p N) as [Lp|Lp].
      + rewrite (proj2 (Nat.eqb_neq p q)) by lia. apply csum_zero. intros b Hb. unfold adj. rewrite V_lo by exact Lp. rewrite (proj2 (Nat.ltb_ge (N + b) N)) by lia. match goal with |- (_ * ?z)%C = _ => change (Cconj (RtoC 0) * z = RtoC 0)%C end; cring.
      + transitivity (kronecker (p - N) (q - N)).
        * etransitivity; [|exact (es_orthonormal _ _ _ _ G2 (p - N) (q - N) ltac:(lia) ltac:(lia))]. apply csum_ext. intros b Hb. unfold adj. rewrite V_hi by exact Lp. rewrite (proj2 (Nat.ltb_ge (N + b) N)) by lia. replace (N + b - N)%nat with b by lia. reflexivity.
        * unfold kronecker. destruct (Nat.eqb_spec (p - N) (q - N)), (Nat.eqb_spec p q); try reflexivity; lia.
  Qed.
  Lemma V_eigen a q : (a < l)%nat -> (q < l)%nat -> S_ l (fun b => (F a b * V b q)%C) = (RtoC (eps q) * V a q)%C.
  Proof.
    intros Ha Hq. unfold eps. destruct (Nat.lt_ge_cases q N) as [Lq|Lq].
    - rewrite col_lo by exact Lq. rewrite (proj2 (Nat.ltb_lt q N) Lq), V_lo by exact Lq. destruct (Nat.ltb_spec a N) as [La|La].
      + exact (es_eigen _ _ _ _ G1 a q La Lq).
      + rewrite Cmult_0_r. apply csum_zero. intros b Hb. rewrite (proj1 (HB b a Hb (conj La Ha))). apply Cmult_0_l.
    - rewrite col_hi by exact Lq. rewrite (proj2 (Nat.ltb_ge q N) Lq), V_hi by exact Lq. destruct (Nat.ltb_spec a N) as [La|La].
      + rewrite Cmult_0_r. apply csum_zero. intros b Hb. rewrite (proj2 (HB a (N + b)%nat La ltac:(lia))). apply Cmult_0_l.
      + rewrite <- (es_eigen _ _ _ _ G2 (a - N) (q - N)) by lia. apply csum_ext. intros b Hb. replace (N + (a - N))%nat with a by lia. reflexivity.
  Qed.
  Lemma V_diagonal p q : (p < l)%nat -> (q < l)%nat -> tr1 l F V (dag V) p q = (if (p =? q)%nat then RtoC (eps p) else RtoC 0).
  Proof.
    intros Hp Hq. transitivity (RtoC (eps q) * mul l (dag V) V p q)%C.
    - unfold T1, mmul. etransitivity; [|symmetry; apply csum_scal]. apply csum_ext. intros a Ha.
      transitivity (dag V p a * S_ l (fun b => (F a b * V b q)%C))%C; [|rewrite V_eigen by assumption; exact (cperm _ _ _)].
      etransitivity; [|symmetry; apply csum_scal]. apply csum_ext. intros b Hb. symmetry. apply Cmult_assoc.
    - rewrite (V_unitary p q Hp Hq). unfold delta. destruct (Nat.eqb_spec p q) as [->|_]; [apply Cmult_1_r | apply Cmult_0_r].
  Qed.
  Lemma V_block i a : (i < N)%nat -> (N <= a < l)%nat -> V i a = RtoC 0 /\ V a i = RtoC 0.
  Proof. intros Hi Ha. split; [rewrite V_hi by lia; rewrite (proj2 (Nat.ltb_lt i N) Hi) | rewrite V_lo by exact Hi; rewrite (proj2 (Nat.ltb_ge a N)) by lia]; reflexivity. Qed.
  Lemma eps_ascend p q : (p <= q)%nat -> (q < l)%nat -> (q < N \/ N <= p)%nat -> eps p <= eps q.
  Proof.
    intros H1 H2 [H3|H3]; unfold eps.
    - rewrite (proj2 (Nat.ltb_lt p N)), (proj2 (Nat.ltb_lt q N)) by lia. apply (es_ascending _ _ _ _ G1); lia.
    - rewrite (proj2 (Nat.ltb_ge p N)), (proj2 (Nat.ltb_ge q N)) by lia. apply (es_ascending _ _ _ _ G2); lia.
  Qed.
End Block.
Lemma block_rotation N l F : (N <= l)%nat -> hermitian (K := CC) l F -> (forall i a, (i < N)%nat -> (N <= a < l)%nat -> F a i = RtoC 0 /\ F i a = RtoC 0) ->
  exists U e, unitary l U /\ (forall i a, (i < N)%nat -> (N <= a < l)%nat -> U i a = RtoC 0 /\ U a i = RtoC 0) /\
    (forall p q, (p < l)%nat -> (q < l)%nat -> tr1 l F U (dag U) p q = (if (p =? q)%nat then RtoC (e p) else RtoC 0)) /\
    (forall p q, (p <= q)%nat -> (q < l)%nat -> (q < N \/ N <= p)%nat -> e p <= e q).
Proof.
  intros HN HF HB. destruct (spectral N F) as (e1 & v1 & G1); [intros p q Hp Hq; apply HF; lia|].
  destruct (spectral (l - N) (fun i j => F (N + i)%nat (N + j)%nat)) as (e2 & v2 & G2); [intros p q Hp Hq; apply HF; lia|].
  exists (V N v1 v2), (eps N e1 e2). split; [eapply V_unitary; eassumption|]. split; [intros; eapply V_block; eassumption|]. split; [intros; eapply V_diagonal; eassumption | intros; eapply eps_ascend; eassumption].
Qed.

Lemma dag_mul l M P p q : dag (mul l M P) p q = mul l (dag P) (dag M) p q.
Proof. unfold adj at 1. unfold mmul. etransitivity; [exact (sumn_conj CC l _)|]. apply csum_ext. intros a _. unfold adj. etransitivity; [exact (conj_mul CC _ _)|]. apply Cmult_comm. Qed.
Lemma unitary_mul l M P : unitary l M -> unitary l P -> unitary l (mul l M P).
Proof.
  intros UM UP p q Hp Hq. etransitivity; [apply (mmul_ext CC l _ (mul l (dag P) (dag M)) _ (mul l M P)); [intros x _; apply dag_mul | reflexivity]|].
  etransitivity; [symmetry; exact (mmul_assoc CC l l (dag P) (dag M) (mul l M P) p q)|].
  rewrite <- (UP p q Hp Hq). apply (mmul_ext CC); [reflexivity|]. intros x Hx. etransitivity; [exact (mmul_assoc CC l l (dag M) M P x q)|].
  etransitivity; [apply (mmul_ext CC l _ (delta (K := CC)) _ P); [intros y Hy; apply UM; assumption | reflexivity]|]. exact (mmul_delta_l CC l P x q Hx).
Qed.
Definition square (l : nat) (M : nat -> nat -> C) : arr CC := @Arr CC [l; l] Complex128 (fun idx => match idx with [p; q] => M p q | _ => RtoC 0 end).
Lemma compose1 l h M P p q : tr1 l (tr1 l h M (dag M)) P (dag P) p q = tr1 l h (mul l M P) (dag (mul l M P)) p q.
Proof. etransitivity; [exact (T1_compose CC l l h M (dag M) P (dag P) p q)|]. apply (T1_ext CC); [reflexivity | reflexivity|]. intros x _. symmetry. apply dag_mul. Qed.
Lemma compose2 l u M P p q r s : tr2 l (tr2 l u M (dag M)) P (dag P) p q r s = tr2 l u (mul l M P) (dag (mul l M P)) p q r s.
Proof. etransitivity; [exact (T2_compose CC l l u M (dag M) P (dag P) p q r s)|]. apply (T2_ext CC); [reflexivity | split; reflexivity|]. intros x _. split; symmetry; apply dag_mul. Qed.

Lemma hartree_fock (w : world CC) s k N l x (b : basis CC) (h u : arr CC) : sys_at w s k N l x b ->
  (b_arr b F_spf = None -> b_arr b F_bra = None) -> b_arr b F_h = Some h -> b_arr b F_u = Some u ->
  hermitian l (mat h) -> hermitian2 l (ten u) -> particle_sym l (ten u) ->
  exists (C : arr CC) w' e h' u' ep, shape C = [l; l] /\ unitary l (mat C) /\
    sys_change_basis s C None w = (Ok tt, w') /\ reference_energy s w' = (Ok (RtoC e), w') /\
    (forall (C1 : arr CC) w1 e1, shape C1 = [l; l] -> unitary l (mat C1) -> sys_change_basis s C1 None w = (Ok tt, w1) -> reference_energy s w1 = (Ok e1, w1) -> e <= Re e1) /\
    (forall (C1 : arr CC) w1 e1, shape C1 = [l; l] -> unitary l (mat C1) -> sys_change_basis s C1 None w' = (Ok tt, w1) -> reference_energy s w1 = (Ok e1, w1) -> e <= Re e1) /\
    sys_get s F_h w' = (Ok (Some h'), w') /\ sys_get s F_u w' = (Ok (Some u'), w') /\ buffer_ok (Buffer (zeros [l; l] Complex128)) h' u' /\
    (forall f, buffer_ok f h' u' -> exists F, fock_matrix s h' u' f w' = (Ok F, w') /\ shape F = [l; l] /\
      forall p q, (p < l)%nat -> (q < l)%nat -> mat F p q = (if (p =? q)%nat then RtoC (ep p) else RtoC 0)) /\
    (forall p q, (p <= q)%nat -> (q < l)%nat -> (q < N \/ N <= p)%nat -> ep p <= ep q).
Proof.
  intros A Hbra Eh Eu Hh Hu Hs. pose proof (at_le CC _ _ _ _ _ _ _ A) as HN.
  destruct (lowest_rotation k N l (mat h) (ten u) HN) as (M & UM & Mn).
  destruct (changed_system CC w s k N l x b (square l M) None h u A eq_refl eq_refl Hbra Eh Eu) as (w1 & x1 & b1 & h1 & u1 & C1 & A1 & Hbra1 & Eh1 & Eu1 & Sh1 & Su1 & G1 & G2 & R1).
  change (mat (square l M)) with M in *. change (tilde (square l M) None) with (dag M) in *.
  assert (Hh1 : hermitian l (mat h1)). { intros p q Hp Hq. rewrite (G1 p q Hp Hq), (G1 q p Hq Hp). exact (T1_hermitian CC l l (mat h) M (dag M) (fun _ _ _ _ => eq_refl) Hh p q Hp Hq). }
  assert (Hu1 : hermitian2 l (ten u1)). { intros p q r t Hp Hq Hr Ht. rewrite (G2 p q r t), (G2 r t p q) by assumption. exact (T2_hermitian CC l l (ten u) M (dag M) (fun _ _ _ _ => eq_refl) Hu p q r t Hp Hq Hr Ht). }
  assert (Hs1 : particle_sym l (ten u1)). { intros p q r t Hp Hq Hr Ht. rewrite (G2 p q r t), (G2 q p t r) by assumption. exact (T2_particle_sym CC l l (ten u) M (dag M) Hs p q r t Hp Hq Hr Ht). }
  fold (rotated_energy k N l (mat h) (ten u) M) in R1.
  assert (BO : forall h' u' : arr CC, shape h' = [l; l] -> buffer_ok (Buffer (zeros [l; l] Complex128)) h' u').
  { intros h' u' E. split; [symmetry; exact E|]. split; [destruct (dt h') | destruct (dt u')]; reflexivity. }
  set (buf := Buffer (zeros [l; l] Complex128)) in BO |- *.
  destruct (brillouin s w1 k N l x1 b1 h1 u1 buf _ A1 Hbra1 Eh1 Eu1 (BO h1 u1 Sh1) Hh1 Hu1 Hs1 R1) as (F1 & EF1 & B1).
  { intros C' w2 e2 SC UC E2 R2. destruct (changed_system CC w1 s k N l x1 b1 C' None h1 u1 A1 SC SC Hbra1 Eh1 Eu1) as (w2' & x2 & b2 & h2 & u2 & C2 & A2 & _ & _ & _ & _ & _ & _ & _ & R2').
    rewrite E2 in C2. injection C2 as <-. rewrite R2 in R2'. injection R2' as ->.
    pose proof (Mn (mul l M (mat C')) (unitary_mul l M (mat C') UM UC)) as L. eapply Rle_trans; [exact L|]. right. f_equal. unfold rotated_energy.
    apply (energy_of_ext CC k N l); [exact HN| |].
    - intros p q Hp Hq. rewrite <- compose1. apply (T1_ext CC); [|reflexivity|reflexivity]. intros a c Ha Hc. symmetry. apply G1; assumption.
    - intros p q r t Hp Hq Hr Ht. rewrite <- compose2. apply (T2_ext CC); [|split; reflexivity|split; reflexivity]. intros a c a' c' Ha Hc Ha' Hc'. symmetry. apply G2; assumption. }
  destruct (fock_matrix_ok CC w1 s k N l x1 b1 h1 u1 buf A1 Sh1 Su1 (BO h1 u1 Sh1)) as (F1' & EF1' & SF1 & GF1). rewrite EF1 in EF1'. injection EF1' as <-.
  assert (HF1 : hermitian l (mat F1)). { destruct (fock_hermitian CC s w1 k N l x1 b1 h1 u1 buf A1 Sh1 Su1 (BO h1 u1 Sh1) Hh1 Hu1 (fun _ => Hs1)) as (F1' & EF1' & _ & HF). rewrite EF1 in EF1'. injection EF1' as <-. exact HF. }
  destruct (block_rotation N l (mat F1) HN HF1 B1) as (U & ep & UU & UB & UD & UA).
  assert (KO : keeps_occupied (K := CC) l N U (dag U)). { apply (block_keeps_occupied CC); [exact HN | exact UB | apply unitary_other, UU | exact UU]. }
  destruct (changed_system CC w s k N l x b (square l (mul l M U)) None h u A eq_refl eq_refl Hbra Eh Eu) as (w2 & x2 & b2 & h2 & u2 & C2 & A2 & Hbra2 & Eh2 & Eu2 & Sh2 & Su2 & K1 & K2 & R2).
  change (mat (square l (mul l M U))) with (mul l M U) in *. change (tilde (square l (mul l M U)) None) with (dag (mul l M U)) in *.
  assert (K1' : forall p q, (p < l)%nat -> (q < l)%nat -> mat h2 p q = tr1 l (mat h1) U (dag U) p q).
  { intros p q Hp Hq. rewrite K1 by assumption. rewrite <- compose1. apply (T1_ext CC); [|reflexivity|reflexivity]. intros a c Ha Hc. symmetry. apply G1; assumption. }
  assert (K2' : forall p q r t, (p < l)%nat -> (q < l)%nat -> (r < l)%nat -> (t < l)%nat -> ten u2 p q r t = tr2 l (ten u1) U (dag U) p q r t).
  { intros p q r t Hp Hq Hr Ht. rewrite K2 by assumption. rewrite <- compose2. apply (T2_ext CC); [|split; reflexivity|split; reflexivity]. intros a c a' c' Ha Hc Ha' Hc'. symmetry. apply G2; assumption. }
  fold (rotated_energy k N l (mat h) (ten u) (mul l M U)) in R2.
  assert (EE : rotated_energy k N l (mat h) (ten u) (mul l M U) = rotated_energy k N l (mat h) (ten u) M).
  { transitivity (energy_of k N (tr1 l (tr1 l (mat h) M (dag M)) U (dag U)) (tr2 l (tr2 l (ten u) M (dag M)) U (dag U))).
    - apply (energy_of_ext CC k N l); [exact HN | intros; symmetry; apply compose1 | intros; symmetry; apply compose2].
    - apply (energy_of_keeps CC); assumption. }
  assert (Rl : Im (rotated_energy k N l (mat h) (ten u) M) = 0).
  { assert (Z : Cconj (rotated_energy k N l (mat h) (ten u) M) = rotated_energy k N l (mat h) (ten u) M).
    { unfold rotated_energy. destruct k; cbn [energy_of].
      - exact (energy_general_real CC l N _ _ HN (T1_hermitian CC l l (mat h) M (dag M) (fun _ _ _ _ => eq_refl) Hh) (T2_hermitian CC l l (ten u) M (dag M) (fun _ _ _ _ => eq_refl) Hu)).
      - exact (energy_restricted_real CC l N _ _ HN (T1_hermitian CC l l (mat h) M (dag M) (fun _ _ _ _ => eq_refl) Hh) (T2_hermitian CC l l (ten u) M (dag M) (fun _ _ _ _ => eq_refl) Hu) (T2_particle_sym CC l l (ten u) M (dag M) Hs)). }
    destruct (rotated_energy k N l (mat h) (ten u) M) as [re im]. unfold Cconj in Z. cbn in Z. injection Z as Z. cbn. lra. }
  exists (square l (mul l M U)), w2, (Re (rotated_energy k N l (mat h) (ten u) M)), h2, u2, ep.
  split; [reflexivity|]. split; [apply unitary_mul; assumption|]. split; [exact C2|]. split; [|split; [|split; [|split; [|split; [|split; [exact (BO h2 u2 Sh2)|split; [|exact UA]]]]]]].
  - rewrite R2, EE. f_equal. f_equal. destruct (rotated_energy k N l (mat h) (ten u) M) as [re im]. cbn in Rl |- *. rewrite Rl. reflexivity.
  - intros C' w3 e3 SC UC E3 R3. destruct (changed_system CC w s k N l x b C' None h u A SC SC Hbra Eh Eu) as (w3' & x3 & b3 & h3 & u3 & C3 & A3 & _ & _ & _ & _ & _ & _ & _ & R3').
    rewrite E3 in C3. injection C3 as <-. rewrite R3 in R3'. injection R3' as ->. exact (Mn (mat C') UC).
  - intros C' w3 e3 SC UC E3 R3. destruct (changed_system CC w2 s k N l x2 b2 C' None h2 u2 A2 SC SC Hbra2 Eh2 Eu2) as (w3' & x3 & b3 & h3 & u3 & C3 & A3 & _ & _ & _ & _ & _ & _ & _ & R3').
    rewrite E3 in C3. injection C3 as <-. rewrite R3 in R3'. injection R3' as ->.
    pose proof (Mn (mul l (mul l M U) (mat C')) (unitary_mul l _ (mat C') (unitary_mul l M U UM UU) UC)) as L. eapply Rle_trans; [exact L|]. right. f_equal. unfold rotated_energy.
    apply (energy_of_ext CC k N l); [exact HN| |].
    + intros p q Hp Hq. rewrite <- compose1. apply (T1_ext CC); [|reflexivity|reflexivity]. intros a c Ha Hc. symmetry. apply K1; assumption.
    + intros p q r t Hp Hq Hr Ht. rewrite <- compose2. apply (T2_ext CC); [|split; reflexivity|split; reflexivity]. intros a c a' c' Ha Hc Ha' Hc'. symmetry. apply K2; assumption.
  - rewrite <- Eh2. exact (sys_get_ok CC s F_h w2 x2 b2 (at_sys CC _ _ _ _ _ _ _ A2) (at_bs CC _ _ _ _ _ _ _ A2)).
  - rewrite <- Eu2. exact (sys_get_ok CC s F_u w2 x2 b2 (at_sys CC _ _ _ _ _ _ _ A2) (at_bs CC _ _ _ _ _ _ _ A2)).
  - intros f Hf. destruct (fock_matrix_ok CC w2 s k N l x2 b2 h2 u2 f A2 Sh2 Su2 Hf) as (F2 & EF2 & SF2 & GF2). exists F2. split; [exact EF2|]. split; [exact SF2|].
    intros p q Hp Hq. rewrite GF2 by assumption. transitivity (fock_of k N (mat h2) (ten u2) p q); [destruct k; reflexivity|].
    rewrite (fock_of_ext CC k N l _ _ _ _ p q HN K1' K2' Hp Hq), (fock_of_follows CC k N l _ _ _ _ p q HN KO), <- (UD p q Hp Hq).
    apply (T1_ext CC); [|reflexivity|reflexivity]. intros a c Ha Hc. rewrite (GF1 a c Ha Hc). destruct k; reflexivity.
Qed.

(** ** Rotations that keep occupied orbitals occupied; promotions *)
Section Exact.
  Variable K : scalar.
  Add Ring KringHF : (s_ring K).
  Local Open Scope K_scope.
  Lemma fock_follows s (w : world K) k N l x b C Ct (h u : arr K) f : sys_at w s k N l x b -> shape C = [l; l] -> tilde_shape C Ct l l ->
    (b_arr b F_spf = None -> b_arr b F_bra = None) -> b_arr b F_h = Some h -> b_arr b F_u = Some u -> buffer_ok f h u ->
    (forall i a, (i < N)%nat -> (N <= a < l)%nat -> mat C i a = 0 /\ mat C a i = 0) ->
    (forall p q, (p < l)%nat -> (q < l)%nat -> mmul l (mat C) (tilde C Ct) p q = delta p q) ->
    (forall p q, (p < l)%nat -> (q < l)%nat -> mmul l (tilde C Ct) (mat C) p q = delta p q) ->
    exists w' h' u' F, sys_change_basis s C Ct w = (Ok tt, w') /\ sys_get s F_h w' = (Ok (Some h'), w') /\ sys_get s F_u w' = (Ok (Some u'), w') /\
      fock_matrix s h u f w = (Ok F, w) /\
      forall f', buffer_ok f' h' u' -> exists F', fock_matrix s h' u' f' w' = (Ok F', w') /\ shape F' = [l; l] /\
        forall p q, (p < l)%nat -> (q < l)%nat -> mat F' p q = T1 l (mat F) (mat C) (tilde C Ct) p q.
  Proof.
    intros A HC HD Hbra Eh Eu Hf HB H1 H2. pose proof (at_le K _ _ _ _ _ _ _ A) as HN.
    destruct (changed_system K w s k N l x b C Ct h u A HC HD Hbra Eh Eu) as (w1 & x1 & b1 & h1 & u1 & C1 & A1 & Hbra1 & Eh1 & Eu1 & Sh1 & Su1 & G1 & G2 & R1).
    destruct (r_h K b l (at_ready K _ _ _ _ _ _ _ A)) as (h0 & E0 & Sh). rewrite Eh in E0. injection E0 as <-.
    destruct (r_u K b l (at_ready K _ _ _ _ _ _ _ A)) as (u0 & E0 & Su). rewrite Eu in E0. injection E0 as <-.
    destruct (fock_matrix_ok K w s k N l x b h u f A Sh Su Hf) as (F & EF & _ & GF).
    exists w1, h1, u1, F. split; [exact C1|]. split; [rewrite <- Eh1; exact (sys_get_ok K s F_h w1 x1 b1 (at_sys K _ _ _ _ _ _ _ A1) (at_bs K _ _ _ _ _ _ _ A1))|].
    split; [rewrite <- Eu1; exact (sys_get_ok K s F_u w1 x1 b1 (at_sys K _ _ _ _ _ _ _ A1) (at_bs K _ _ _ _ _ _ _ A1))|]. split; [exact EF|].
    intros f' Hf'. destruct (fock_matrix_ok K w1 s k N l x1 b1 h1 u1 f' A1 Sh1 Su1 Hf') as (F' & EF' & SF' & GF'). exists F'. split; [exact EF'|]. split; [exact SF'|].
    intros p q Hp Hq. rewrite GF' by assumption. transitivity (fock_of k N (mat h1) (ten u1) p q); [destruct k; reflexivity|].
    rewrite (fock_of_ext K k N l _ _ _ _ p q HN G1 G2 Hp Hq), (fock_of_follows K k N l _ _ _ _ p q HN (block_keeps_occupied K l N _ _ HN HB H1 H2)).
    apply (T1_ext K); [|reflexivity|reflexivity]. intros a c Ha Hc. rewrite (GF a c Ha Hc). destruct k; reflexivity.
  Qed.
  Lemma curv_trace l (G : nat -> nat -> nat -> nat -> K) D E : curv l G D E = trace2 l D (fun p r => trace2 l E (fun q s => G p q r s)).
  Proof.
    unfold curv, trace2. apply sumn_ext. intros p _. rewrite sumn_swap. apply sumn_ext. intros r _. rewrite sumn_mul_l. apply sumn_ext. intros q _. rewrite sumn_mul_l. apply sumn_ext. intros s _. ring.
  Qed.
  Lemma curv_across l i a (G : nat -> nat -> nat -> nat -> K) : (i < l)%nat -> (a < l)%nat -> i <> a ->
    curv l G (across K i a) (across K i a) = G a a a a - G a i a i - (G i a i a - G i i i i).
  Proof. intros Hi Ha Hn. rewrite curv_trace, trace_across by assumption. rewrite !trace_across by assumption. ring. Qed.
  Lemma promoted s (w : world K) k N l x b (h u : arr K) f i a : sys_at w s k N l x b ->
    (b_arr b F_spf = None -> b_arr b F_bra = None) -> b_arr b F_h = Some h -> b_arr b F_u = Some u -> buffer_ok f h u ->
    particle_sym l (ten u) -> (k = General -> antisym_ket l (ten u)) -> (i < N)%nat -> (N <= a < l)%nat ->
    exists w' e e' F, sys_change_basis s (promotion K l i a) None w = (Ok tt, w') /\ fock_matrix s h u f w = (Ok F, w) /\
      reference_energy s w = (Ok e, w) /\ reference_energy s w' = (Ok e', w') /\
      e' = e + match k with
        | General => mat F a a - mat F i i - ten u i a i a
        | Spatial => (1 + 1) * (mat F a a - mat F i i) + ten u a a a a + ten u i i i i - (1 + 1) * ((1 + 1) * ten u i a i a - ten u i a a i)
        end.
  Proof.
    intros A Hbra Eh Eu Hf Hs Ha Hi Hl. pose proof (at_le K _ _ _ _ _ _ _ A) as HN.
    destruct (energy_expansion K s w k N l l x b (promotion K l i a) None h u f A eq_refl eq_refl (or_introl eq_refl) Hbra HN Eh Eu Hf Hs) as (w' & e & e' & F & E1 & E2 & E3 & E4 & E5).
    exists w', e, e', F. split; [exact E1|]. split; [exact E2|]. split; [exact E3|]. split; [exact E4|]. rewrite E5. f_equal.
    assert (c0 : sconj (0 : K) = 0) by apply conj_0. assert (c1 : sconj (1 : K) = 1) by apply conj_1.
    assert (Q0 : (0 : K) * 0 + 1 * 1 = 1) by ring. assert (Q1 : (1 : K) * sconj 1 = 1) by (rewrite c1; ring).
    pose proof (plane_trace K l N i a 0 1 1 (mat F) Hi Hl c0 c1 Q0 Q1) as T.
    pose proof (fun G => plane_curv K l N i a 0 1 1 G Hi Hl c0 c1 Q0 Q1) as Q. cbv zeta in Q.
    unfold expansion. change (tilde (promotion K l i a) None) with (fun p q => @sconj K (@plane K i a 0 1 1 q p)). change (mat (promotion K l i a)) with (@plane K i a 0 1 1).
    destruct k.
    - rewrite T, Q, curv_across by lia. pose proof (Ha eq_refl) as An.
      assert (D : forall p, (p < l)%nat -> ten u p p p p = 0).
      { intros p Hp. pose proof (An p p p p Hp Hp Hp Hp) as Z. apply (half_cancel K). set (z := ten u p p p p) in *. rewrite Z at 1. ring. }
      rewrite (Hs a i a i) by lia.
      transitivity (mat F a a - mat F i i + (shalf * ten u a a a a + shalf * ten u i i i i) - (shalf + shalf) * ten u i a i a); [ring|]. rewrite !D by lia. rewrite half_half. ring.
    - rewrite T, Q, curv_across by lia. rewrite (Hs a i a i), (Hs a i i a) by lia. ring.
  Qed.
End Exact.

Lemma gap s (w : world CC) N l x b (h u : arr CC) f (e : R) i a : sys_at w s General N l x b ->
  (b_arr b F_spf = None -> b_arr b F_bra = None) -> b_arr b F_h = Some h -> b_arr b F_u = Some u -> buffer_ok f h u ->
  particle_sym l (ten u) -> antisym_ket l (ten u) -> reference_energy s w = (Ok (RtoC e), w) ->
  (forall (C : arr CC) w' e', shape C = [l; l] -> unitary l (mat C) -> sys_change_basis s C None w = (Ok tt, w') -> reference_energy s w' = (Ok e', w') -> e <= Re e') ->
  (i < N)%nat -> (N <= a < l)%nat ->
  exists F, fock_matrix s h u f w = (Ok F, w) /\ Re (mat F i i) + Re (ten u i a i a) <= Re (mat F a a).
Proof.
  intros A Hbra Eh Eu Hf Hs Ha R0 Mn Hi Hl. pose proof (at_le CC _ _ _ _ _ _ _ A) as HN.
  destruct (promoted CC s w General N l x b h u f i a A Hbra Eh Eu Hf Hs (fun _ => Ha) Hi Hl) as (w' & e0 & e' & F & E1 & E2 & E3 & E4 & E5).
  exists F. split; [exact E2|]. rewrite R0 in E3. injection E3 as <-. subst e'.
  pose proof (fun U => Mn (promotion CC l i a) w' _ eq_refl U E1 E4) as L.
  assert (U : unitary l (mat (promotion CC l i a))).
  { intros p q Hp Hq. change (mat (promotion CC l i a)) with (@plane CC i a (RtoC 0) (RtoC 1) (RtoC 1)). apply (plane_unitary CC l i a); try assumption; try lia; cbn; unfold Cconj, Cmult, Cplus, RtoC; cbn; f_equal; ring. }
  specialize (L U). cbn in L. destruct (mat F a a) as [x1 y1], (mat F i i) as [x2 y2], (ten u i a i a) as [x3 y3]. cbn in *. lra.
Qed.
