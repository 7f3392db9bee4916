(** Exact energies and changes of basis. *)
From Coq Require Import List Arith ZArith Reals Lra Lia Bool.
From Coquelicot Require Import Coquelicot.
From Verif Require Import Scalar ScalarC Py Numpy BasisSet Spec BasisSpec TransformFacts ChangeProofs SpinFacts SpinProofs OneDimSpec DotProofs GridSpec GridProofs PositiveForms SpectralSpec SpectralProofs Systems SystemFacts SystemProofs.
From Verif Require Import FockSpec FockProofs InnerSpec InnerProofs RaiseSpec RaiseProofs RaiseFock RaiseTheorems FockSpectrumSpec FockSpectrum GroundTheorems HartreeFockProofs HartreeFockTheorems OrbitalMap OrbitalEnergy VariationalSpec.
Import ListNotations.
Open Scope R_scope.
Local Notation S_ := (sumn (K := CC)).
Local Notation state := (FockSpec.state CC).
Local Notation inner := (InnerSpec.inner (K := CC)).
Local Notation tr1 := (T1 (K := CC)).
Local Notation tr2 := (T2 (K := CC)).
Local Notation dag := (adj (K := CC)).
Local Notation mul := (mmul (K := CC)).

Lemma hamiltonian_coeff n x h u h' u' f o : (forall p q, (p < n)%nat -> (q < n)%nat -> h p q = h' p q) ->
  (forall p q r s, (p < n)%nat -> (q < n)%nat -> (r < n)%nat -> (s < n)%nat -> u p q r s = u' p q r s) -> hamiltonian (K := CC) n x h u f o = hamiltonian (K := CC) n x h' u' f o.
Proof.
  intros Hh Hu. unfold hamiltonian. f_equal; [|f_equal].
  - unfold one_body. apply csum_ext. intros p Hp. apply csum_ext. intros q Hq. rewrite Hh by assumption. reflexivity.
  - unfold two_body. apply csum_ext. intros p Hp. apply csum_ext. intros q Hq. apply csum_ext. intros r Hr. apply csum_ext. intros s Hs. rewrite Hu by assumption. reflexivity.
Qed.
Lemma dag_dbl1 C P Q : dag (dbl1 (K := CC) C) P Q = dbl1 (K := CC) (dag C) P Q.
Proof.
  unfold adj, dbl1, same_parity. rewrite (eqb_flip (Nat.even Q)). destruct (Bool.eqb (Nat.even P) (Nat.even Q)); [reflexivity|]. cbn. cring.
Qed.
Lemma doubled_columns l n C : orthonormal_columns l n C -> orthonormal_columns (2 * l) (2 * n) (dbl1 (K := CC) C).
Proof.
  intros H P Q HP HQ. etransitivity; [apply (mmul_ext CC (2 * l) _ (kron2 CC (dag C) (delta (K := CC))) _ (kron2 CC C (delta (K := CC))))|].
  - intros x _. rewrite dag_dbl1. apply (dbl1_kron2 CC).
  - intros x _. apply (dbl1_kron2 CC).
  - rewrite (mmul_kron2 CC). rewrite <- (delta_kron2 CC n P Q HP HQ). unfold kron2.
    rewrite H by (apply Nat.div_lt_upper_bound; lia). f_equal. apply (mmul_delta_l CC). apply Nat.mod_upper_bound. lia.
Qed.
(** The operators in the new orbitals *)
Lemma many_embed k l n M h u h' u' : orthonormal_columns l n M ->
  (forall p q, (p < n)%nat -> (q < n)%nat -> h' p q = tr1 l h M (dag M) p q) ->
  (forall p q r s, (p < n)%nat -> (q < n)%nat -> (r < n)%nat -> (s < n)%nat -> u' p q r s = tr2 l u M (dag M) p q r s) ->
  exists W : state -> state, forall N,
    (forall f, particle_state (spin_orbitals k n) N f -> particle_state (spin_orbitals k l) N (W f)) /\
    (forall m (c : nat -> C) (F : nat -> state) o, W (fun o => S_ m (fun j => (c j * F j o)%C)) o = S_ m (fun j => (c j * W (F j) o)%C)) /\
    (forall f g, particle_state (spin_orbitals k n) N f -> particle_state (spin_orbitals k n) N g -> inner (spin_orbitals k l) (W f) (W g) = inner (spin_orbitals k n) f g) /\
    (forall f g, particle_state (spin_orbitals k n) N f -> particle_state (spin_orbitals k n) N g ->
       inner (spin_orbitals k l) (W f) (many_body k l h u (W g)) = inner (spin_orbitals k n) f (many_body k n h' u' g)).
Proof.
  intros HC Hh Hu.
  assert (Lin : forall a b M0 m (c : nat -> C) (F : nat -> state) o, embed (K := CC) a M0 b (fun o => S_ m (fun j => (c j * F j o)%C)) o = S_ m (fun j => (c j * embed (K := CC) a M0 b (F j) o)%C)).
  { intros a b M0 m c F o. etransitivity; [exact (embed_sum CC a M0 b m (fun j o => (c j * F j o)%C) o)|]. apply csum_ext. intros j _. exact (embed_scal CC a M0 b (c j) (F j) o). }
  destruct k; cbn [spin_orbitals many_body].
  - exists (embed (K := CC) n M l). intros N. split; [intros f; apply embed_particles|]. split; [apply Lin|]. split; [intros f g; apply (isometry l n M HC)|].
    intros f g Hf Hg. rewrite (hamiltonian_form l n M HC _ h u N f g Hf Hg). apply (inner_ext CC). intros o. apply hamiltonian_coeff; intros; symmetry; auto.
  - pose proof (doubled_columns l n M HC) as HC2. exists (embed (K := CC) (2 * n) (dbl1 (K := CC) M) (2 * l)). intros N. split; [intros f; apply embed_particles|]. split; [apply Lin|]. split; [intros f g; apply (isometry _ _ _ HC2)|].
    intros f g Hf Hg. rewrite (hamiltonian_form _ _ _ HC2 _ (dbl1 (K := CC) h) (dbl2 (K := CC) u) N f g Hf Hg). apply (inner_ext CC). intros o. apply hamiltonian_coeff.
    + intros P Q HP HQ. rewrite (T1_ext CC (2 * l) _ (dbl1 (K := CC) h) _ (dbl1 (K := CC) M) _ (dbl1 (K := CC) (dag M)) P Q); [|reflexivity|reflexivity|intros a _; apply dag_dbl1].
      rewrite (T1_dbl1 CC). unfold dbl1. destruct (same_parity P Q); [|reflexivity]. symmetry. apply Hh; apply Nat.div_lt_upper_bound; lia.
    + intros P Q R S HP HQ HR HS. rewrite (T2_ext CC (2 * l) _ (dbl2 (K := CC) u) _ (dbl1 (K := CC) M) _ (dbl1 (K := CC) (dag M)) P Q R S); [|reflexivity|split; reflexivity|intros a _; split; apply dag_dbl1].
      rewrite (T2_dbl2 CC). unfold dbl2. destruct (same_parity P R && same_parity Q S); [|reflexivity]. symmetry. apply Hu; apply Nat.div_lt_upper_bound; lia.
Qed.
Lemma levels_embed k l n M h u h' u' : orthonormal_columns l n M -> hermitian (K := CC) l h -> hermitian2 (K := CC) l u -> hermitian (K := CC) n h' -> hermitian2 (K := CC) n u' ->
  (forall p q, (p < n)%nat -> (q < n)%nat -> h' p q = tr1 l h M (dag M) p q) ->
  (forall p q r s, (p < n)%nat -> (q < n)%nat -> (r < n)%nat -> (s < n)%nat -> u' p q r s = tr2 l u M (dag M) p q r s) ->
  forall m d d' E E' Psi Psi', spectrum (spin_orbitals k l) (many_body k l h u) m d E Psi -> spectrum (spin_orbitals k n) (many_body k n h' u') m d' E' Psi' ->
  forall p, (p < d')%nat -> (p < d)%nat /\ E p <= E' p.
Proof.
  intros HC Hh Hu Hh' Hu' Gh Gu m d d' E E' Psi Psi' Sp Sp' p Hp. destruct (many_embed k l n M h u h' u' HC Gh Gu) as (W & HW). destruct (HW m) as (W1 & W2 & W3 & W4).
  assert (W5 : forall f, particle_state (spin_orbitals k n) m f -> Re (inner (spin_orbitals k l) (W f) (many_body k l h u (W f))) <= Re (inner (spin_orbitals k n) f (many_body k n h' u' f)) + 0 * Re (inner (spin_orbitals k n) f f)).
  { intros f Hf. rewrite W4 by exact Hf. lra. }
  pose proof (levels_rise (spin_orbitals k l) (spin_orbitals k n) m d d' (many_body k l h u) (many_body k n h' u') E E' Psi Psi' W 0 (many_body_symmetric k l h u Hh Hu) (many_body_symmetric k n h' u' Hh' Hu') Sp Sp' W1 W2 W3 W5 p Hp) as [A B]. split; [exact A | lra].
Qed.

(** ** Consequences for the operators *)
Lemma spectrum_many k l h u m : hermitian (K := CC) l h -> hermitian2 (K := CC) l u ->
  exists E Psi, spectrum (spin_orbitals k l) (many_body k l h u) m (choose (spin_orbitals k l) m) E Psi.
Proof.
  intros Hh Hu. destruct (spectrum_exists (spin_orbitals k l) m (many_body k l h u)) as (E & Psi & Sp).
  - destruct k; apply hamiltonian_linear.
  - intros f Hf. destruct k; apply hamiltonian_particles, Hf.
  - apply many_body_symmetric; assumption.
  - rewrite codes_length in Sp. exists E, Psi. exact Sp.
Qed.
Lemma adj_delta p q : dag (delta (K := CC)) p q = delta (K := CC) p q.
Proof. unfold adj, delta. rewrite Nat.eqb_sym. destruct (p =? q)%nat; cbn; cring. Qed.
Lemma delta_columns l n : (n <= l)%nat -> orthonormal_columns l n (delta (K := CC)).
Proof.
  intros H p q Hp Hq. etransitivity; [apply (mmul_ext CC l _ (delta (K := CC)) _ (delta (K := CC))); intros; [apply adj_delta | reflexivity]|].
  apply (mmul_delta_l CC). lia.
Qed.
Lemma tr1_delta l h p q : (p < l)%nat -> (q < l)%nat -> tr1 l h (delta (K := CC)) (dag (delta (K := CC))) p q = h p q.
Proof. intros. etransitivity; [apply (T1_ext CC l _ h _ (delta (K := CC)) _ (delta (K := CC))); intros; try reflexivity; apply adj_delta|]. apply (T1_delta CC); assumption. Qed.
Lemma tr2_delta l u p q r s : (p < l)%nat -> (q < l)%nat -> (r < l)%nat -> (s < l)%nat -> tr2 l u (delta (K := CC)) (dag (delta (K := CC))) p q r s = u p q r s.
Proof. intros. etransitivity; [apply (T2_ext CC l _ u _ (delta (K := CC)) _ (delta (K := CC))); intros; try reflexivity; split; (reflexivity || apply adj_delta)|]. apply (T2_delta CC); assumption. Qed.

(** A larger set of orbitals never raises an energy. *)
Lemma levels_nested k l n h u h' u' : (n <= l)%nat -> hermitian (K := CC) l h -> hermitian2 (K := CC) l u ->
  (forall p q, (p < n)%nat -> (q < n)%nat -> h' p q = h p q) ->
  (forall p q r s, (p < n)%nat -> (q < n)%nat -> (r < n)%nat -> (s < n)%nat -> u' p q r s = u p q r s) ->
  forall m d d' E E' Psi Psi', spectrum (spin_orbitals k l) (many_body k l h u) m d E Psi -> spectrum (spin_orbitals k n) (many_body k n h' u') m d' E' Psi' ->
  forall p, (p < d')%nat -> (p < d)%nat /\ E p <= E' p.
Proof.
  intros Hn Hh Hu Gh Gu. apply (levels_embed k l n (delta (K := CC)) h u h' u' (delta_columns l n Hn) Hh Hu).
  - intros p q Hp Hq. rewrite !Gh by assumption. apply Hh; lia.
  - intros p q r s Hp Hq Hr Hs. rewrite !Gu by assumption. apply Hu; lia.
  - intros p q Hp Hq. rewrite Gh by assumption. symmetry. apply tr1_delta; lia.
  - intros p q r s Hp Hq Hr Hs. rewrite Gu by assumption. symmetry. apply tr2_delta; lia.
Qed.
(** The energies are determined by the operator. *)
Lemma energies_unique k l h u : hermitian (K := CC) l h -> hermitian2 (K := CC) l u ->
  forall m d d' E E' Psi Psi', spectrum (spin_orbitals k l) (many_body k l h u) m d E Psi -> spectrum (spin_orbitals k l) (many_body k l h u) m d' E' Psi' ->
  d = d' /\ forall p, (p < d)%nat -> E p = E' p.
Proof.
  intros Hh Hu m d d' E E' Psi Psi' S1 S2.
  assert (A : forall p, (p < d')%nat -> (p < d)%nat /\ E p <= E' p) by (eapply (levels_nested k l l h u h u); eauto).
  assert (B : forall p, (p < d)%nat -> (p < d')%nat /\ E' p <= E p) by (eapply (levels_nested k l l h u h u); eauto).
  split.
  - destruct (Nat.lt_trichotomy d d') as [H|[H|H]]; [|exact H|]; [destruct (A d H) | destruct (B d' H)]; lia.
  - intros p Hp. destruct (B p Hp) as (H1 & H2). destruct (A p H1) as (_ & H3). lra.
Qed.
(** An invertible change of orthonormal orbitals keeps every energy. *)
Lemma levels_rotated k l M h u h' u' : orthonormal_columns l l M -> hermitian (K := CC) l h -> hermitian2 (K := CC) l u -> hermitian (K := CC) l h' -> hermitian2 (K := CC) l u' ->
  (forall p q, (p < l)%nat -> (q < l)%nat -> h' p q = tr1 l h M (dag M) p q) ->
  (forall p q r s, (p < l)%nat -> (q < l)%nat -> (r < l)%nat -> (s < l)%nat -> u' p q r s = tr2 l u M (dag M) p q r s) ->
  forall m d d' E E' Psi Psi', spectrum (spin_orbitals k l) (many_body k l h u) m d E Psi -> spectrum (spin_orbitals k l) (many_body k l h' u') m d' E' Psi' ->
  d = d' /\ forall p, (p < d)%nat -> E p = E' p.
Proof.
  intros HC Hh Hu Hh' Hu' Gh Gu m d d' E E' Psi Psi' S1 S2.
  pose proof (unitary_other l M HC) as HO.
  assert (DD : forall p q, dag (dag M) p q = M p q) by (intros; unfold adj; cbn; cring).
  assert (HC' : orthonormal_columns l l (dag M)).
  { intros p q Hp Hq. etransitivity; [apply (mmul_ext CC l _ M _ (dag M)); intros; [apply DD | reflexivity]|]. apply HO; assumption. }
  assert (HCm : forall a p, (a < l)%nat -> (p < l)%nat -> mul l M (dag M) a p = delta (K := CC) a p) by exact HO.
  assert (HCd : forall a p, (a < l)%nat -> (p < l)%nat -> dag (mul l M (dag M)) p a = delta (K := CC) p a).
  { intros a p Ha Hp. unfold adj at 1. rewrite HCm by assumption. exact (adj_delta p a). }
  assert (Gh' : forall p q, (p < l)%nat -> (q < l)%nat -> h p q = tr1 l h' (dag M) (dag (dag M)) p q).
  { intros p q Hp Hq. symmetry. etransitivity; [apply (T1_ext CC l _ (tr1 l h M (dag M)) _ (dag M) _ (dag (dag M))); [exact Gh | reflexivity | reflexivity]|]. rewrite compose1.
    etransitivity; [apply (T1_ext CC l _ h _ (delta (K := CC)) _ (delta (K := CC))); intros; [reflexivity | apply HCm; assumption | apply HCd; assumption]|]. apply (T1_delta CC); assumption. }
  assert (Gu' : forall p q r s, (p < l)%nat -> (q < l)%nat -> (r < l)%nat -> (s < l)%nat -> u p q r s = tr2 l u' (dag M) (dag (dag M)) p q r s).
  { intros p q r s Hp Hq Hr Hs. symmetry. etransitivity; [apply (T2_ext CC l _ (tr2 l u M (dag M)) _ (dag M) _ (dag (dag M))); [exact Gu | split; reflexivity | split; reflexivity]|]. rewrite compose2.
    etransitivity; [apply (T2_ext CC l _ u _ (delta (K := CC)) _ (delta (K := CC))); intros; [reflexivity | split; apply HCm; assumption | split; apply HCd; assumption]|]. apply (T2_delta CC); assumption. }
  assert (A : forall p, (p < d')%nat -> (p < d)%nat /\ E p <= E' p) by (eapply (levels_embed k l l M h u h' u'); eauto).
  assert (B : forall p, (p < d)%nat -> (p < d')%nat /\ E' p <= E p) by (eapply (levels_embed k l l (dag M) h' u' h u); eauto).
  split.
  - destruct (Nat.lt_trichotomy d d') as [H|[H|H]]; [|exact H|]; [destruct (A d H) | destruct (B d' H)]; lia.
  - intros p Hp. destruct (B p Hp) as (H1 & H2). destruct (A p H1) as (_ & H3). lra.
Qed.

(** ** Changing the basis of a system *)
Lemma variational_change (w : world CC) s k N l x (b : basis CC) (h u A : arr CC) n : sys_at w s k N l x b -> b_arr b F_h = Some h -> b_arr b F_u = Some u ->
  hermitian l (mat h) -> hermitian2 l (ten u) -> shape A = [l; n] -> (N <= n)%nat -> orthonormal_columns l n (mat A) ->
  exists w' (h' u' : arr CC), sys_change_basis s A None w = (Ok tt, w') /\
    sys_get s F_h w' = (Ok (Some h'), w') /\ sys_get s F_u w' = (Ok (Some u'), w') /\ hermitian n (mat h') /\ hermitian2 n (ten u') /\
    forall m, exists E Psi E' Psi',
      spectrum (spin_orbitals k l) (many_body k l (mat h) (ten u)) m (choose (spin_orbitals k l) m) E Psi /\
      spectrum (spin_orbitals k n) (many_body k n (mat h') (ten u')) m (choose (spin_orbitals k n) m) E' Psi' /\
      (forall p, (p < choose (spin_orbitals k n) m)%nat -> (p < choose (spin_orbitals k l) m)%nat /\ E p <= E' p) /\
      (n = l -> forall p, (p < choose (spin_orbitals k l) m)%nat -> E' p = E p).
Proof.
  intros At Eh Eu Hh Hu HA HN HC.
  destruct (sys_change_basis_ok CC s w k N l x b A None n At HA HA) as (b' & B & G & _). specialize (G HN).
  pose proof (bc_h B) as Bh. rewrite Eh in Bh. destruct (b_arr b' F_h) as [h'|] eqn:Eh'; [|destruct Bh].
  pose proof (bc_u B) as Bu. rewrite Eu in Bu. destruct (b_arr b' F_u) as [u'|] eqn:Eu'; [|destruct Bu].
  destruct (default_tilde_spec CC A None l n n HA HA) as [SD GD].
  pose proof (at_sys CC _ _ _ _ _ _ _ At) as H1. pose proof (at_bs CC _ _ _ _ _ _ _ At) as H2.
  assert (T1' : forall p q, (p < n)%nat -> (q < n)%nat -> mat h' p q = tr1 l (mat h) (mat A) (dag (mat A)) p q).
  { intros p q Hp Hq. etransitivity; [apply (proj2 Bh); assumption|]. apply (T1_ext CC); [reflexivity | reflexivity | intros; rewrite GD; reflexivity]. }
  assert (T2' : forall p q r t, (p < n)%nat -> (q < n)%nat -> (r < n)%nat -> (t < n)%nat -> ten u' p q r t = tr2 l (ten u) (mat A) (dag (mat A)) p q r t).
  { intros p q r t Hp Hq Hr Ht. etransitivity; [apply (proj2 Bu); assumption|]. apply (T2_ext CC); [reflexivity | split; reflexivity | intros; rewrite !GD; split; reflexivity]. }
  assert (Hh' : hermitian n (mat h')). { intros p q Hp Hq. rewrite !T1' by assumption. apply (T1_hermitian CC l n); auto. }
  assert (Hu' : hermitian2 n (ten u')). { intros p q r t Hp Hq Hr Ht. rewrite !T2' by assumption. apply (T2_hermitian CC l n); auto. }
  eexists _, h', u'. split; [exact G|].
  split; [rewrite (sys_get_ok CC s F_h _ (sized x (Z.of_nat N) (Z.of_nat n)) b'); [rewrite Eh'; reflexivity | | ]; cbn; apply nth_lset_same; eapply nth_some_lt; eassumption|].
  split; [rewrite (sys_get_ok CC s F_u _ (sized x (Z.of_nat N) (Z.of_nat n)) b'); [rewrite Eu'; reflexivity | | ]; cbn; apply nth_lset_same; eapply nth_some_lt; eassumption|].
  split; [exact Hh'|]. split; [exact Hu'|]. intros m.
  destruct (spectrum_many k l (mat h) (ten u) m Hh Hu) as (E & Psi & S1). destruct (spectrum_many k n (mat h') (ten u') m Hh' Hu') as (E' & Psi' & S2).
  exists E, Psi, E', Psi'. split; [exact S1|]. split; [exact S2|]. split.
  - intros p Hp. exact (levels_embed k l n (mat A) (mat h) (ten u) (mat h') (ten u') HC Hh Hu Hh' Hu' T1' T2' m _ _ E E' Psi Psi' S1 S2 p Hp).
  - intros -> p Hp. symmetry. exact (proj2 (levels_rotated k l (mat A) (mat h) (ten u) (mat h') (ten u') HC Hh Hu Hh' Hu' T1' T2' m _ _ E E' Psi Psi' S1 S2) p Hp).
Qed.
