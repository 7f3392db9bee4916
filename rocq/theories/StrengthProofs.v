(** Exact energies and the strength of the interaction. *)
From Coq Require Import List Arith ZArith Reals Lra Lia Bool.
From Coquelicot Require Import Coquelicot.
From Verif Require Import Scalar ScalarC Py Numpy BasisSet Spec OneDimSpec DotProofs GridSpec GridProofs PositiveForms KineticSpec SpectralSpec SpectralProofs Systems.
From Verif Require Import FockSpec FockProofs InnerSpec InnerProofs RaiseSpec RaiseProofs RaiseFock RaiseTheorems FockSpectrumSpec FockSpectrum GroundTheorems OrbitalMap OrbitalEnergy VariationalSpec VariationalTheorems StrengthSpec.
Import ListNotations.
Open Scope R_scope.
Local Notation S_ := (sumn (K := CC)).
Local Notation state := (FockSpec.state CC).
Local Notation inner := (InnerSpec.inner (K := CC)).

(** ** Sums and multiples of Hamiltonians *)
Definition mix1 (s t : R) (h h' : nat -> nat -> C) (p q : nat) : C := (RtoC s * h p q + RtoC t * h' p q)%C.
Definition mix2 (s t : R) (u u' : nat -> nat -> nat -> nat -> C) (p q r v : nat) : C := (RtoC s * u p q r v + RtoC t * u' p q r v)%C.
Lemma mix_term (s t a b z : C) : ((s * a + t * b) * z)%C = (s * (a * z) + t * (b * z))%C.
Proof. ring. Qed.
Lemma one_mix l s t h h' (f : state) o : one_body (K := CC) l (mix1 s t h h') f o = (RtoC s * one_body (K := CC) l h f o + RtoC t * one_body (K := CC) l h' f o)%C.
Proof.
  unfold one_body. etransitivity; [|symmetry; apply (f_equal2 Cplus); apply csum_scal]. etransitivity; [|exact (csum_add l _ _)]. apply csum_ext. intros p _.
  etransitivity; [|symmetry; apply (f_equal2 Cplus); apply csum_scal]. etransitivity; [|exact (csum_add l _ _)]. apply csum_ext. intros q _. apply mix_term.
Qed.
Lemma two_mix l s t u u' (f : state) o : two_body (K := CC) l (mix2 s t u u') f o = (RtoC s * two_body (K := CC) l u f o + RtoC t * two_body (K := CC) l u' f o)%C.
Proof.
  unfold two_body. do 4 (etransitivity; [|symmetry; apply (f_equal2 Cplus); apply csum_scal]; etransitivity; [|exact (csum_add l _ _)]; apply csum_ext; intros ? _). apply mix_term.
Qed.
Lemma mix_sum (s t x a b c d : C) : (s * a + t * b + x * (s * c + t * d))%C = (s * (a + x * c) + t * (b + x * d))%C.
Proof. ring. Qed.
Lemma ham_mix l x s t h h' u u' (f : state) o : hamiltonian (K := CC) l x (mix1 s t h h') (mix2 s t u u') f o = (RtoC s * hamiltonian (K := CC) l x h u f o + RtoC t * hamiltonian (K := CC) l x h' u' f o)%C.
Proof. unfold hamiltonian. etransitivity; [apply (f_equal2 Cplus); [exact (one_mix l s t h h' f o) | apply (f_equal (Cmult x)); exact (two_mix l s t u u' f o)]|]. apply mix_sum. Qed.
Lemma many_mix k l s t h h' u u' (f : state) o : many_body k l (mix1 s t h h') (mix2 s t u u') f o = (RtoC s * many_body k l h u f o + RtoC t * many_body k l h' u' f o)%C.
Proof.
  destruct k; cbn [many_body]; [apply ham_mix|]. rewrite <- ham_mix. apply hamiltonian_coeff.
  - intros p q _ _. unfold dbl1, mix1. destruct (same_parity p q); [reflexivity|]. change (@s0 CC) with (RtoC 0). cx. ring.
  - intros p q r v _ _ _ _. unfold dbl2, mix2. destruct (same_parity p r && same_parity q v)%bool; [reflexivity|]. change (@s0 CC) with (RtoC 0). cx. ring.
Qed.
Lemma many_coeff k l h u h' u' (f : state) o : (forall p q, (p < l)%nat -> (q < l)%nat -> h p q = h' p q) ->
  (forall p q r s, (p < l)%nat -> (q < l)%nat -> (r < l)%nat -> (s < l)%nat -> u p q r s = u' p q r s) -> many_body k l h u f o = many_body k l h' u' f o.
Proof.
  intros Hh Hu. destruct k; cbn [many_body]; apply hamiltonian_coeff; try assumption.
  - intros p q Hp Hq. unfold dbl1. rewrite Hh; [reflexivity | |]; apply Nat.div_lt_upper_bound; lia.
  - intros p q r s Hp Hq Hr Hs. unfold dbl2. rewrite Hu; [reflexivity | | | |]; apply Nat.div_lt_upper_bound; lia.
Qed.
Lemma inner_mix n s t (f : state) (A B : state) : inner n f (fun o => (RtoC s * A o + RtoC t * B o)%C) = (RtoC s * inner n f A + RtoC t * inner n f B)%C.
Proof.
  etransitivity; [exact (inner_add CC n f (fun o => (RtoC s * A o)%C) (fun o => (RtoC t * B o)%C))|]. apply (f_equal2 Cplus); exact (inner_scal CC n f _ _).
Qed.
Lemma re_mix s t (a b : C) : Re (RtoC s * a + RtoC t * b)%C = s * Re a + t * Re b.
Proof. destruct a, b. cbn. ring. Qed.
Lemma energy_mix k l s t h h' u u' (f : state) : Re (inner (spin_orbitals k l) f (many_body k l (mix1 s t h h') (mix2 s t u u') f)) =
  s * Re (inner (spin_orbitals k l) f (many_body k l h u f)) + t * Re (inner (spin_orbitals k l) f (many_body k l h' u' f)).
Proof.
  etransitivity; [apply (f_equal Re); etransitivity; [apply (inner_ext CC); intros o; apply many_mix | apply inner_mix]|]. apply re_mix.
Qed.
Lemma conj_mix s t (a b : C) : (RtoC s * Cconj a + RtoC t * Cconj b)%C = Cconj (RtoC s * a + RtoC t * b)%C.
Proof. destruct a, b. unfold Cconj, Cplus, Cmult, RtoC. cbn. f_equal; ring. Qed.
Lemma mix1_hermitian l s t h h' : hermitian (K := CC) l h -> hermitian (K := CC) l h' -> hermitian (K := CC) l (mix1 s t h h').
Proof. intros A B p q Hp Hq. unfold mix1. etransitivity; [apply (f_equal2 Cplus); apply (f_equal (Cmult _)); [exact (A p q Hp Hq) | exact (B p q Hp Hq)] | apply conj_mix]. Qed.
Lemma mix2_hermitian l s t u u' : hermitian2 (K := CC) l u -> hermitian2 (K := CC) l u' -> hermitian2 (K := CC) l (mix2 s t u u').
Proof. intros A B p q r v Hp Hq Hr Hv. unfold mix2. etransitivity; [apply (f_equal2 Cplus); apply (f_equal (Cmult _)); [exact (A p q r v Hp Hq Hr Hv) | exact (B p q r v Hp Hq Hr Hv)] | apply conj_mix]. Qed.

(** ** Order of the levels *)
Lemma id_linear n (c : nat -> C) (F : nat -> state) o : (fun f : state => f) (fun o => S_ n (fun j => (c j * F j o)%C)) o = S_ n (fun j => (c j * (fun f : state => f) (F j) o)%C).
Proof. reflexivity. Qed.
Lemma levels_order k l h u h' u' m c : hermitian (K := CC) l h -> hermitian2 (K := CC) l u -> hermitian (K := CC) l h' -> hermitian2 (K := CC) l u' ->
  (forall f, particle_state (spin_orbitals k l) m f -> Re (inner (spin_orbitals k l) f (many_body k l h u f)) + c * Re (inner (spin_orbitals k l) f f) <= Re (inner (spin_orbitals k l) f (many_body k l h' u' f))) ->
  forall d d' E E' Psi Psi', spectrum (spin_orbitals k l) (many_body k l h u) m d E Psi -> spectrum (spin_orbitals k l) (many_body k l h' u') m d' E' Psi' ->
  forall p, (p < d')%nat -> E p + c <= E' p.
Proof.
  intros Hh Hu Hh' Hu' O d d' E E' Psi Psi' S1 S2 p Hp.
  destruct (levels_rise (spin_orbitals k l) (spin_orbitals k l) m d d' (many_body k l h u) (many_body k l h' u') E E' Psi Psi' (fun f => f) (- c)
    (many_body_symmetric k l h u Hh Hu) (many_body_symmetric k l h' u' Hh' Hu') S1 S2 (fun f H => H) (fun n c F o => eq_refl) (fun f g _ _ => eq_refl)) with (p := p) as [_ L]; [|exact Hp|lra].
  intros f Hf. specialize (O f Hf). lra.
Qed.
(** A one-body part at least c higher and a stronger repulsion *)
Lemma energies_shift l h u m c : raising l u -> at_least l h c -> energies_above (2 * l) (many_body Spatial l h u) m (INR m * c).
Proof.
  intros Hu H. cbn [many_body]. change (shalf (s := CC)) with (RtoC (/ 2)). apply ham_above; [lra | apply doubled_raising, Hu |]. apply least_above, doubled_least, H.
Qed.
Lemma spectrum_scal k l t h u m d E Psi : 0 <= t -> spectrum (spin_orbitals k l) (many_body k l h u) m d E Psi ->
  spectrum (spin_orbitals k l) (many_body k l (mix1 t 0 h h) (mix2 t 0 u u)) m d (fun p => t * E p) Psi.
Proof.
  intros Ht [S1 S2 S3 S4]. split; [|exact S2| |exact S4].
  - intros p Hp. destruct (S1 p Hp) as (P1 & P2 & P3 & P4). split; [exact P1|]. split; [exact P2|]. split; [exact P3|]. intros o Ao. rewrite many_mix, (P4 o Ao). rewrite RtoC_mult. generalize (Psi p o). intros z. change (@smul CC) with Cmult. cx. ring.
  - intros p q Hpq Hq. apply Rmult_le_compat_l; [exact Ht | apply S3; assumption].
Qed.
Lemma levels_stronger l h u h' u' m c t t' : 0 <= t -> 0 <= t' -> hermitian (K := CC) l h -> hermitian2 (K := CC) l u -> hermitian (K := CC) l h' -> hermitian2 (K := CC) l u' ->
  at_least l (mix1 t' (- t) h' h) c -> raising l (mix2 t' (- t) u' u) ->
  forall d d' E E' Psi Psi', spectrum (2 * l) (many_body Spatial l h u) m d E Psi -> spectrum (2 * l) (many_body Spatial l h' u') m d' E' Psi' ->
  forall p, (p < d')%nat -> t * E p + INR m * c <= t' * E' p.
Proof.
  intros Ht Ht' Hh Hu Hh' Hu' A B d d' E E' Psi Psi' S1 S2 p Hp.
  refine (levels_order Spatial l _ _ _ _ m (INR m * c) (mix1_hermitian l t 0 h h Hh Hh) (mix2_hermitian l t 0 u u Hu Hu) (mix1_hermitian l t' 0 h' h' Hh' Hh') (mix2_hermitian l t' 0 u' u' Hu' Hu') _
    d d' _ _ Psi Psi' (spectrum_scal Spatial l t h u m d E Psi Ht S1) (spectrum_scal Spatial l t' h' u' m d' E' Psi' Ht' S2) p Hp).
  intros f Hf. destruct (energies_shift l _ _ m c B A f Hf) as [_ L]. rewrite !energy_mix. change (2 * l)%nat with (spin_orbitals Spatial l) in L. rewrite energy_mix in L. lra.
Qed.
Lemma energies_below_of l c t t' (b b' : basis CC) h u h' u' : 0 <= t -> 0 <= t' -> b_arr b F_h = Some h -> b_arr b F_u = Some u -> b_arr b' F_h = Some h' -> b_arr b' F_u = Some u' ->
  hermitian (K := CC) l (mat h) -> hermitian2 (K := CC) l (ten u) -> hermitian (K := CC) l (mat h') -> hermitian2 (K := CC) l (ten u') ->
  at_least l (mix1 t' (- t) (mat h') (mat h)) c -> raising l (mix2 t' (- t) (ten u') (ten u)) -> energies_below l c t t' b b'.
Proof.
  intros Ht Ht' E1 E2 E3 E4 Hh Hu Hh' Hu' A B. exists h, u, h', u'. do 4 (split; [assumption|]). intros m.
  destruct (spectrum_many Spatial l (mat h) (ten u) m Hh Hu) as (E & Psi & S1). destruct (spectrum_many Spatial l (mat h') (ten u') m Hh' Hu') as (E' & Psi' & S2).
  exists E, Psi, E', Psi'. split; [exact S1|]. split; [exact S2|]. exact (levels_stronger l _ _ _ _ m c t t' Ht Ht' Hh Hu Hh' Hu' A B _ _ E E' Psi Psi' S1 S2).
Qed.

(** ** The ground state *)
Lemma ground_bound k l h u m d E Psi : hermitian (K := CC) l h -> hermitian2 (K := CC) l u -> spectrum (spin_orbitals k l) (many_body k l h u) m d E Psi -> (0 < d)%nat ->
  forall f, particle_state (spin_orbitals k l) m f -> E O * Re (inner (spin_orbitals k l) f f) <= Re (inner (spin_orbitals k l) f (many_body k l h u f)).
Proof.
  intros Hh Hu Sp Hd f Hf. rewrite (expand_norm _ m d _ E Psi Sp f Hf), (expand_energy _ m d _ E Psi (many_body_symmetric k l h u Hh Hu) Sp f Hf). cbn [Re RtoC fst].
  rewrite <- rsum_scal. apply rsum_le. intros p Hp. apply Rmult_le_compat_r; [apply pow2_ge_0|]. apply (sp_ascending _ _ _ _ _ _ Sp); lia.
Qed.
Lemma ground_value k l h u m d E Psi : spectrum (spin_orbitals k l) (many_body k l h u) m d E Psi -> (0 < d)%nat ->
  particle_state (spin_orbitals k l) m (Psi O) /\ inner (spin_orbitals k l) (Psi O) (Psi O) = RtoC 1 /\ Re (inner (spin_orbitals k l) (Psi O) (many_body k l h u (Psi O))) = E O.
Proof.
  intros Sp Hd. destruct (sp_state _ _ _ _ _ _ Sp O Hd) as (P1 & P2 & P3 & P4). pose proof (sp_orthonormal _ _ _ _ _ _ Sp O O Hd Hd) as N. split; [exact P1|]. split; [exact N|].
  rewrite (inner_ext_among CC _ _ _ _ P4). etransitivity; [apply (f_equal Re); exact (inner_scal CC _ _ (RtoC (E O)) (Psi O))|]. rewrite N. cbn. ring.
Qed.
Lemma ground_mix k l h u h' u' t m d d0 d1 E Psi E0 Psi0 E1 Psi1 : 0 <= t <= 1 -> hermitian (K := CC) l h -> hermitian2 (K := CC) l u -> hermitian (K := CC) l h' -> hermitian2 (K := CC) l u' ->
  spectrum (spin_orbitals k l) (many_body k l h u) m d0 E0 Psi0 -> spectrum (spin_orbitals k l) (many_body k l h' u') m d1 E1 Psi1 ->
  spectrum (spin_orbitals k l) (many_body k l (mix1 (1 - t) t h h') (mix2 (1 - t) t u u')) m d E Psi -> (0 < d0)%nat -> (0 < d1)%nat -> (0 < d)%nat ->
  (1 - t) * E0 O + t * E1 O <= E O.
Proof.
  intros Ht Hh Hu Hh' Hu' S0 S1 Sp H0 H1 Hd. destruct (ground_value k l _ _ m d E Psi Sp Hd) as (P & N & V). rewrite <- V, energy_mix.
  pose proof (ground_bound k l h u m d0 E0 Psi0 Hh Hu S0 H0 _ P) as L0. pose proof (ground_bound k l h' u' m d1 E1 Psi1 Hh' Hu' S1 H1 _ P) as L1.
  rewrite N in L0, L1. cbn [Re RtoC fst] in L0, L1. apply Rplus_le_compat; apply Rmult_le_compat_l; lra.
Qed.
Lemma choose_pos n : forall k, (k <= n)%nat -> (0 < choose n k)%nat.
Proof. induction n as [|n IH]; intros [|k] H; cbn [choose]; try lia. pose proof (IH k ltac:(lia)). lia. Qed.
Lemma ground_concave_of l t (b0 b1 b : basis CC) h0 u0 h1 u1 h u : 0 <= t <= 1 -> b_arr b0 F_h = Some h0 -> b_arr b0 F_u = Some u0 -> b_arr b1 F_h = Some h1 -> b_arr b1 F_u = Some u1 ->
  b_arr b F_h = Some h -> b_arr b F_u = Some u -> hermitian (K := CC) l (mat h0) -> hermitian2 (K := CC) l (ten u0) -> hermitian (K := CC) l (mat h1) -> hermitian2 (K := CC) l (ten u1) ->
  (forall p q, (p < l)%nat -> (q < l)%nat -> mix1 (1 - t) t (mat h0) (mat h1) p q = mat h p q) ->
  (forall p q r s, (p < l)%nat -> (q < l)%nat -> (r < l)%nat -> (s < l)%nat -> mix2 (1 - t) t (ten u0) (ten u1) p q r s = ten u p q r s) ->
  ground_concave l t b0 b1 b.
Proof.
  intros Ht E1 E2 E3 E4 E5 E6 Hh0 Hu0 Hh1 Hu1 Gh Gu. exists h0, u0, h1, u1, h, u. do 6 (split; [assumption|]). intros m Hm.
  destruct (spectrum_many Spatial l _ _ m Hh0 Hu0) as (F0 & Psi0 & S0). destruct (spectrum_many Spatial l _ _ m Hh1 Hu1) as (F1 & Psi1 & S1).
  destruct (spectrum_many Spatial l _ _ m (mix1_hermitian l (1 - t) t _ _ Hh0 Hh1) (mix2_hermitian l (1 - t) t _ _ Hu0 Hu1)) as (F & Psi & Sp).
  exists F0, Psi0, F1, Psi1, F, Psi. pose proof (choose_pos (2 * l) m Hm) as D. do 2 (split; [assumption|]). split; [|split; [exact D|]].
  - destruct Sp as [P1 P2 P3 P4]. split; try assumption. intros p Hp. destruct (P1 p Hp) as (Q1 & Q2 & Q3 & Q4). split; [exact Q1|]. split; [exact Q2|]. split; [exact Q3|].
    intros o Ao. rewrite <- (Q4 o Ao). symmetry. apply many_coeff; assumption.
  - exact (ground_mix Spatial l _ _ _ _ t m _ _ _ F Psi F0 Psi0 F1 Psi1 Ht Hh0 Hu0 Hh1 Hu1 S0 S1 Sp D D D).
Qed.
(** In terms of differences and averages of elements *)
Lemma least_ext l h h' c : (forall p q, (p < l)%nat -> (q < l)%nat -> h p q = h' p q) -> at_least l h c -> at_least l h' c.
Proof.
  intros E H x. specialize (H x). assert (Q : expectation l h' x = expectation l h x); [|rewrite Q; exact H].
  unfold expectation. apply csum_ext; intros p Hp. apply csum_ext; intros q Hq. rewrite E by assumption. reflexivity.
Qed.
Lemma levels_difference l h u h' u' c : hermitian (K := CC) l h -> hermitian2 (K := CC) l u -> hermitian (K := CC) l h' -> hermitian2 (K := CC) l u' ->
  at_least l (fun p q => (h' p q - h p q)%C) c -> raising l (fun p q r s => (u' p q r s - u p q r s)%C) ->
  forall m d d' E E' Psi Psi', spectrum (2 * l) (many_body Spatial l h u) m d E Psi -> spectrum (2 * l) (many_body Spatial l h' u') m d' E' Psi' ->
  d = d' /\ forall p, (p < d)%nat -> E p + INR m * c <= E' p.
Proof.
  intros Hh Hu Hh' Hu' A B m d d' E E' Psi Psi' S1 S2.
  destruct (spectrum_many Spatial l h u m Hh Hu) as (E2 & Psi2 & S3). destruct (spectrum_many Spatial l h' u' m Hh' Hu') as (E4 & Psi4 & S4).
  destruct (energies_unique Spatial l h u Hh Hu m _ _ _ _ _ _ S1 S3) as (D1 & _). destruct (energies_unique Spatial l h' u' Hh' Hu' m _ _ _ _ _ _ S2 S4) as (D2 & _).
  assert (D : d = d') by congruence. split; [exact D|]. intros p Hp.
  assert (Q : 1 * E p + INR m * c <= 1 * E' p); [|lra].
  apply (levels_stronger l h u h' u' m c 1 1 ltac:(lra) ltac:(lra) Hh Hu Hh' Hu') with (d := d) (d' := d') (Psi := Psi) (Psi' := Psi'); try assumption; [| |lia].
  - refine (least_ext l _ _ c _ A). intros p1 q1 _ _. unfold mix1. generalize (h p1 q1), (h' p1 q1). intros y z. cring.
  - refine (raising_ext l _ _ _ B). intros p1 q1 r1 s1 _ _ _ _. unfold mix2. generalize (u p1 q1 r1 s1), (u' p1 q1 r1 s1). intros y z. cring.
Qed.
Lemma ground_average k l h0 u0 h1 u1 h u t : 0 <= t <= 1 -> hermitian (K := CC) l h0 -> hermitian2 (K := CC) l u0 -> hermitian (K := CC) l h1 -> hermitian2 (K := CC) l u1 ->
  (forall p q, (p < l)%nat -> (q < l)%nat -> h p q = (RtoC (1 - t) * h0 p q + RtoC t * h1 p q)%C) ->
  (forall p q r s, (p < l)%nat -> (q < l)%nat -> (r < l)%nat -> (s < l)%nat -> u p q r s = (RtoC (1 - t) * u0 p q r s + RtoC t * u1 p q r s)%C) ->
  forall m d0 d1 d E0 E1 E Psi0 Psi1 Psi, (m <= spin_orbitals k l)%nat -> spectrum (spin_orbitals k l) (many_body k l h0 u0) m d0 E0 Psi0 ->
  spectrum (spin_orbitals k l) (many_body k l h1 u1) m d1 E1 Psi1 -> spectrum (spin_orbitals k l) (many_body k l h u) m d E Psi -> (1 - t) * E0 O + t * E1 O <= E O.
Proof.
  intros Ht Hh0 Hu0 Hh1 Hu1 Gh Gu m d0 d1 d E0 E1 E Psi0 Psi1 Psi Hm S0 S1 Sp.
  assert (Sp' : spectrum (spin_orbitals k l) (many_body k l (mix1 (1 - t) t h0 h1) (mix2 (1 - t) t u0 u1)) m d E Psi).
  { destruct Sp as [P1 P2 P3 P4]. split; try assumption. intros p Hp. destruct (P1 p Hp) as (Q1 & Q2 & Q3 & Q4). split; [exact Q1|]. split; [exact Q2|]. split; [exact Q3|].
    intros o Ao. rewrite <- (Q4 o Ao). apply many_coeff; intros; symmetry; [apply Gh | apply Gu]; assumption. }
  pose proof (mix1_hermitian l (1 - t) t h0 h1 Hh0 Hh1) as Hh. pose proof (mix2_hermitian l (1 - t) t u0 u1 Hu0 Hu1) as Hu.
  assert (D : forall h u d E Psi, hermitian (K := CC) l h -> hermitian2 (K := CC) l u -> spectrum (spin_orbitals k l) (many_body k l h u) m d E Psi -> (0 < d)%nat).
  { intros h2 u2 d2 E2 Psi2 A B S2. destruct (spectrum_many k l h2 u2 m A B) as (E3 & Psi3 & S3). destruct (energies_unique k l h2 u2 A B m _ _ _ _ _ _ S2 S3) as (-> & _). apply choose_pos, Hm. }
  apply (ground_mix k l h0 u0 h1 u1 t m d d0 d1 E Psi E0 Psi0 E1 Psi1); try assumption; [exact (D _ _ _ _ _ Hh0 Hu0 S0) | exact (D _ _ _ _ _ Hh1 Hu1 S1) | exact (D _ _ _ _ _ Hh Hu Sp')].
Qed.
