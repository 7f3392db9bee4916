(** The Schroedinger equation of the electrons of a system. *)
From Coq Require Import List Arith ZArith Reals Lra Lia Bool.
From Coquelicot Require Import Coquelicot.
From Verif Require Import Scalar ScalarC Py Numpy BasisSet Spec OneDimSpec OneDimProofs DotProofs GridSpec GridProofs PositiveForms SpectralProofs Systems SystemFacts Worlds OperatorSpec OperatorProofs.
From Verif Require Import RaiseTheorems FockSpec FockProofs InnerSpec InnerProofs RaiseSpec RaiseProofs RaiseFock FockSpectrumSpec FockSpectrum GroundTheorems EvolutionSpec EvolutionCalculus EvolutionProofs LinearOde.
Import ListNotations.
Open Scope R_scope.
Local Notation S_ := (sumn (K := CC)).
Local Notation state := (FockSpec.state CC).
Local Notation inner := (InnerSpec.inner (K := CC)).

(** ** Existence *)
Lemma ccont_ext f g : (forall x, f x = g x) -> ccont f -> ccont g.
Proof. intros E F t. destruct (F t) as [A B]. split; [apply (continuous_ext (fun x => Re (f x))); [|exact A] | apply (continuous_ext (fun x => Im (f x))); [|exact B]]; intros x; cbv beta; rewrite E; reflexivity. Qed.
Lemma ccont_hamiltonian n c (h : R -> nat -> nat -> C) (u : R -> nat -> nat -> nat -> nat -> C) (g : state) o :
  (forall p q, (p < n)%nat -> (q < n)%nat -> ccont (fun x => h x p q)) ->
  (forall p q r s, (p < n)%nat -> (q < n)%nat -> (r < n)%nat -> (s < n)%nat -> ccont (fun x => u x p q r s)) ->
  ccont (fun x => hamiltonian (K := CC) n c (h x) (u x) g o).
Proof.
  intros Hh Hu. unfold hamiltonian. refine (ccont_add (fun x => one_body (K := CC) n (h x) g o) (fun x => (c * two_body (K := CC) n (u x) g o)%C) _ _).
  - unfold one_body. apply ccont_sum. intros p Hp. apply ccont_sum. intros q Hq.
    refine (ccont_mul (fun x => h x p q) (fun _ => create p (annihilate q g) o) (Hh p q Hp Hq) (ccont_const _)).
  - refine (ccont_mul (fun _ => c) (fun x => two_body (K := CC) n (u x) g o) (ccont_const _) _).
    unfold two_body. apply ccont_sum. intros p Hp. apply ccont_sum. intros q Hq. apply ccont_sum. intros r Hr. apply ccont_sum. intros s Hs.
    refine (ccont_mul (fun x => u x p q r s) (fun _ => create p (create q (annihilate s (annihilate r g))) o) (Hu p q r s Hp Hq Hr Hs) (ccont_const _)).
Qed.
Lemma ccont_many k l (h : R -> nat -> nat -> C) (u : R -> nat -> nat -> nat -> nat -> C) (g : state) o :
  (forall p q, (p < l)%nat -> (q < l)%nat -> ccont (fun x => h x p q)) ->
  (forall p q r s, (p < l)%nat -> (q < l)%nat -> (r < l)%nat -> (s < l)%nat -> ccont (fun x => u x p q r s)) ->
  ccont (fun x => many_body k l (h x) (u x) g o).
Proof.
  intros Hh Hu. destruct k; cbn [many_body]; [apply ccont_hamiltonian; assumption|].
  apply (ccont_hamiltonian (2 * l) _ (fun x => dbl1 (K := CC) (h x)) (fun x => dbl2 (K := CC) (u x))).
  - intros p q Hp Hq. unfold dbl1. destruct (same_parity _ _); [|apply ccont_const]. apply Hh; apply Nat.div_lt_upper_bound; lia.
  - intros p q r s Hp Hq Hr Hs. unfold dbl2. destruct (_ && _); [|apply ccont_const]. apply Hu; apply Nat.div_lt_upper_bound; lia.
Qed.
Section Existence.
  Variables (n : nat) (H : R -> state -> state).
  Hypothesis HL : forall t, linear CC (H t).
  Hypothesis HP : forall t N f, particle_state n N f -> particle_state n N (H t f).
  Hypothesis HC : forall g o, ccont (fun x => H x g o).
  Lemma sector_solution N (f : state) : particle_state n N f -> exists psi, evolution n H psi /\ same_state n (psi 0) f.
  Proof.
    intros Hf. set (d := length (codes n N)).
    destruct (ode_exists d (fun t i j => (- Ci * xmat n N (H t) i j)%C) (fun i => f (occ_nr n N i))) as (y & Y0 & Yd).
    { intros i j Hi Hj. apply (ccont_mul (fun _ => (- Ci)%C)); [apply ccont_const | apply HC]. }
    exists (fun t => combine n N (fun i => y i t)). split; [split; [intros t; apply combine_proper|]|].
    - intros t o A.
      assert (E : (- Ci * H t (combine n N (fun i => y i t)) o)%C = combine n N (fun i => S_ d (fun j => (- Ci * xmat n N (H t) i j * y j t)%C)) o).
      { pose proof (HP t N _ (combine_particles n N (fun i => y i t))) as [P1 P2].
        apply (state_at n N (fun o => (- Ci * H t (combine n N (fun i => y i t)) o)%C)); [| apply combine_particles | |exact A].
        - split; [intros o1 o2 Eo; rewrite (P1 o1 o2 Eo); reflexivity|]. intros o1 A1 Ne. rewrite (P2 o1 A1 Ne). apply Cmult_0_r.
        - intros i Hi. rewrite combine_at by exact Hi. rewrite (X_combine n N (H t) (HL t)). unfold ap. rewrite csum_scal. apply csum_ext. intros j Hj. apply Cmult_assoc. }
      rewrite E. unfold combine. apply d_sum. intros j Hj.
      apply (d_ext (fun x => (determinant (K := CC) n (occ_nr n N j) o * y j x)%C)); [intros x; apply Cmult_comm|].
      rewrite Cmult_comm. apply d_scal. apply (Yd j t Hj).
    - intros o A. refine (state_at n N _ f (combine_particles n N _) Hf _ o A). intros i Hi. rewrite combine_at by exact Hi. apply Y0.
  Qed.
  Lemma solution_below M : forall f : state, proper f -> (forall o, among n o -> (M <= particles n o)%nat -> f o = RtoC 0) -> exists psi, evolution n H psi /\ same_state n (psi 0) f.
  Proof.
    induction M as [|M IH]; intros f Pf Z.
    - destruct (sector_solution 0 f) as (psi & E); [|exists psi; exact E]. split; [exact Pf|]. intros o A _. apply (Z o A). lia.
    - destruct (IH (part n (fun m => m <? M)%nat f)) as (psi1 & E1 & S1); [apply part_proper, Pf | intros o A L; unfold part; destruct (Nat.ltb_spec (particles n o) M); [lia | reflexivity]|].
      destruct (sector_solution M (part n (fun m => m =? M)%nat f)) as (psi2 & E2 & S2); [split; [apply part_proper, Pf | intros o A L; unfold part; destruct (Nat.eqb_spec (particles n o) M); [contradiction | reflexivity]]|].
      exists (fun t o => (RtoC 1 * psi1 t o + RtoC 1 * psi2 t o)%C). split; [apply (evolution_combination n H psi1 psi2 _ _ HL E1 E2)|].
      intros o A. cbv beta. rewrite (S1 o A), (S2 o A). unfold part. destruct (Nat.ltb_spec (particles n o) M) as [L|L], (Nat.eqb_spec (particles n o) M) as [Q|Q]; try lia.
      + symmetry. apply keep_left.
      + symmetry. apply keep_right.
      + rewrite (Z o A) by lia. symmetry. apply keep_left.
  Qed.
  Lemma solution_exists (f : state) : proper f -> exists psi, evolution n H psi /\ same_state n (psi 0) f.
  Proof. intros Pf. apply (solution_below (S n) f Pf). intros o A L. pose proof (particles_le n o). lia. Qed.
End Existence.
Lemma d_shift f t a z : derivative f (t - a) z -> derivative (fun x => f (x - a)) t z.
Proof.
  intros [A B].
  assert (G : forall (g : R -> R) y, is_derive g (t - a) y -> is_derive (fun x => g (x - a)) t y).
  { intros g y D. pose proof (is_derive_comp (K := R_AbsRing) (V := R_NormedModule) g (fun x => x - a) t y 1 D) as W. cbv beta in W.
    replace y with (scal 1 y : R) by (cbn; unfold mult; cbn; ring). apply W. auto_derive; [exact I | ring]. }
  split; [apply (G (fun x => Re (f x))) | apply (G (fun x => Im (f x)))]; assumption.
Qed.
Lemma ccont_shift f a : ccont f -> ccont (fun x => f (x + a)).
Proof.
  intros F t.
  assert (G : forall g : R -> R, continuous g (t + a) -> continuous (fun x => g (x + a)) t).
  { intros g D. apply (continuous_comp (fun x => x + a) g); [|exact D]. apply (continuous_plus (V := R_NormedModule)); [apply continuous_id | apply continuous_const]. }
  destruct (F (t + a)) as [A B]. split; [apply (G (fun x => Re (f x))) | apply (G (fun x => Im (f x)))]; assumption.
Qed.
Lemma solution_from n (H : R -> state -> state) t0 (f : state) : (forall t, linear CC (H t)) -> (forall t N g, particle_state n N g -> particle_state n N (H t g)) -> (forall g o, ccont (fun x => H x g o)) ->
  proper f -> exists psi, evolution n H psi /\ same_state n (psi t0) f.
Proof.
  intros L P Cc Pf. destruct (solution_exists n (fun t => H (t + t0)) (fun t => L (t + t0)) (fun t => P (t + t0)) (fun g o => ccont_shift (fun x => H x g o) t0 (Cc g o)) f Pf) as (psi & [E1 E2] & Z).
  exists (fun t => psi (t - t0)). split; [split; [intros t; apply E1|]|].
  - intros t o A. apply (d_shift (fun x => psi x o)). pose proof (E2 (t - t0) o A) as D. replace (t - t0 + t0) with t in D by ring. exact D.
  - replace (t0 - t0) with 0 by ring. exact Z.
Qed.

(** ** Systems *)
Lemma factor_hermitian l (c : C) u : Im c = 0 -> hermitian2 (K := CC) l u -> hermitian2 (K := CC) l (fun p q r s => (c * u p q r s)%C).
Proof.
  intros I Hu p q r s Hp Hq Hr Hs. cbv beta. rewrite (Hu p q r s Hp Hq Hr Hs). change (@sconj CC) with Cconj. rewrite C_conj_mul. f_equal. destruct c as [x y]. cbn in I. rewrite I. unfold Cconj. cbn. f_equal. ring.
Qed.
Section Driven.
  Variables (w : world CC) (s l : nat) (x : system) (h u : arr CC) (d : option (arr CC)) (M : meaning CC).
  Hypothesis Ev : evolving w s l x h u d M.
  Lemma elements_at t : exists a w2 c, sys_h_t (K := CC) s (RtoC t) w = (Ok (Some a), w2) /\ sys_u_t (K := CC) s (RtoC t) w = (Ok (Some c), w) /\ shape a = [l; l] /\ shape c = [l; l; l; l] /\
    h_at s w t = mat a /\ u_at s w t = ten c.
  Proof.
    destruct (h_t_ok CC w s l x h u d M (RtoC t) Ev) as (a & w2 & E1 & Sa & _ & _). destruct (u_t_ok CC w s l x h u d M (RtoC t) Ev) as (c & E2 & Sc & _).
    exists a, w2, c. split; [exact E1|]. split; [exact E2|]. split; [exact Sa|]. split; [exact Sc|]. unfold h_at, u_at. rewrite E1, E2. split; reflexivity.
  Qed.
  Lemma h_at_eq t p q : (p < l)%nat -> (q < l)%nat -> h_at s w t p q = (mat h p q + one_body_term (K := CC) M d (RtoC t) p q)%C.
  Proof.
    intros Hp Hq. destruct (h_t_ok CC w s l x h u d M (RtoC t) Ev) as (a & w2 & E & _ & G & _). unfold h_at. rewrite E. apply G; assumption.
  Qed.
  Lemma u_at_eq t p q r z : (p < l)%nat -> (q < l)%nat -> (r < l)%nat -> (z < l)%nat -> u_at s w t p q r z = (two_body_factor (K := CC) M (RtoC t) * ten u p q r z)%C.
  Proof.
    intros Hp Hq Hr Hz. destruct (u_t_ok CC w s l x h u d M (RtoC t) Ev) as (a & E & _ & G). unfold u_at. rewrite E. apply G; assumption.
  Qed.
  Hypotheses (Hh : hermitian l (mat h)) (Hu : hermitian2 l (ten u)) (Hd : hermitian_drive l d M).
  Lemma h_at_hermitian t : hermitian (K := CC) l (h_at s w t).
  Proof.
    intros p q Hp Hq. rewrite (h_at_eq t p q Hp Hq), (h_at_eq t q p Hq Hp). destruct (Hd t) as [T _]. rewrite (T p q Hp Hq), (Hh p q Hp Hq).
    symmetry. apply C_conj_add.
  Qed.
  Lemma u_at_hermitian t : hermitian2 (K := CC) l (u_at s w t).
  Proof.
    intros p q r z Hp Hq Hr Hz. rewrite (u_at_eq t p q r z Hp Hq Hr Hz), (u_at_eq t r z p q Hr Hz Hp Hq). destruct (Hd t) as [_ T].
    apply (factor_hermitian l _ (ten u) T Hu p q r z Hp Hq Hr Hz).
  Qed.
  Variable k : kind.
  Local Notation n := (spin_orbitals k l).
  Definition driven (t : R) : state -> state := many_body k l (h_at s w t) (u_at s w t).
  Lemma driven_symmetric t : symmetric_operator n (driven t).
  Proof. apply many_body_symmetric; [apply h_at_hermitian | apply u_at_hermitian]. Qed.
  Lemma driven_conserves :
    (forall psi phi, evolution n driven psi -> evolution n driven phi -> forall t1 t2, inner n (psi t1) (phi t1) = inner n (psi t2) (phi t2)) /\
    (forall psi m t0, evolution n driven psi -> particle_state n m (psi t0) -> forall t, particle_state n m (psi t)) /\
    (forall psi phi t0, evolution n driven psi -> evolution n driven phi -> same_state n (psi t0) (phi t0) -> forall t, same_state n (psi t) (phi t)).
  Proof.
    split; [|split].
    - intros psi phi E1 E2. apply (overlap_kept n driven psi phi driven_symmetric E1 E2).
    - intros psi m t0 E. apply (particles_kept n driven psi m t0 driven_symmetric); [intros t; apply many_linear | intros t; apply many_keeps | exact E].
    - intros psi phi t0 E1 E2. apply (evolution_unique n driven psi phi t0 driven_symmetric); [intros t; apply many_linear | exact E1 | exact E2].
  Qed.
  Lemma driven_exists t0 (f : state) : continuous_drive l d M -> proper f -> exists psi, evolution n driven psi /\ same_state n (psi t0) f.
  Proof.
    intros [C1 C2] Pf. apply solution_from; [intros t; apply many_linear | | |exact Pf].
    - intros t N g Hg. unfold driven. destruct k; apply hamiltonian_particles, Hg.
    - intros g o. apply (ccont_many k l (h_at s w) (u_at s w) g o).
      + intros p q Hp Hq. apply (ccont_ext (fun t => (mat h p q + one_body_term (K := CC) M d (RtoC t) p q)%C)); [intros t; symmetry; apply h_at_eq; assumption|].
        refine (ccont_add (fun _ => mat h p q) (fun t => one_body_term (K := CC) M d (RtoC t) p q) (ccont_const _) (C1 p q Hp Hq)).
      + intros p q r z Hp Hq Hr Hz. apply (ccont_ext (fun t => (two_body_factor (K := CC) M (RtoC t) * ten u p q r z)%C)); [intros t; symmetry; apply u_at_eq; assumption|].
        refine (ccont_mul (fun t => two_body_factor (K := CC) M (RtoC t)) (fun _ => ten u p q r z) C2 (ccont_const _)).
  Qed.
  Lemma driven_rate psi t h' f' : evolution n driven psi ->
    (forall p q, (p < l)%nat -> (q < l)%nat -> derivative (fun y => one_body_term (K := CC) M d (RtoC y) p q) t (h' p q)) ->
    derivative (fun y => two_body_factor (K := CC) M (RtoC y)) t f' ->
    derivative (fun y => inner n (psi y) (driven y (psi y))) t (inner n (psi t) (many_body k l h' (fun p q r z => (f' * ten u p q r z)%C) (psi t))).
  Proof.
    intros E D1 D2. apply (energy_rate k l (h_at s w) (u_at s w) psi t h' (fun p q r z => (f' * ten u p q r z)%C) h_at_hermitian u_at_hermitian); [| |exact E].
    - intros p q Hp Hq. apply (d_ext (fun y => (mat h p q + one_body_term (K := CC) M d (RtoC y) p q)%C)); [intros y; symmetry; apply h_at_eq; assumption|].
      rewrite <- (Cplus_0_l (h' p q)). refine (d_add (fun _ => mat h p q) (fun y => one_body_term (K := CC) M d (RtoC y) p q) t _ _ (d_const _ t) (D1 p q Hp Hq)).
    - intros p q r z Hp Hq Hr Hz. apply (d_ext (fun y => (ten u p q r z * two_body_factor (K := CC) M (RtoC y))%C)).
      { intros y. rewrite (u_at_eq y p q r z Hp Hq Hr Hz). apply Cmult_comm. }
      rewrite (Cmult_comm f'). apply (d_scal (ten u p q r z) (fun y => two_body_factor (K := CC) M (RtoC y))), D2.
  Qed.
End Driven.
Lemma many_observable k l (c : C) A (f : state) : forall o, many_body k l (fun p q => (c * A p q)%C) (fun _ _ _ _ => RtoC 0) f o = (c * observable k l A f o)%C.
Proof.
  assert (G : forall n y B (W : nat -> nat -> nat -> nat -> C) o, (forall p q r s, W p q r s = RtoC 0) -> hamiltonian (K := CC) n y (fun p q => (c * B p q)%C) W f o = (c * one_body (K := CC) n B f o)%C).
  { intros n y B W o HW. unfold hamiltonian. replace (two_body (K := CC) n W f o) with (RtoC 0).
    - rewrite (Cmult_0_r y : smul (s := CC) y (RtoC 0) = RtoC 0). change (@sadd CC) with Cplus. rewrite Cplus_0_r. unfold one_body. rewrite csum_scal. apply csum_ext. intros p _. rewrite csum_scal. apply csum_ext. intros q _. symmetry. apply Cmult_assoc.
    - symmetry. unfold two_body. apply csum_zero. intros p _. apply csum_zero. intros q _. apply csum_zero. intros r _. apply csum_zero. intros s _. rewrite HW. apply Cmult_0_l. }
  intros o. destruct k; cbn [many_body observable].
  - apply G. reflexivity.
  - etransitivity; [|apply (G (2 * l)%nat (shalf (s := CC)) (dbl1 (K := CC) A) (dbl2 (K := CC) (fun _ _ _ _ => RtoC 0)))].
    + unfold hamiltonian. f_equal. unfold one_body. apply csum_ext. intros p _. apply csum_ext. intros q _. f_equal. unfold dbl1. destruct (same_parity p q); [reflexivity|]. symmetry. apply Cmult_0_r.
    + intros p q r s. unfold dbl2. destruct (_ && _); reflexivity.
Qed.

Lemma evolution_driven (w : world CC) s k l x (h u : arr CC) d M : evolving w s l x h u d M -> sy_kind x = k -> hermitian l (mat h) -> hermitian2 l (ten u) -> hermitian_drive l d M ->
  forall ops, List.Forall reads ops -> let w' := wrun_any ops w in let n := spin_orbitals k l in let H t := many_body k l (h_at s w' t) (u_at s w' t) in
  (forall t, exists a w2 c, sys_h_t (K := CC) s (RtoC t) w' = (Ok (Some a), w2) /\ sys_u_t (K := CC) s (RtoC t) w' = (Ok (Some c), w') /\ shape a = [l; l] /\ shape c = [l; l; l; l] /\
     h_at s w' t = mat a /\ u_at s w' t = ten c) /\
  (forall psi phi, evolution n H psi -> evolution n H phi -> forall t1 t2, inner n (psi t1) (phi t1) = inner n (psi t2) (phi t2)) /\
  (forall psi m t0, evolution n H psi -> particle_state n m (psi t0) -> forall t, particle_state n m (psi t)) /\
  (forall psi phi t0, evolution n H psi -> evolution n H phi -> same_state n (psi t0) (phi t0) -> forall t, same_state n (psi t) (phi t)) /\
  (continuous_drive l d M -> forall t0 f, proper f -> exists psi, evolution n H psi /\ same_state n (psi t0) f).
Proof.
  intros Ev0 _ Hh Hu Hd ops Hr w' n H. pose proof (evolving_reads CC ops w s l x h u d M Hr Ev0) as Ev. fold w' in Ev.
  split; [intros t; apply (elements_at w' s l x h u d M Ev t)|].
  destruct (driven_conserves w' s l x h u d M Ev Hh Hu Hd k) as (A & B & Cn). split; [exact A|]. split; [exact B|]. split; [exact Cn|].
  intros Cd t0 f Pf. apply (driven_exists w' s l x h u d M Ev k t0 f Cd Pf).
Qed.
Lemma evolution_rate (w : world CC) s k l x (h u : arr CC) d M : evolving w s l x h u d M -> sy_kind x = k -> hermitian l (mat h) -> hermitian2 l (ten u) -> hermitian_drive l d M ->
  forall ops, List.Forall reads ops -> let w' := wrun_any ops w in let n := spin_orbitals k l in let H t := many_body k l (h_at s w' t) (u_at s w' t) in
  forall psi t h' f', evolution n H psi ->
  (forall p q, (p < l)%nat -> (q < l)%nat -> derivative (fun y => one_body_term (K := CC) M d (RtoC y) p q) t (h' p q)) ->
  derivative (fun y => two_body_factor (K := CC) M (RtoC y)) t f' ->
  derivative (fun y => inner n (psi y) (H y (psi y))) t (inner n (psi t) (many_body k l h' (fun p q r z => (f' * ten u p q r z)%C) (psi t))).
Proof.
  intros Ev0 _ Hh Hu Hd ops Hr w' n H psi t h' f'. pose proof (evolving_reads CC ops w s l x h u d M Hr Ev0) as Ev. fold w' in Ev.
  apply (driven_rate w' s l x h u d M Ev Hh Hu Hd k psi t h' f').
Qed.
Lemma evolution_power (w : world CC) s k l x (h u dp : arr CC) E eps dim : evolving w s l x h u (Some dp) (MLaser E eps) -> sy_kind x = k -> hermitian l (mat h) -> hermitian2 l (ten u) ->
  hermitian_drive l (Some dp) (MLaser E eps) -> shape dp = [dim; l; l] ->
  forall ops, List.Forall reads ops -> let w' := wrun_any ops w in let n := spin_orbitals k l in let H t := many_body k l (h_at s w' t) (u_at s w' t) in
  forall psi t (e : nat -> C) z, evolution n H psi -> (forall y i, eps (RtoC y) i = e i) -> derivative (fun y => E (RtoC y)) t z ->
  derivative (fun y => inner n (psi y) (H y (psi y))) t (z * inner n (psi t) (observable k l (dipole_along (K := CC) dim e dp) (psi t)))%C.
Proof.
  intros Ev Hk Hh Hu Hd Sd ops Hr w' n H psi t e z Epsi He Dz.
  assert (D : derivative (fun y => inner n (psi y) (H y (psi y))) t (inner n (psi t) (many_body k l (fun p q => (z * dipole_along (K := CC) dim e dp p q)%C) (fun p q r y => (RtoC 0 * ten u p q r y)%C) (psi t)))).
  { refine (evolution_rate w s k l x h u (Some dp) (MLaser E eps) Ev Hk Hh Hu Hd ops Hr psi t (fun p q => (z * dipole_along (K := CC) dim e dp p q)%C) (RtoC 0) Epsi _ (d_const (RtoC 1) t)).
    intros p q Hp Hq. cbn [one_body_term]. rewrite Sd. cbn [hd].
    apply (d_ext (fun y => (dipole_along (K := CC) dim e dp p q * E (RtoC y))%C)).
    - intros y. rewrite Cmult_comm. apply (f_equal (Cmult (E (RtoC y)))). unfold dipole_along. apply csum_ext. intros i _. rewrite He. reflexivity.
    - rewrite (Cmult_comm z). apply (d_scal (dipole_along (K := CC) dim e dp p q) (fun y => E (RtoC y))), Dz. }
  match type of D with derivative _ _ ?a => match goal with |- derivative _ _ ?b => replace b with a; [exact D|] end end.
  etransitivity; [apply (inner_ext CC); intros o; etransitivity; [|apply (many_observable k l z (dipole_along (K := CC) dim e dp) (psi t) o)]|].
  - assert (Ez : (fun p q r y : nat => (RtoC 0 * ten u p q r y)%C) = (fun _ _ _ _ => RtoC 0)). { do 4 (apply FunctionalExtensionality.functional_extensionality; intros ?). apply Cmult_0_l. }
    rewrite Ez. reflexivity.
  - apply (inner_scal CC).
Qed.
(** ** Systems without an operator *)
Lemma phase_der E t : derivative (fun y => phase (E * y)) t (- Ci * RtoC E * phase (E * t))%C.
Proof. unfold phase. split; cbn; auto_derive; try exact I; ring. Qed.
Lemma d_mul_r f c t a : derivative f t a -> derivative (fun y => (f y * c)%C) t (a * c)%C.
Proof. intros D. apply (d_ext (fun y => (c * f y)%C)); [intros y; apply Cmult_comm|]. rewrite (Cmult_comm a). apply d_scal, D. Qed.
Lemma spectral_evolution n X N d E Psi (f : state) : linear CC X -> spectrum n X N d E Psi -> particle_state n N f ->
  let psi := fun t o => S_ d (fun p => (phase (E p * t) * inner n (Psi p) f * Psi p o)%C) in
  evolution n (fun _ => X) psi /\ same_state n (psi 0) f.
Proof.
  intros L Sp Hf psi. split; [split|].
  - intros t o o' Eo. unfold psi. apply csum_ext. intros p Hp. destruct (sp_state _ _ _ _ _ _ Sp p Hp) as [[P _] _]. rewrite (P o o' Eo). reflexivity.
  - intros t o A.
    assert (EX : (- Ci * X (psi t) o)%C = S_ d (fun p => (- Ci * RtoC (E p) * phase (E p * t) * (inner n (Psi p) f * Psi p o))%C)).
    { unfold psi. rewrite (lin_sum CC X L d (fun p o => (phase (E p * t) * inner n (Psi p) f * Psi p o)%C) o). rewrite csum_scal. apply csum_ext. intros p Hp.
      rewrite (lin_scal CC X L (phase (E p * t) * inner n (Psi p) f)%C (Psi p) o : X (fun o => (phase (E p * t) * inner n (Psi p) f * Psi p o)%C) o = (phase (E p * t) * inner n (Psi p) f * X (Psi p) o)%C).
      destruct (sp_state _ _ _ _ _ _ Sp p Hp) as [_ (_ & _ & Ep)]. rewrite (Ep o A). change (@smul CC) with Cmult. generalize (phase (E p * t)) (inner n (Psi p) f) (Psi p o). intros c1 c2 c3. cbn in c2, c3. ring. }
    rewrite EX. unfold psi. apply d_sum. intros p Hp.
    apply (d_ext (fun y => (phase (E p * y) * (inner n (Psi p) f * Psi p o))%C)); [intros y; apply Cmult_assoc|]. apply d_mul_r, phase_der.
  - intros o A. rewrite (sp_complete _ _ _ _ _ _ Sp f Hf o A). unfold psi. apply csum_ext. intros p Hp. rewrite Rmult_0_r. unfold phase. rewrite cos_0, sin_0, Ropp_0. f_equal. apply Cmult_1_l.
Qed.
Lemma evolution_stationary (w : world CC) s k N l x (b : basis CC) (h u : arr CC) : sys_at w s k N l x b -> sy_op x = None -> b_arr b F_h = Some h -> b_arr b F_u = Some u ->
  hermitian l (mat h) -> hermitian2 l (ten u) ->
  let n := spin_orbitals k l in let X := many_body k l (mat h) (ten u) in
  (forall t, h_at s w t = mat h /\ u_at s w t = ten u) /\
  forall m psi, evolution n (fun t => many_body k l (h_at s w t) (u_at s w t)) psi -> particle_state n m (psi 0) ->
    (exists E Psi, spectrum n X m (choose n m) E Psi) /\
    (forall E Psi, spectrum n X m (choose n m) E Psi -> forall t,
       same_state n (psi t) (fun o => S_ (choose n m) (fun p => (phase (E p * t) * inner n (Psi p) (psi 0) * Psi p o)%C))) /\
    (forall t, inner n (psi t) (X (psi t)) = inner n (psi 0) (X (psi 0))).
Proof.
  intros At Op Eh Eu Hh Hu n X.
  assert (G : forall t, h_at s w t = mat h /\ u_at s w t = ten u).
  { intros t. unfold h_at, u_at, sys_h_t, sys_u_t. rewrite !(wbind_ok CC _ _ _ _ _ (get_sys_ok CC s w x (at_sys CC _ _ _ _ _ _ _ At))), !Op.
    rewrite !(sys_get_run CC s _ w x b (at_sys CC _ _ _ _ _ _ _ At) (at_bs CC _ _ _ _ _ _ _ At)), Eh, Eu. split; reflexivity. }
  split; [exact G|]. intros m psi E0 P0.
  assert (EH : forall psi, evolution n (fun t => many_body k l (h_at s w t) (u_at s w t)) psi -> evolution n (fun _ => X) psi).
  { intros ps [A1 A2]. split; [exact A1|]. intros t o A. specialize (A2 t o A). cbv beta in A2. destruct (G t) as [G1 G2]. rewrite G1, G2 in A2. exact A2. }
  specialize (EH psi E0). pose proof (many_body_symmetric k l (mat h) (ten u) Hh Hu) as Sy. fold n X in Sy. pose proof (many_linear k l (mat h) (ten u)) as XL. fold X in XL.
  split; [|split].
  - destruct (spectrum_exists n m X XL) as (E & Psi & Sp); [intros f Hf; unfold X; destruct k; apply hamiltonian_particles, Hf | exact Sy|]. rewrite codes_length in Sp. exists E, Psi. exact Sp.
  - intros E Psi Sp t. destruct (spectral_evolution n X m _ E Psi (psi 0) XL Sp P0) as [S1 S2].
    apply (evolution_unique n (fun _ => X) psi _ 0 (fun _ => Sy) (fun _ => XL) EH S1). intros o A. symmetry. apply S2, A.
  - intros t. apply (d_zero (fun y => inner n (psi y) (X (psi y)))). intros y.
    pose proof (energy_rate k l (fun _ => mat h) (fun _ => ten u) psi y (fun _ _ => RtoC 0) (fun _ _ _ _ => RtoC 0) (fun _ => Hh) (fun _ => Hu) (fun p q _ _ => d_const _ y) (fun p q r z _ _ _ _ => d_const _ y) EH) as D. cbv beta zeta in D. fold n X in D.
    match type of D with derivative _ _ ?a => replace a with (RtoC 0) in D; [exact D|] end. symmetry.
    etransitivity; [apply (inner_ext CC n _ _ (fun _ => RtoC 0)); intros o|].
    + pose proof (many_observable k l (RtoC 0) (fun _ _ => RtoC 0) (psi y) o) as Q. rewrite !Cmult_0_l in Q. exact Q.
    + unfold inner. etransitivity; [|exact (total_zero CC n (fun _ => false))]. apply (total_ext CC). intros o' _. apply Cmult_0_r.
Qed.
