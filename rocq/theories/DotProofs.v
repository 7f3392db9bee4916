(** The constructor of one-dimensional quantum dots. *)
From Coq Require Import List Arith ZArith Reals Lra Lia Bool.
From Coquelicot Require Import Coquelicot.
From Verif Require Import Scalar ScalarC Py Numpy BasisSet Spec BasisSpec BasisFacts OneDim OneDimSpec OneDimProofs.
Import ListNotations.
Open Scope R_scope.

Lemma csum_ext n (f g : nat -> C) : (forall k, (k < n)%nat -> f k = g k) -> csum n f = csum n g.
Proof. apply (sumn_ext CC). Qed.
Lemma csum_scal n (x : C) (f : nat -> C) : (x * csum n f)%C = csum n (fun k => (x * f k)%C).
Proof. apply (sumn_mul_l CC). Qed.
Lemma csum_add n (f g : nat -> C) : csum n (fun k => (f k + g k)%C) = (csum n f + csum n g)%C.
Proof. apply (sumn_add CC). Qed.
Lemma csum_zero n (f : nat -> C) : (forall k, (k < n)%nat -> f k = RtoC 0) -> csum n f = RtoC 0.
Proof. apply (sumn_zero' CC). Qed.
Lemma csum_pick n j (f : nat -> C) : (j < n)%nat -> (forall k, (k < n)%nat -> k <> j -> f k = RtoC 0) -> csum n f = f j.
Proof. apply (sumn_pick CC). Qed.
Lemma csum_conj n (f : nat -> C) : Cconj (csum n f) = csum n (fun k => Cconj (f k)).
Proof. apply (sumn_conj CC). Qed.
Lemma csum_first n (f : nat -> C) : csum (S n) f = (f 0%nat + csum n (fun i => f (S i)))%C.
Proof. pose proof (sumn_app CC 1 n f) as E. cbn [Nat.add] in E. rewrite E. cbn [sumn]. cbn [sadd CC s0]. cr. Qed.

Section Dot.
  Variables (npm : nat) (spin anti : bool) (l : nat) (L : R) (N : nat) (a alpha beta : R) (V : R -> R).
  Variable eigh : nat -> (nat -> nat -> R) -> (nat -> R) * (nat -> nat -> R).
  Notation grid := (linspace L N).
  Notation dot := (odqd npm spin anti l L N a alpha beta V eigh).
  Notation phi := (odqd_spf L N V eigh).
  Notation energy := (odqd_energy L N V eigh).

  Definition dot_basis : basis CC :=
    let put f x b := set_arr f (Some x) b in
    put F_dip (arr3 1 l l Complex128 (fun _ p q => odqd_dipole L N beta V eigh p q))
    (put F_u (arr4 l Complex128 (orbital_integral phi N grid alpha a))
    (put F_s (eye l)
    (put F_h (diag l Complex128 (fun p => RtoC (energy p)))
    (put F_spf (arr2 l N Complex128 (fun p i => phi (if (l =? 1)%nat then 0%nat else p) i))
    (put F_spf (arr2 l N Complex128 (fun _ _ => RtoC 0))
    (put F_grid (arr1 N Float64 (fun i => RtoC (grid i)))
    (new_basis CC Base npm l 1 spin anti))))))).

  Lemma dot_ok : (3 <= N)%nat -> (l <= N - 2)%nat -> dot = (Ok tt, dot_basis).
  Proof.
    intros H3 Hl. unfold odqd, odqd_init. erewrite bind_ok; [|reflexivity]. unfold odqd_setup.
    destruct (Nat.ltb_spec N 2) as [?|_]; [lia|]. destruct (Nat.ltb_spec N 3) as [?|_]; [lia|].
    erewrite bind_ok; [|reflexivity]. erewrite bind_ok; [|reflexivity]. rewrite Nat.min_l by exact Hl.
    erewrite bind_ok; [|apply (set_orbitals_ok CC) with (g := [N]); reflexivity].
    rewrite Nat.eqb_refl. cbn [orb]. erewrite bind_ok; [|reflexivity]. erewrite bind_ok; [|reflexivity].
    erewrite bind_ok; [|apply (set_sq_ok CC); apply (check_axes2 CC); reflexivity].
    erewrite bind_ok; [|apply (set_sq_ok CC); apply (check_axes2 CC); reflexivity].
    erewrite bind_ok; [|apply (set_sq_ok CC); apply (check_axes4 CC); reflexivity].
    rewrite (set_dipole_ok CC) by reflexivity. reflexivity.
  Qed.
  Lemma dot_raises : (N < 3 \/ N - 2 < l)%nat -> exists e b, dot = (Err e, b).
  Proof.
    intros H. unfold odqd, odqd_init. erewrite bind_ok; [|reflexivity]. unfold odqd_setup.
    destruct (Nat.ltb_spec N 2) as [?|H2]; [eexists; eexists; erewrite bind_err; [|reflexivity]; reflexivity|]. erewrite bind_ok; [|reflexivity].
    destruct (Nat.ltb_spec N 3) as [?|H3]; [eexists; eexists; erewrite bind_err; [|reflexivity]; reflexivity|]. erewrite bind_ok; [|reflexivity].
    assert (Hl : (N - 2 < l)%nat) by lia. rewrite Nat.min_r by lia.
    erewrite bind_ok; [|apply (set_orbitals_ok CC) with (g := [N]); reflexivity].
    destruct (Nat.eqb_spec (N - 2) l) as [?|_]; [lia|]. cbn [orb].
    destruct (Nat.eqb_spec (N - 2) 1) as [E|E]; [|eexists; eexists; erewrite bind_err; [|reflexivity]; reflexivity].
    erewrite bind_ok; [|reflexivity]. erewrite bind_ok; [|reflexivity].
    eexists; eexists. erewrite bind_err; [reflexivity|]. apply (set_sq_err CC).
    unfold check_axes. cbn. destruct (Nat.eqb_spec l (N - 2)) as [?|_]; [lia|]. reflexivity.
  Qed.
  Lemma dot_raises_iff : (exists e b, dot = (Err e, b)) <-> (N < 3 \/ N - 2 < l)%nat.
  Proof.
    split; [|apply dot_raises]. intros (e & b & E). destruct (le_lt_dec 3 N) as [H|H]; [|lia]. destruct (le_lt_dec l (N - 2)) as [H'|H']; [|lia].
    rewrite dot_ok in E by assumption. discriminate E.
  Qed.
  Lemma dot_result b : dot = (Ok tt, b) -> b = dot_basis /\ (3 <= N)%nat /\ (l <= N - 2)%nat.
  Proof.
    intros E. destruct (le_lt_dec 3 N) as [H|H]; [|destruct dot_raises as (e & b' & E'); [lia | rewrite E' in E; discriminate E]].
    destruct (le_lt_dec l (N - 2)) as [H'|H']; [|destruct dot_raises as (e & b' & E'); [lia | rewrite E' in E; discriminate E]].
    rewrite dot_ok in E by assumption. injection E as <-. auto.
  Qed.
  Lemma dot_ready : ready dot_basis l.
  Proof.
    split; try (cbn; eauto; fail).
    - intros x E. injection E as <-. reflexivity.
    - intros x E. injection E as <-. cbn. auto.
    - intros x E. injection E as <-. exists [N]. auto.
    - intros x E. discriminate E.
    - intros f x [<-|[<-|[<-|[<-|[]]]]] E; discriminate E.
    - intros x E. discriminate E.
  Qed.

  (** ** Orbitals *)
  Lemma phi_first p : phi p 0 = RtoC 0.
  Proof. reflexivity. Qed.
  Lemma phi_last p : phi p (N - 1) = RtoC 0.
  Proof. unfold odqd_spf. rewrite Nat.eqb_refl, orb_true_r. reflexivity. Qed.
  Lemma phi_inner p i : (i < N - 2)%nat -> phi p (S i) = RtoC (snd (eigh (N - 2)%nat (grid_hamiltonian L N V)) i p / sqrt (grid 1%nat - grid 0%nat)).
  Proof.
    intros H. unfold odqd_spf. cbn [Nat.eqb orb]. destruct (N - 1)%nat as [|k] eqn:E; [lia|]. destruct (Nat.eqb_spec i k) as [?|_]; [lia|].
    rewrite Nat.sub_succ, Nat.sub_0_r. reflexivity.
  Qed.
  Lemma phi_real p i : Cconj (phi p i) = phi p i.
  Proof. unfold odqd_spf. destruct (_ || _); apply RtoC_conj. Qed.
  Lemma step_pos : 0 < L -> (3 <= N)%nat -> 0 < grid 1%nat - grid 0%nat.
  Proof. intros H H3. rewrite (linspace_step L N 0). apply Rdiv_lt_0_compat; [lra|]. apply lt_0_INR. lia. Qed.
  (** Sums with vanishing ends *)
  Lemma trapezoid_interior f : (3 <= N)%nat -> f 0%nat = RtoC 0 -> f (N - 1)%nat = RtoC 0 ->
    trapezoid N f grid = (RtoC (grid 1%nat - grid 0%nat) * csum (N - 2) (fun i => f (S i)))%C.
  Proof.
    intros H3 H0 Hl. rewrite <- trapz_uniform by apply linspace_uniform. rewrite trapz_sum. set (d := grid 1%nat - grid 0%nat).
    assert (E : csum (N - 1) (fun i => (f i + f (S i))%C) = (RtoC 2 * csum (N - 2) (fun i => f (S i)))%C).
    { rewrite csum_add. replace (N - 1)%nat with (S (N - 2)) at 1 by lia. rewrite csum_first, H0.
      replace (csum (N - 1) (fun i => f (S i))) with (csum (N - 2) (fun i => f (S i)) + RtoC 0)%C.
      - replace (RtoC 2) with (RtoC 1 + RtoC 1)%C by (rewrite <- RtoC_plus; f_equal; ring). cr.
      - replace (N - 1)%nat with (S (N - 2)) by lia. cbn [sumn]. cbn [sadd CC]. f_equal. rewrite <- Hl. f_equal. lia. }
    rewrite E. rewrite Cmult_assoc, <- RtoC_mult. f_equal. f_equal. field.
  Qed.

  Section Eigen.
    Hypothesis (HL : 0 < L) (H3 : (3 <= N)%nat).
    Notation hg := (grid_hamiltonian L N V).
    Notation dx := (grid 1%nat - grid 0%nat).
    Notation w := (fst (eigh (N - 2)%nat hg)).
    Notation v := (snd (eigh (N - 2)%nat hg)).
    Hypothesis H : eigenbasis (N - 2) hg w v.

    Lemma sqrt_step : sqrt dx * sqrt dx = dx.
    Proof. apply sqrt_sqrt. pose proof (step_pos HL H3). lra. Qed.
    Lemma sqrt_step_pos : 0 < sqrt dx.
    Proof. apply sqrt_lt_R0, step_pos; assumption. Qed.
    Lemma phi_overlap p q : (p < N - 2)%nat -> (q < N - 2)%nat -> trapezoid N (fun i => (Cconj (phi p i) * phi q i)%C) grid = kronecker p q.
    Proof.
      intros Hp Hq. rewrite trapezoid_interior; [|exact H3|cbv beta; rewrite (phi_first q); cr|cbv beta; rewrite (phi_last q); cr].
      rewrite <- (eb_orthonormal _ _ _ _ H p q Hp Hq). rewrite csum_scal. apply csum_ext. intros i Hi. rewrite phi_real, !phi_inner by exact Hi.
      rewrite <- !RtoC_mult. f_equal. pose proof sqrt_step_pos as A. rewrite <- sqrt_step at 1. field. lra.
    Qed.
    (** A row of the matrix: second differences *)
    Lemma tri_sum n (d : R) (o : R) (F : nat -> C) i : (i < n)%nat -> F 0%nat = RtoC 0 -> F (S n) = RtoC 0 ->
      csum n (fun j => (RtoC (if (i =? j)%nat then d else if (j + 1 =? i)%nat then o else if (i + 1 =? j)%nat then o else 0) * F (S j))%C)
      = (RtoC d * F (S i) + RtoC o * F i + RtoC o * F (S (S i)))%C.
    Proof.
      intros Hi F0 Fn.
      transitivity (csum n (fun j => ((if (i =? j)%nat then RtoC d * F (S j) else RtoC 0) + (if (j + 1 =? i)%nat then RtoC o * F (S j) else RtoC 0) + (if (i + 1 =? j)%nat then RtoC o * F (S j) else RtoC 0))%C)).
      { apply csum_ext. intros j _. destruct (Nat.eqb_spec i j), (Nat.eqb_spec (j + 1) i), (Nat.eqb_spec (i + 1) j); try lia; cr. }
      rewrite !csum_add. f_equal; [f_equal|].
      - rewrite (csum_pick n i _ Hi) by (intros k _ Hk; destruct (Nat.eqb_spec i k); [lia|reflexivity]). rewrite Nat.eqb_refl. reflexivity.
      - destruct i as [|i].
        + rewrite csum_zero by (intros k _; destruct (Nat.eqb_spec (k + 1) 0); [lia|reflexivity]). rewrite F0. cr.
        + rewrite (csum_pick n i _ ltac:(lia)) by (intros k _ Hk; destruct (Nat.eqb_spec (k + 1) (S i)); [lia|reflexivity]).
          replace (i + 1)%nat with (S i) by lia. rewrite Nat.eqb_refl. reflexivity.
      - destruct (Nat.eq_dec (S i) n) as [E|E].
        + rewrite csum_zero by (intros k Hk; destruct (Nat.eqb_spec (i + 1) k); [lia|reflexivity]). rewrite E, Fn. cr.
        + rewrite (csum_pick n (S i) _ ltac:(lia)) by (intros k _ Hk; destruct (Nat.eqb_spec (i + 1) k); [lia|reflexivity]).
          replace (i + 1)%nat with (S i) by lia. rewrite Nat.eqb_refl. reflexivity.
    Qed.
    Lemma phi_eigen p i : (p < N - 2)%nat -> (i < N - 2)%nat -> difference_hamiltonian dx V grid (phi p) (S i) = (RtoC (energy p) * phi p (S i))%C.
    Proof.
      intros Hp Hi. pose proof (eb_eigen _ _ _ _ H i p Hi Hp) as E. pose proof (step_pos HL H3) as Hd. pose proof sqrt_step_pos as Hs.
      assert (E' : csum (N - 2) (fun j => (RtoC (hg i j) * phi p (S j))%C) = (RtoC (w p) * phi p (S i))%C).
      { rewrite phi_inner by exact Hi. rewrite (csum_ext _ _ (fun j => (RtoC (/ sqrt dx) * (RtoC (hg i j) * RtoC (v j p)))%C)).
        - rewrite <- csum_scal, E, <- !RtoC_mult. f_equal. field. lra.
        - intros j Hj. rewrite phi_inner by exact Hj. rewrite <- !RtoC_mult. f_equal. field. lra. }
      unfold grid_hamiltonian in E' at 1.
      rewrite (tri_sum (N - 2) (1 / dx ^ 2 + V (grid (S i))) (-1 / (2 * dx ^ 2)) (phi p) i Hi (phi_first p)) in E' by (replace (S (N - 2)) with (N - 1)%nat by lia; apply phi_last).
      unfold energy. rewrite <- E'. unfold difference_hamiltonian. replace (S i + 1)%nat with (S (S i)) by lia. replace (S i - 1)%nat with i by lia.
      replace (RtoC (1 / dx ^ 2 + V (grid (S i)))) with (RtoC (1 / dx ^ 2) + RtoC (V (grid (S i))))%C by (rewrite RtoC_plus; reflexivity).
      replace (-1 / (2 * dx ^ 2)) with (- / (2 * dx ^ 2)) by (field; lra).
      replace (RtoC (1 / dx ^ 2)) with (- (RtoC 2 * RtoC (- / (2 * dx ^ 2))))%C by (rewrite <- RtoC_mult, <- RtoC_opp; f_equal; field; lra). cr.
    Qed.
    Lemma phi_matrix p q : (p < N - 2)%nat -> (q < N - 2)%nat ->
      trapezoid N (fun i => (Cconj (phi p i) * difference_hamiltonian dx V grid (phi q) i)%C) grid = (if (p =? q)%nat then RtoC (energy p) else RtoC 0).
    Proof.
      intros Hp Hq. rewrite trapezoid_interior; [|exact H3|cbv beta; rewrite phi_real, (phi_first p); cr|cbv beta; rewrite phi_real, (phi_last p); cr].
      transitivity (RtoC (energy q) * kronecker p q)%C; [|unfold kronecker; destruct (Nat.eqb_spec p q) as [->|_]; cr].
      rewrite <- (phi_overlap p q Hp Hq), trapezoid_interior; [|exact H3|cbv beta; rewrite (phi_first q); cr|cbv beta; rewrite (phi_last q); cr].
      rewrite !csum_scal. apply csum_ext. intros i Hi. rewrite phi_eigen by assumption. cr.
    Qed.
  End Eigen.
  Lemma dipole_hermitian p q : odqd_dipole L N beta V eigh p q = Cconj (odqd_dipole L N beta V eigh q p).
  Proof.
    unfold odqd_dipole, np_trapz. rewrite csum_conj. apply csum_ext. intros i _.
    rewrite !C_conj_mul, !RtoC_conj, C_conj_add, !C_conj_mul, !RtoC_conj, !phi_real. cr.
  Qed.
End Dot.

(** ** What the constructor returns *)
Lemma linspace_point L N i : linspace L N i = point L N i.
Proof. unfold linspace, point, Rdiv. ring. Qed.
Lemma linspace_spacing L N : linspace L N 1 - linspace L N 0 = spacing L N.
Proof. apply linspace_step. Qed.
Lemma trapezoid_ext n f g x y : (forall i, f i = g i) -> (forall i, x i = y i) -> trapezoid n f x = trapezoid n g y.
Proof. intros E F. rewrite !trapezoid_sum. apply csum_ext. intros i _. rewrite !E, !F. reflexivity. Qed.
Section Returned.
  Variables (npm : nat) (spin anti : bool) (l : nat) (L : R) (N : nat) (a alpha beta : R) (V : R -> R).
  Variable eigh : nat -> (nat -> nat -> R) -> (nat -> R) * (nat -> nat -> R).
  Notation dot := (odqd npm spin anti l L N a alpha beta V eigh).
  Notation phi := (odqd_spf L N V eigh).
  Variable b : basis CC.
  Hypothesis Hb : dot = (Ok tt, b).
  Lemma dot_spf : exists spf, b_arr b F_spf = Some spf /\ shape spf = [l; N] /\ forall p i, (p < l)%nat -> get spf [p; i] = phi p i.
  Proof.
    destruct (dot_result _ _ _ _ _ _ _ _ _ _ _ _ Hb) as (-> & _ & _). eexists. split; [reflexivity|]. split; [reflexivity|]. intros p i Hp. cbn [get arr2].
    destruct (Nat.eqb_spec l 1) as [E|_]; [|reflexivity]. replace p with 0%nat by lia. reflexivity.
  Qed.
  Lemma dot_two_body : exists u, b_arr b F_u = Some u /\ shape u = [l; l; l; l] /\ particle_sym l (ten u) /\ hermitian2 l (ten u).
  Proof.
    destruct (dot_result _ _ _ _ _ _ _ _ _ _ _ _ Hb) as (-> & _ & _). eexists. split; [reflexivity|]. split; [reflexivity|].
    split; [apply u_particle_sym | apply u_hermitian].
  Qed.
  Lemma dot_two_body_value : exists spf u, b_arr b F_spf = Some spf /\ b_arr b F_u = Some u /\
    forall p q r s, (p < l)%nat -> (q < l)%nat -> (r < l)%nat -> (s < l)%nat ->
    let x := point L N in let f p i := (get spf [p; i] : C) in
    ten u p q r s = trapezoid N (fun i => (Cconj (f p i) * trapezoid N (fun j => (Cconj (f q j) * RtoC (alpha / sqrt ((x i - x j) ^ 2 + a ^ 2)) * f s j)%C) x * f r i)%C) x.
  Proof.
    destruct dot_spf as (spf & E & _ & G). destruct (dot_result _ _ _ _ _ _ _ _ _ _ _ _ Hb) as (Eb & _ & _).
    exists spf. eexists. split; [exact E|]. split; [rewrite Eb; reflexivity|]. intros p q r s Hp Hq Hr Hs x f.
    change (orbital_integral phi N (linspace L N) alpha a p q r s = trapezoid N (fun i => (Cconj (f p i) * trapezoid N (fun j => (Cconj (f q j) * RtoC (alpha / sqrt ((x i - x j) ^ 2 + a ^ 2)) * f s j)%C) x * f r i)%C) x).
    unfold orbital_integral. rewrite trapz_uniform by apply linspace_uniform. apply trapezoid_ext; [|apply linspace_point]. intros i.
    unfold inner_integral. rewrite trapz_uniform by apply linspace_uniform. unfold f. rewrite (G p), (G r) by assumption. f_equal. f_equal.
    apply trapezoid_ext; [|apply linspace_point]. intros j. unfold shielded_coulomb. rewrite (G q), (G s), !linspace_point by assumption. reflexivity.
  Qed.
  Lemma dot_dipole : exists spf d, b_arr b F_spf = Some spf /\ b_arr b F_dip = Some d /\ shape d = [1; l; l]%nat /\
    (forall p q, (p < l)%nat -> (q < l)%nat -> let x := point L N in
      get d [0; p; q]%nat = trapezoid N (fun i => (Cconj (get spf [p; i]) * RtoC (x i + beta * x i ^ 2) * get spf [q; i])%C) x) /\
    hermitian l (fun p q => get d [0; p; q]%nat).
  Proof.
    destruct dot_spf as (spf & E & _ & G). destruct (dot_result _ _ _ _ _ _ _ _ _ _ _ _ Hb) as (Eb & _ & _).
    exists spf. eexists. split; [exact E|]. split; [rewrite Eb; reflexivity|]. split; [reflexivity|]. split.
    - intros p q Hp Hq x. change (odqd_dipole L N beta V eigh p q = trapezoid N (fun i => (Cconj (get spf [p; i]) * RtoC (x i + beta * x i ^ 2) * get spf [q; i])%C) x).
      unfold odqd_dipole. rewrite np_trapz_right. apply trapezoid_ext; [|apply linspace_point]. intros i. rewrite (G p), (G q), !linspace_point by assumption. reflexivity.
    - intros p q _ _. apply dipole_hermitian.
  Qed.
  Lemma dot_orthonormal : 0 < L ->
    eigenbasis (N - 2) (grid_hamiltonian L N V) (fst (eigh (N - 2)%nat (grid_hamiltonian L N V))) (snd (eigh (N - 2)%nat (grid_hamiltonian L N V))) ->
    exists spf h s, b_arr b F_spf = Some spf /\ b_arr b F_h = Some h /\ b_arr b F_s = Some s /\
    shape spf = [l; N] /\ shape h = [l; l] /\ shape s = [l; l] /\
    (forall p, (p < l)%nat -> get spf [p; 0]%nat = RtoC 0 /\ get spf [p; N - 1]%nat = RtoC 0) /\
    (forall p q, (p < l)%nat -> (q < l)%nat ->
      trapezoid N (fun i => (Cconj (get spf [p; i]) * get spf [q; i])%C) (point L N) = kronecker p q /\ mat s p q = kronecker p q) /\
    (forall p i, (p < l)%nat -> (0 < i < N - 1)%nat ->
      difference_hamiltonian (spacing L N) V (point L N) (fun i => get spf [p; i]) i = (mat h p p * get spf [p; i])%C) /\
    (forall p q, (p < l)%nat -> (q < l)%nat ->
      mat h p q = trapezoid N (fun i => (Cconj (get spf [p; i]) * difference_hamiltonian (spacing L N) V (point L N) (fun i => get spf [q; i]) i)%C) (point L N)) /\
    (forall p q, (p < l)%nat -> (q < l)%nat -> p <> q -> mat h p q = RtoC 0) /\
    (forall p q, (p <= q)%nat -> (q < l)%nat -> Re (mat h p p) <= Re (mat h q q)).
  Proof.
    intros HL H. destruct dot_spf as (spf & E & Sh & G). destruct (dot_result _ _ _ _ _ _ _ _ _ _ _ _ Hb) as (Eb & H3 & Hl).
    assert (DH : forall p i, (p < l)%nat -> difference_hamiltonian (spacing L N) V (point L N) (fun i => get spf [p; i]) i = difference_hamiltonian (linspace L N 1 - linspace L N 0) V (linspace L N) (phi p) i).
    { intros p i Hp. unfold difference_hamiltonian. rewrite !G by exact Hp. rewrite linspace_spacing, linspace_point. reflexivity. }
    exists spf. eexists. eexists. split; [exact E|]. split; [rewrite Eb; reflexivity|]. split; [rewrite Eb; reflexivity|]. split; [exact Sh|]. split; [reflexivity|]. split; [reflexivity|].
    split; [intros p Hp; rewrite !G by exact Hp; split; [apply phi_first | apply phi_last]|].
    split; [|split; [|split; [|split]]].
    - intros p q Hp Hq. split; [|reflexivity]. rewrite <- (phi_overlap L N V eigh HL H3 H p q) by lia. apply trapezoid_ext; [|intros; symmetry; apply linspace_point]. intros i. rewrite (G p), (G q) by assumption. reflexivity.
    - intros p i Hp Hi. rewrite DH, G by exact Hp. destruct i as [|i]; [lia|]. rewrite (phi_eigen L N V eigh HL H3 H p i) by lia. cbn [mat get diag arr2]. rewrite Nat.eqb_refl. reflexivity.
    - intros p q Hp Hq. change (mat _ p q) with (if (p =? q)%nat then RtoC (odqd_energy L N V eigh p) else RtoC 0). rewrite <- (phi_matrix L N V eigh HL H3 H p q) by lia.
      apply trapezoid_ext; [|apply linspace_point]. intros i. rewrite DH by exact Hq. rewrite (G p) by exact Hp. reflexivity.
    - intros p q Hp Hq Hn. change (mat _ p q) with (if (p =? q)%nat then RtoC (odqd_energy L N V eigh p) else RtoC 0). destruct (Nat.eqb_spec p q); [lia|reflexivity].
    - intros p q Hp Hq. cbn [mat get diag arr2]. rewrite !Nat.eqb_refl. apply (eb_ascending _ _ _ _ H); lia.
  Qed.
  Lemma dot_is_ready : ready b l.
  Proof. destruct (dot_result _ _ _ _ _ _ _ _ _ _ _ _ Hb) as (-> & _ & _). apply dot_ready. Qed.
End Returned.

(** ** A dot with two inner points *)
Definition eigh2 (n : nat) (h : nat -> nat -> R) : (nat -> R) * (nat -> nat -> R) :=
  (fun p => if (p =? 0)%nat then h 0%nat 0%nat + h 0%nat 1%nat else h 0%nat 0%nat - h 0%nat 1%nat,
   fun i p => if (p =? 0)%nat || (i =? 0)%nat then / sqrt 2 else - / sqrt 2).
Definition small_well (x : R) : R := x ^ 2 / 2.
Lemma eigh2_right : eigenbasis 2 (grid_hamiltonian (3 / 2) 4 small_well) (fst (eigh2 2 (grid_hamiltonian (3 / 2) 4 small_well))) (snd (eigh2 2 (grid_hamiltonian (3 / 2) 4 small_well))).
Proof.
  assert (S2 : / sqrt 2 * / sqrt 2 = / 2) by (rewrite <- Rinv_mult; rewrite sqrt_sqrt; [reflexivity | lra]).
  set (h := grid_hamiltonian (3 / 2) 4 small_well).
  assert (E0 : h 0%nat 0%nat = 9 / 8) by (unfold h, grid_hamiltonian, small_well, linspace; cbn; field).
  assert (E1 : h 1%nat 1%nat = 9 / 8) by (unfold h, grid_hamiltonian, small_well, linspace; cbn; field).
  assert (E2 : h 0%nat 1%nat = - (1 / 2)) by (unfold h, grid_hamiltonian, small_well, linspace; cbn; field).
  assert (E3 : h 1%nat 0%nat = - (1 / 2)) by (unfold h, grid_hamiltonian, small_well, linspace; cbn; field).
  unfold eigh2. split; cbn [fst snd].
  - intros p q Hp Hq. destruct p as [|[|p]], q as [|[|q]]; try lia; unfold kronecker; cbn [sumn Nat.eqb orb]; cbn [sadd CC s0]; rewrite <- ?RtoC_mult, <- ?RtoC_plus; f_equal; set (z := / sqrt 2) in *; nra.
  - intros i p Hi Hp. destruct i as [|[|i]], p as [|[|p]]; try lia; cbn [sumn Nat.eqb orb]; cbn [sadd CC s0]; rewrite <- ?RtoC_mult, <- ?RtoC_plus; f_equal; rewrite ?E0, ?E1, ?E2, ?E3; ring.
  - intros p q Hp Hq. destruct p as [|[|p]], q as [|[|q]]; try lia; cbn [Nat.eqb]; rewrite ?E0, ?E1, ?E2, ?E3; lra.
Qed.
