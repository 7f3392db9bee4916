(** What change_to_general_orbital_basis and
    anti_symmetrize_two_body_elements do to a basis object. *)
From Coq Require Import List Arith ZArith Lia Bool.
From Verif Require Import Scalar Py Numpy NumpyFacts Spec TransformFacts BasisSet BasisSpec BasisFacts
  ChangeProofs ConvProofs.
Import ListNotations.

Lemma mod2_cases p : p mod 2 = 0 \/ p mod 2 = 1.
Proof. pose proof (Nat.mod_upper_bound p 2). lia. Qed.
Lemma even_mod2 p : Nat.even p = (p mod 2 =? 0).
Proof.
  destruct (mod2_cases p) as [E|E]; rewrite E; cbn.
  - apply Nat.even_spec. exists (p / 2). pose proof (Nat.div_mod p 2). lia.
  - rewrite <- Nat.negb_odd. assert (Nat.odd p = true) as ->; [|reflexivity].
    apply Nat.odd_spec. exists (p / 2). pose proof (Nat.div_mod p 2). lia.
Qed.
Lemma same_parity_mod2 p q : same_parity p q = (p mod 2 =? q mod 2).
Proof.
  unfold same_parity. rewrite !even_mod2.
  destruct (mod2_cases p) as [E|E], (mod2_cases q) as [F|F]; rewrite E, F; reflexivity.
Qed.
Lemma div2_lt p l : p < 2 * l -> p / 2 < l.
Proof. intros H. apply Nat.div_lt_upper_bound; lia. Qed.

Section Spin.
  Variable K : scalar.
  Local Open Scope K_scope.
  Add Ring Kring : (s_ring K).
  Notation arr := (arr K).
  Notation basis := (basis K).
  Implicit Types (b : basis).

  Definition accepted (a b : list K) : Prop :=
    length a = 2%nat /\ length b = 2%nat /\
    small (ip2 a a - 1) = true /\ small (ip2 b b - 1) = true /\ small (ip2 a b - 0) = true.
  Lemma orthonormal_accepted (a b : list K) : orthonormal_pair a b -> accepted a b.
  Proof.
    intros (La & Lb & E1 & E2 & E3). unfold accepted. rewrite E1, E2, E3.
    assert (H1 : 1 - 1 = (0 : K)) by ring. assert (H0 : 0 - 0 = (0 : K)) by ring.
    rewrite H1, H0, (small_0 K). auto.
  Qed.

  (** element doubling *)
  Lemma dbl1_delta (h : nat -> nat -> K) P Q :
    h (P / 2)%nat (Q / 2)%nat * (if (P mod 2 =? Q mod 2)%nat then 1 else 0) = dbl1 h P Q.
  Proof. unfold dbl1. rewrite same_parity_mod2. destruct (_ =? _)%nat; ring. Qed.
  Lemma add_spin_one_body_spec (h : arr) l : shape h = [l; l] ->
    shape (add_spin_one_body h) = [2 * l; 2 * l]%nat /\
    dt (add_spin_one_body h) = dmax (dt h) Float64 /\
    forall P Q, mat (add_spin_one_body h) P Q = dbl1 (mat h) P Q.
  Proof.
    intros H. unfold add_spin_one_body. destruct (kron22 K h (eye 2) l l 2 2 H eq_refl) as (S & D & G).
    rewrite (Nat.mul_comm 2). split; [exact S|]. split; [exact D|]. intros P Q. rewrite G.
    rewrite <- dbl1_delta. reflexivity.
  Qed.
  Lemma add_spin_two_body_spec c (u : arr) l : shape u = [l; l; l; l] ->
    exists u', add_spin_two_body c u = Ok u' /\ shape u' = [2 * l; 2 * l; 2 * l; 2 * l]%nat /\
    forall P Q R S, ten u' P Q R S = dbl2 (ten u) P Q R S.
  Proof.
    intros H. assert (E : add_spin_two_body c u = add_spin_two_body_base u).
    { unfold add_spin_two_body, ndim. rewrite H. destruct c; reflexivity. }
    rewrite E. unfold add_spin_two_body_base.
    destruct (outer22 K (eye 2) (eye 2) 2 2 2 2 eq_refl eq_refl) as (e & -> & Se & _ & Ge). cbn [rbind].
    destruct (kron44 K u e l l l l 2 2 2 2 H Se) as (S4 & D4 & G4).
    exists (kron u e). split; [reflexivity|]. rewrite (Nat.mul_comm 2). split; [exact S4|].
    intros P Q R S. rewrite G4, Ge. unfold dbl2. rewrite !same_parity_mod2. unfold mat. cbn [eye get].
    destruct (P mod 2 =? R mod 2)%nat, (Q mod 2 =? S mod 2)%nat; cbn [andb]; ring.
  Qed.
  Lemma add_spin_spf_spec (a : arr) l g : shape a = l :: g ->
    exists a', add_spin_spf a = Ok a' /\ shape a' = (2 * l)%nat :: g /\ dt a' = dt a /\
      forall P x, get a' (P :: x) = get a ((P / 2)%nat :: x).
  Proof.
    intros H. unfold add_spin_spf. rewrite H. eexists. split; [reflexivity|]. cbn [shape dt get].
    rewrite (Nat.mul_comm 2). split; [reflexivity|]. split; [reflexivity|].
    intros P x. rewrite Nat.div2_div. destruct (Nat.even P); reflexivity.
  Qed.

  (** anti-symmetrization *)
  Lemma anti_symmetrize_u_spec c (u : arr) n : shape u = [n; n; n; n] ->
    exists u', anti_symmetrize_u c u = Ok u' /\ shape u' = [n; n; n; n] /\
      forall p q r s, (p < n)%nat -> (q < n)%nat -> (r < n)%nat -> (s < n)%nat ->
        ten u' p q r s = exch (ten u) p q r s.
  Proof.
    intros H. assert (E : anti_symmetrize_u c u = anti_symmetrize_u_base u).
    { unfold anti_symmetrize_u, ndim. rewrite H. destruct c; reflexivity. }
    rewrite E. unfold anti_symmetrize_u_base.
    destruct (transpose_last K u n n n n H) as (t & -> & St & _ & Gt). cbn [rbind].
    destruct (broadcast2_same K ssub u t) as (c' & Ec & Sc & _ & Gc); [congruence|].
    exists c'. split; [exact Ec|]. split; [congruence|].
    intros p q r s Hp Hq Hr Hs. unfold exch. rewrite <- (Gt p q r s). unfold ten. rewrite Gc.
    - reflexivity.
    - rewrite H. repeat constructor; assumption.
  Qed.
  Lemma anti_symmetrize_ok b n u : b_asym b = false -> b_l b = n -> b_arr b F_u = Some u ->
    shape u = [n; n; n; n] ->
    (forall a, b_arr b F_sp2tb = Some a -> shape a = [n; n; n; n] /\ b_spin b = true) ->
    exists b' u', anti_symmetrize_two_body b = (Ok tt, b') /\ b_asym b' = true /\
      same_but K [F_u; F_sp2tb] (set_asym true b) b' /\
      b_arr b' F_u = Some u' /\ shape u' = [n; n; n; n] /\
      (forall p q r s, (p < n)%nat -> (q < n)%nat -> (r < n)%nat -> (s < n)%nat ->
         ten u' p q r s = exch (ten u) p q r s) /\
      match b_arr b F_sp2tb, b_arr b' F_sp2tb with
      | None, None => True
      | Some t, Some t' => shape t' = [n; n; n; n] /\
          forall p q r s, (p < n)%nat -> (q < n)%nat -> (r < n)%nat -> (s < n)%nat ->
            ten t' p q r s = exch (ten t) p q r s
      | _, _ => False
      end.
  Proof.
    intros Ha Hl Hu Su Ht. unfold anti_symmetrize_two_body. unfold bind at 1. cbn [get_st]. rewrite Ha.
    rewrite (bind_ok K _ _ _ u b) by (rewrite Hu; reflexivity).
    destruct (anti_symmetrize_u_spec (b_cls b) u n Su) as (u' & Eu & Su' & Gu).
    rewrite (bind_ok K _ _ _ u' b) by (rewrite Eu; reflexivity).
    rewrite (bind_ok K _ _ _ tt (set_arr F_u (Some u') b)) by
      (apply set_sq_ok; rewrite Hl; apply check_axes4; exact Su').
    destruct (b_arr b F_sp2tb) as [t|] eqn:Et.
    - rewrite (bind_ok K _ _ _ (Some t) (set_arr F_u (Some u') b)) by
        (unfold rd; cbn [set_arr b_arr]; rewrite upd_other by discriminate; rewrite Et; reflexivity).
      destruct (Ht t eq_refl) as [St Hspin].
      destruct (anti_symmetrize_u_spec (b_cls b) t n St) as (t' & Et' & St' & Gt).
      rewrite (bind_ok K _ _ _ tt (set_arr F_sp2tb (Some t') (set_arr F_u (Some u') b))).
      2:{ rewrite (bind_ok K _ _ _ t' (set_arr F_u (Some u') b)) by (rewrite Et'; reflexivity).
          apply set_spin_op_ok; cbn; [exact Hspin | rewrite Hl; apply check_axes4; exact St']. }
      eexists _, u'. split; [reflexivity|]. split; [reflexivity|]. split; [sb|].
      split; [reflexivity|]. split; [exact Su'|]. split; [exact Gu|]. cbn. auto.
    - rewrite (bind_ok K _ _ _ None (set_arr F_u (Some u') b)) by
        (unfold rd; cbn [set_arr b_arr]; rewrite upd_other by discriminate; rewrite Et; reflexivity).
      rewrite (bind_ok K _ _ _ tt (set_arr F_u (Some u') b)) by reflexivity.
      eexists _, u'. split; [reflexivity|]. split; [reflexivity|]. split; [sb|].
      split; [reflexivity|]. split; [exact Su'|]. split; [exact Gu|]. cbn. rewrite Et. exact I.
  Qed.
  Lemma anti_symmetrize_again b : b_asym b = true -> anti_symmetrize_two_body b = (Ok tt, b).
  Proof. intros H. unfold anti_symmetrize_two_body, bind, get_st. rewrite H. reflexivity. Qed.

  (** Pauli matrices *)
  Definition spin_col (a : list K) : arr := column (of_list Complex128 a).
  Lemma spin_col_shape (a : list K) : length a = 2%nat -> shape (spin_col a) = [2; 1]%nat.
  Proof. intros H. cbn. rewrite H. reflexivity. Qed.
  Lemma spin_col_get (a : list K) i j : mat (spin_col a) i j = nth i a 0.
  Proof. reflexivity. Qed.
  Lemma braket_spec (a b : list K) (m : arr) : length a = 2%nat -> length b = 2%nat -> shape m = [2; 2]%nat ->
    braket (spin_col a) m (spin_col b)
    = Ok (sumn 2 (fun x => sconj (nth x a 0) * sumn 2 (fun y => mat m x y * nth y b 0))).
  Proof.
    intros Ha Hb Hm. unfold braket.
    destruct (dot22 K m (spin_col b) 2 2 1 Hm (spin_col_shape b Hb)) as (mt & E1 & S1 & _ & G1).
    rewrite E1. cbn [rbind].
    destruct (dagger_spec K (spin_col a) 2 1 (spin_col_shape a Ha)) as [Sd Gd].
    destruct (dot22 K (dagger (spin_col a)) mt 1 2 1 Sd S1) as (r & E2 & S2 & _ & G2).
    rewrite E2. cbn [rbind]. rewrite S2. cbn [list_eqb]. rewrite !Nat.eqb_refl. cbn [andb]. f_equal.
    change (get r [0%nat; 0%nat]) with (mat r 0 0). rewrite G2. apply sumn_ext. intros x Hx.
    rewrite Gd, G1. reflexivity.
  Qed.
  Lemma sigma_mat_spec (m : arr) (a b : list K) (sg : nat -> nat -> K) :
    length a = 2%nat -> length b = 2%nat -> shape m = [2; 2]%nat ->
    (forall i j, (i < 2)%nat -> (j < 2)%nat -> mat m i j = sg i j) ->
    exists r, sigma_mat m (spin_col a) (spin_col b) = Ok r /\ shape r = [2; 2]%nat /\ dt r = Complex128 /\
      forall i j, mat r i j = T1 2 sg (spin_cols a b) (adj (spin_cols a b)) i j.
  Proof.
    intros Ha Hb Hm Hg. unfold sigma_mat. rewrite !braket_spec by assumption. cbn [rbind].
    eexists. split; [reflexivity|]. split; [reflexivity|]. split; [reflexivity|].
    intros i j. unfold mat at 1. cbn [of_2x2 get].
    assert (E : forall c d : list K, sumn 2 (fun x => sconj (nth x c 0) * sumn 2 (fun y => mat m x y * nth y d 0))
      = sumn 2 (fun x => sumn 2 (fun y => sconj (nth x c 0) * sg x y * nth y d 0))).
    { intros c d. apply sumn_ext. intros x Hx. rewrite sumn_mul_l. apply sumn_ext. intros y Hy.
      rewrite Hg by assumption. ring. }
    rewrite !E. unfold T1, adj, spin_cols.
    destruct (i =? 0)%nat, (j =? 0)%nat; reflexivity.
  Qed.
  Lemma sigma_lit (i j : nat) : (i < 2)%nat -> (j < 2)%nat ->
    mat (sigma_x_mat K) i j = pauli_x i j /\ mat (sigma_y_mat K) i j = pauli_y i j /\
    mat (sigma_z_mat K) i j = pauli_z i j.
  Proof. intros Hi Hj. destruct i as [|[|i]]; [| |lia]; (destruct j as [|[|j]]; [| |lia]); repeat split. Qed.
  Lemma pauli_spec (a b : list K) : length a = 2%nat -> length b = 2%nat ->
    exists x y z, setup_pauli_matrices (spin_col a) (spin_col b) = Ok (x, y, z) /\
      (shape x = [2; 2]%nat /\ dt x = Complex128 /\
        forall i j, mat x i j = T1 2 pauli_x (spin_cols a b) (adj (spin_cols a b)) i j) /\
      (shape y = [2; 2]%nat /\ dt y = Complex128 /\
        forall i j, mat y i j = T1 2 pauli_y (spin_cols a b) (adj (spin_cols a b)) i j) /\
      (shape z = [2; 2]%nat /\ dt z = Complex128 /\
        forall i j, mat z i j = T1 2 pauli_z (spin_cols a b) (adj (spin_cols a b)) i j).
  Proof.
    intros Ha Hb. unfold setup_pauli_matrices.
    destruct (sigma_mat_spec (sigma_x_mat K) a b pauli_x Ha Hb eq_refl) as (x & -> & Hx);
      [intros; apply sigma_lit; assumption|].
    destruct (sigma_mat_spec (sigma_y_mat K) a b pauli_y Ha Hb eq_refl) as (y & -> & Hy);
      [intros; apply sigma_lit; assumption|].
    destruct (sigma_mat_spec (sigma_z_mat K) a b pauli_z Ha Hb eq_refl) as (z & -> & Hz);
      [intros; apply sigma_lit; assumption|].
    cbn [rbind]. exists x, y, z. split; [reflexivity|]. auto.
  Qed.
  Lemma check_ip_spec (x y : list K) c b : length x = 2%nat -> length y = 2%nat ->
    check_ip (spin_col x) (spin_col y) c b
    = ((if small (ip2 x y - c) then Ok tt else Err AssertionError), b).
  Proof.
    intros Hx Hy. unfold check_ip, bind, lift.
    destruct (dagger_spec K (spin_col x) 2 1 (spin_col_shape x Hx)) as [Sd Gd].
    destruct (dot22 K (dagger (spin_col x)) (spin_col y) 1 2 1 Sd (spin_col_shape y Hy)) as (r & E & _ & _ & G).
    rewrite E. change (get r [0%nat; 0%nat]) with (mat r 0 0). rewrite G.
    assert (E2 : sumn 2 (fun k => mat (dagger (spin_col x)) 0 k * mat (spin_col y) k 0) = ip2 x y).
    { unfold ip2. apply sumn_ext. intros k Hk. rewrite Gd. reflexivity. }
    rewrite E2. unfold py_assert. destruct (small _); reflexivity.
  Qed.

  (** S^2 *)
  Lemma spin_squared_spec (sx sy sz s : arr) n :
    shape sx = [n; n] -> shape sy = [n; n] -> shape sz = [n; n] -> shape s = [n; n] ->
    dt sx = Complex128 -> dt sy = Complex128 -> dt sz = Complex128 ->
    exists s2 tb, setup_spin_squared sx sy sz s = Ok (s2, tb) /\
      shape s2 = [n; n] /\ shape tb = [n; n; n; n] /\
      (forall P Q, (P < n)%nat -> (Q < n)%nat -> mat s2 P Q =
        let F S := mmul n (mmul n (mat S) (mat s)) (mat S) P Q in F sx + F sy + F sz) /\
      (forall P Q R T, (P < n)%nat -> (Q < n)%nat -> (R < n)%nat -> (T < n)%nat -> ten tb P Q R T =
        let F S := mat S P R * mat S Q T in F sx + F sy + F sz).
  Proof.
    intros Hx Hy Hz Hs Dx Dy Dz. unfold setup_spin_squared, alen. rewrite Hx. cbn [rbind].
    assert (Step : forall (S s2 tb : arr), shape S = [n; n] -> dt S = Complex128 ->
      shape s2 = [n; n] -> dt s2 = Complex128 -> shape tb = [n; n; n; n] -> dt tb = Complex128 ->
      exists s2' tb',
       (let! t := matmul S s in let! t := matmul t S in let! s2' := iadd s2 t in
        let! e := einsum_outer S S in let! tb' := iadd tb e in Ok (s2', tb')) = Ok (s2', tb') /\
       shape s2' = [n; n] /\ dt s2' = Complex128 /\ shape tb' = [n; n; n; n] /\ dt tb' = Complex128 /\
       (forall P Q, (P < n)%nat -> (Q < n)%nat -> mat s2' P Q = mat s2 P Q + mmul n (mmul n (mat S) (mat s)) (mat S) P Q) /\
       (forall P Q R T, (P < n)%nat -> (Q < n)%nat -> (R < n)%nat -> (T < n)%nat ->
          ten tb' P Q R T = ten tb P Q R T + mat S P R * mat S Q T)).
    { intros S s2 tb HS DS H2 D2 H4 D4.
      destruct (matmul22 K S s n n n HS Hs) as (t1 & E1 & S1 & D1 & G1). rewrite E1. cbn [rbind].
      destruct (matmul22 K t1 S n n n S1 HS) as (t2 & E2 & S2 & D2' & G2). rewrite E2. cbn [rbind].
      destruct (inplace_same K sadd s2 t2) as (s2' & E3 & S3 & D3 & G3); [congruence | rewrite D2; apply castable_complex|].
      unfold iadd at 1. rewrite E3. cbn [rbind].
      destruct (outer22 K S S n n n n HS HS) as (e & E4 & S4 & _ & G4). rewrite E4. cbn [rbind].
      destruct (inplace_same K sadd tb e) as (tb' & E5 & S5 & D5 & G5); [congruence | rewrite D4; apply castable_complex|].
      unfold iadd at 1. rewrite E5. cbn [rbind].
      exists s2', tb'. split; [reflexivity|]. repeat split; try congruence.
      - intros P Q HP HQ. unfold mat at 1. rewrite G3 by (rewrite H2; repeat constructor; assumption).
        change (get t2 [P; Q]) with (mat t2 P Q). rewrite G2. f_equal. unfold mmul at 1. apply sumn_ext. intros.
        rewrite G1. reflexivity.
      - intros P Q R T HP HQ HR HT. unfold ten at 1. rewrite G5 by (rewrite H4; repeat constructor; assumption).
        change (get e [P; Q; R; T]) with (ten e P Q R T). rewrite G4. reflexivity. }
    cbn [rfold]. cbn [fst snd].
    destruct (Step sx (zeros_like sx) (zeros [n; n; n; n] (dt sx))) as (a1 & t1 & -> & Sa1 & Da1 & St1 & Dt1 & Ga1 & Gt1);
      try assumption; try reflexivity.
    cbn [rbind fst snd].
    destruct (Step sy a1 t1) as (a2 & t2 & -> & Sa2 & Da2 & St2 & Dt2 & Ga2 & Gt2); try assumption.
    cbn [rbind fst snd].
    destruct (Step sz a2 t2) as (a3 & t3 & -> & Sa3 & Da3 & St3 & Dt3 & Ga3 & Gt3); try assumption.
    cbn [rbind fst snd].
    exists a3, t3. split; [reflexivity|]. repeat split; try assumption.
    - intros P Q HP HQ. rewrite Ga3, Ga2, Ga1 by assumption. change (mat (zeros_like sx) P Q) with (0 : K). cbv beta zeta. ring.
    - intros P Q R T HP HQ HR HT. rewrite Gt3, Gt2, Gt1 by assumption. change (ten (zeros [n; n; n; n] (dt sx)) P Q R T) with (0 : K). cbv beta zeta. ring.
  Qed.

  Definition spin_fields : list field :=
    [F_a; F_b; F_sigx; F_sigy; F_sigz; F_spx; F_spy; F_spz; F_sp2; F_sp2tb].

  Lemma set_sigma_ok f a b : b_spin b = true -> set_sigma f a b = (Ok tt, set_arr f (Some a) b).
  Proof. intros H. unfold set_sigma, bind, get_st. rewrite H. reflexivity. Qed.

  Lemma setup_spin_ops_ok (va vb : list K) (s s' : arr) l b : accepted va vb ->
    shape s = [l; l] -> b_spin b = true -> b_l b = (2 * l)%nat -> b_arr b F_s = Some s' ->
    shape s' = [2 * l; 2 * l]%nat ->
    exists b', setup_spin_ops s va vb b = (Ok tt, b') /\ same_but K spin_fields b b' /\
      stored [2; 2]%nat (T1 2 pauli_x (spin_cols va vb) (adj (spin_cols va vb))) (b_arr b' F_sigx) /\
      stored [2; 2]%nat (T1 2 pauli_y (spin_cols va vb) (adj (spin_cols va vb))) (b_arr b' F_sigy) /\
      stored [2; 2]%nat (T1 2 pauli_z (spin_cols va vb) (adj (spin_cols va vb))) (b_arr b' F_sigz) /\
      stored [2 * l; 2 * l]%nat (spin_matrix pauli_x va vb (mat s)) (b_arr b' F_spx) /\
      stored [2 * l; 2 * l]%nat (spin_matrix pauli_y va vb (mat s)) (b_arr b' F_spy) /\
      stored [2 * l; 2 * l]%nat (spin_matrix pauli_z va vb (mat s)) (b_arr b' F_spz) /\
      (exists a, b_arr b' F_sp2 = Some a /\ shape a = [2 * l; 2 * l]%nat /\
        forall P Q, (P < 2 * l)%nat -> (Q < 2 * l)%nat -> mat a P Q =
        let S sg := spin_matrix sg va vb (mat s) in
        let SSS sg := mmul (2 * l) (mmul (2 * l) (S sg) (mat s')) (S sg) P Q in
        SSS pauli_x + SSS pauli_y + SSS pauli_z) /\
      (exists a, b_arr b' F_sp2tb = Some a /\ shape a = [2 * l; 2 * l; 2 * l; 2 * l]%nat /\
        forall P Q R T, (P < 2 * l)%nat -> (Q < 2 * l)%nat -> (R < 2 * l)%nat -> (T < 2 * l)%nat ->
        ten a P Q R T =
        let S sg := spin_matrix sg va vb (mat s) in
        let SS sg := S sg P R * S sg Q T in SS pauli_x + SS pauli_y + SS pauli_z).
  Proof.
    intros (La & Lb & C1 & C2 & C3) Ss Hspin Hl Hs' Ss'. unfold setup_spin_ops.
    change (column (of_list Complex128 va)) with (spin_col va).
    change (column (of_list Complex128 vb)) with (spin_col vb).
    cbv beta zeta.
    rewrite (bind_ok K _ _ _ tt (set_arr F_a (Some (spin_col va)) b)) by reflexivity.
    set (b1 := set_arr F_a (Some (spin_col va)) b).
    rewrite (bind_ok K _ _ _ tt (set_arr F_b (Some (spin_col vb)) b1)) by reflexivity.
    set (b2 := set_arr F_b (Some (spin_col vb)) b1).
    rewrite (bind_ok K _ _ _ tt b2) by (rewrite check_ip_spec, C1 by assumption; reflexivity).
    rewrite (bind_ok K _ _ _ tt b2) by (rewrite check_ip_spec, C2 by assumption; reflexivity).
    rewrite (bind_ok K _ _ _ tt b2) by (rewrite check_ip_spec, C3 by assumption; reflexivity).
    destruct (pauli_spec va vb La Lb) as (x & y & z & Ep & (Sx & Dx & Gx) & (Sy & Dy & Gy) & (Sz & Dz & Gz)).
    rewrite (bind_ok K _ _ _ (x, y, z) b2) by (unfold lift; rewrite Ep; reflexivity). cbv beta iota.
    rewrite (bind_ok K _ _ _ tt (set_arr F_sigx (Some x) b2)) by (apply set_sigma_ok; exact Hspin).
    set (b3 := set_arr F_sigx (Some x) b2).
    rewrite (bind_ok K _ _ _ tt (set_arr F_sigy (Some y) b3)) by (apply set_sigma_ok; exact Hspin).
    set (b4 := set_arr F_sigy (Some y) b3).
    rewrite (bind_ok K _ _ _ tt (set_arr F_sigz (Some z) b4)) by (apply set_sigma_ok; exact Hspin).
    set (b5 := set_arr F_sigz (Some z) b4).
    assert (HS : forall (m : arr) sg, shape m = [2; 2]%nat -> dt m = Complex128 ->
      (forall i j, mat m i j = T1 2 sg (spin_cols va vb) (adj (spin_cols va vb)) i j) ->
      shape (scale Float64 shalf (kron s m)) = [2 * l; 2 * l]%nat /\
      dt (scale Float64 shalf (kron s m)) = Complex128 /\
      forall P Q, mat (scale Float64 shalf (kron s m)) P Q = spin_matrix sg va vb (mat s) P Q).
    { intros m sg Sm Dm Gm. destruct (kron22 K s m l l 2 2 Ss Sm) as (S1 & D1 & G1).
      cbn [scale shape dt]. rewrite S1, D1, Dm, dmax_complex_r, (Nat.mul_comm 2).
      split; [reflexivity|]. split; [reflexivity|]. intros P Q. unfold spin_matrix. rewrite <- Gm, <- G1. reflexivity. }
    destruct (HS x pauli_x Sx Dx Gx) as (Sxx & Dxx & Gxx). destruct (HS y pauli_y Sy Dy Gy) as (Syy & Dyy & Gyy).
    destruct (HS z pauli_z Sz Dz Gz) as (Szz & Dzz & Gzz).
    set (mx := scale Float64 shalf (kron s x)) in *. set (my := scale Float64 shalf (kron s y)) in *.
    set (mz := scale Float64 shalf (kron s z)) in *.
    rewrite (bind_ok K _ _ _ tt (set_arr F_spx (Some mx) b5)) by
      (apply set_spin_op_ok; [exact Hspin | apply check_axes2; cbn; rewrite Hl; exact Sxx]).
    set (b6 := set_arr F_spx (Some mx) b5).
    rewrite (bind_ok K _ _ _ tt (set_arr F_spy (Some my) b6)) by
      (apply set_spin_op_ok; [exact Hspin | apply check_axes2; cbn; rewrite Hl; exact Syy]).
    set (b7 := set_arr F_spy (Some my) b6).
    rewrite (bind_ok K _ _ _ tt (set_arr F_spz (Some mz) b7)) by
      (apply set_spin_op_ok; [exact Hspin | apply check_axes2; cbn; rewrite Hl; exact Szz]).
    set (b8 := set_arr F_spz (Some mz) b7).
    rewrite (bind_ok K _ _ _ b8 b8) by reflexivity.
    rewrite (bind_ok K _ _ _ mx b8) by reflexivity.
    rewrite (bind_ok K _ _ _ my b8) by reflexivity.
    rewrite (bind_ok K _ _ _ mz b8) by reflexivity.
    rewrite (bind_ok K _ _ _ s' b8) by (cbn; rewrite Hs'; reflexivity).
    destruct (spin_squared_spec mx my mz s' (2 * l) Sxx Syy Szz Ss' Dxx Dyy Dzz) as (s2 & tb & E2 & S2 & Stb & G2 & Gtb).
    rewrite (bind_ok K _ _ _ (s2, tb) b8) by (unfold lift; rewrite E2; reflexivity). cbn [fst snd].
    rewrite (bind_ok K _ _ _ tt (set_arr F_sp2 (Some s2) b8)) by
      (apply set_spin_op_ok; [exact Hspin | apply check_axes2; cbn; rewrite Hl; exact S2]).
    set (b9 := set_arr F_sp2 (Some s2) b8).
    exists (set_arr F_sp2tb (Some tb) b9).
    split; [apply set_spin_op_ok; [exact Hspin | apply check_axes4; cbn; rewrite Hl; exact Stb]|].
    assert (M1 : forall P Q sg m, (forall P Q, mat m P Q = spin_matrix sg va vb (mat s) P Q) ->
      mmul (2 * l) (mmul (2 * l) (mat m) (mat s')) (mat m) P Q
      = mmul (2 * l) (mmul (2 * l) (spin_matrix sg va vb (mat s)) (mat s')) (spin_matrix sg va vb (mat s)) P Q).
    { intros P Q sg m G. unfold mmul. apply sumn_ext. intros X HX. rewrite G. f_equal.
      apply sumn_ext. intros Y HY. rewrite G. reflexivity. }
    split; [|repeat split].
    - repeat split. intros f Hf. cbn [set_arr b_arr].
      unfold b9, b8, b7, b6, b5, b4, b3, b2, b1. cbn [set_arr b_arr].
      destruct f; try reflexivity; exfalso; apply Hf; cbn; tauto.
    - exists x. auto.
    - exists y. auto.
    - exists z. auto.
    - exists mx. auto.
    - exists my. auto.
    - exists mz. auto.
    - exists s2. split; [reflexivity|]. split; [exact S2|]. intros P Q HP HQ. rewrite G2 by assumption. cbv beta zeta.
      rewrite (M1 P Q pauli_x mx Gxx), (M1 P Q pauli_y my Gyy), (M1 P Q pauli_z mz Gzz). reflexivity.
    - exists tb. split; [reflexivity|]. split; [exact Stb|]. intros P Q R T HP HQ HR HT. rewrite Gtb by assumption.
      cbv beta zeta. rewrite !Gxx, !Gyy, !Gzz. reflexivity.
  Qed.
End Spin.
