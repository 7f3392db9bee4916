(** Occupied and empty spin-orbitals exchanged. *)
From Coq Require Import List Arith Lia Bool Setoid Ring.
From Verif Require Import Scalar Spec EnergySpec FockSpec FockProofs FockSystem InnerSpec HoleProofs.
Import ListNotations.

Section ParticleHole.
  Variable K : scalar.
  Local Open Scope K_scope.
  Add Ring KringPH : (s_ring K).
  Notation state := (state K).
  Implicit Types (f g : state) (o c : occupation) (h : nat -> nat -> K) (u U V : nat -> nat -> nat -> nat -> K).
  Local Infix "==" := (same K) (at level 70).

  (** Occupied spin-orbitals among the first n become empty, and the other way round. *)
  Definition flip (n : nat) o : occupation := fun q => if (q <? n)%nat then negb (o q) else o q.
  Definition alt (p : nat) : K := if Nat.even p then 1 else - (1).
  (** The product of alt q over occupied q *)
  Fixpoint phase (m : nat) o : K := match m with O => 1 | S q => if o q then alt q * phase q o else phase q o end.
  Definition swap (n : nat) f : state := fun o => phase n o * sconj (f (flip n o)).

  Lemma alt_S p : alt (S p) = - alt p.
  Proof. unfold alt. rewrite Nat.even_succ, <- Nat.negb_even. destruct (Nat.even p); cbn; ring. Qed.
  Lemma alt_square p : alt p * alt p = 1.
  Proof. unfold alt. destruct (Nat.even p); ring. Qed.
  Lemma flip_in n o p : (p < n)%nat -> flip n o p = negb (o p).
  Proof. intros H. unfold flip. apply Nat.ltb_lt in H. rewrite H. reflexivity. Qed.
  Lemma flip_flip n o p : flip n (flip n o) p = o p.
  Proof. unfold flip. destruct (Nat.ltb_spec p n); [apply negb_involutive | reflexivity]. Qed.
  Lemma flip_put n p x o : (p < n)%nat -> forall q, flip n (put p x o) q = put p (negb x) (flip n o) q.
  Proof.
    intros H q. unfold flip, put. destruct (Nat.eqb_spec q p) as [->|N]; [|reflexivity]. apply Nat.ltb_lt in H. rewrite H. reflexivity.
  Qed.
  Lemma flip_among n o : among n o -> among n (flip n o).
  Proof. intros A p H. unfold flip. destruct (Nat.ltb_spec p n); [lia | apply A, H]. Qed.
  Lemma particles_flip n m o : (m <= n)%nat -> (particles m (flip n o) + particles m o = m)%nat.
  Proof. induction m as [|m IH]; intros H; cbn; [reflexivity|]. rewrite flip_in by lia. specialize (IH ltac:(lia)). destruct (o m); cbn; lia. Qed.
  Lemma parity_flip n p o : (p <= n)%nat -> parity p (flip n o) = alt p * parity p o :> K.
  Proof.
    induction p as [|p IH]; intros H; cbn [parity]; [unfold alt; cbn; ring|]. rewrite flip_in, alt_S, IH by lia. destruct (o p); cbn [negb]; ring.
  Qed.
  Lemma phase_ext m o o' : (forall p, o p = o' p) -> phase m o = phase m o'.
  Proof. intros E. induction m as [|m IH]; cbn; [reflexivity|]. rewrite E, IH. reflexivity. Qed.
  Lemma phase_above m p x o : (m <= p)%nat -> phase m (put p x o) = phase m o.
  Proof. induction m as [|m IH]; intros H; cbn; [reflexivity|]. rewrite put_other, IH by lia. reflexivity. Qed.
  Lemma phase_put m p o : (p < m)%nat -> phase m (put p true o) = alt p * phase m (put p false o).
  Proof.
    induction m as [|m IH]; intros H; [lia|]. cbn. destruct (Nat.eq_dec p m) as [->|N].
    - rewrite !put_same, !phase_above by lia. reflexivity.
    - rewrite !put_other by lia. rewrite IH by lia. destruct (o m); ring.
  Qed.
  Lemma phase_square m o : phase m o * phase m o = 1.
  Proof.
    induction m as [|m IH]; cbn; [ring|]. destruct (o m); [|exact IH]. transitivity ((alt m * alt m) * (phase m o * phase m o)); [ring|].
    rewrite alt_square, IH. ring.
  Qed.
  Lemma parity_conj p o : sconj (parity p o : K) = parity p o.
  Proof. induction p as [|p IH]; cbn; [apply conj_1|]. destruct (o p); rewrite ?conj_opp, IH; reflexivity. Qed.

  Lemma swap_proper n f : proper f -> proper (swap n f).
  Proof.
    intros H o o' E. unfold swap. rewrite (phase_ext n o o' E), (H (flip n o) (flip n o')); [reflexivity|]. intros p. unfold flip. rewrite E. reflexivity.
  Qed.
  Lemma swap_create n p f : proper f -> (p < n)%nat -> swap n (create p f) == annihilate p (swap n f).
  Proof.
    intros Pf H o. unfold swap, create, annihilate. rewrite flip_in by exact H. destruct (o p) eqn:E; cbn [negb]; [rewrite conj_0; ring|].
    rewrite conj_mul, parity_conj, parity_flip by lia. rewrite (Pf (flip n (put p true o)) (put p false (flip n o))) by (intros q; apply flip_put, H).
    rewrite phase_put by exact H. rewrite (phase_ext n (put p false o) o) by (apply put_id, E). ring.
  Qed.
  Lemma swap_annihilate n p f : proper f -> (p < n)%nat -> swap n (annihilate p f) == create p (swap n f).
  Proof.
    intros Pf H o. unfold swap, create, annihilate. rewrite flip_in by exact H. destruct (o p) eqn:E; cbn [negb]; [|rewrite conj_0; ring].
    rewrite conj_mul, parity_conj, parity_flip by lia. rewrite (Pf (flip n (put p false o)) (put p true (flip n o))) by (intros q; apply flip_put, H).
    rewrite <- (phase_ext n (put p true o) o) by (apply put_id, E). rewrite phase_put by exact H.
    transitivity (alt p * alt p * (phase n (put p false o) * (parity p o * sconj (f (put p true (flip n o)))))); [ring|]. rewrite alt_square. ring.
  Qed.
  Lemma swap_one n A f : proper f -> forall o, swap n (one_body n A f) o =
    sumn n (fun p => sumn n (fun q => sconj (A p q) * annihilate p (create q (swap n f)) o)).
  Proof.
    intros Pf o. unfold swap at 1, one_body. rewrite sumn_conj, sumn_mul_l. apply sumn_ext. intros p Hp. rewrite sumn_conj, sumn_mul_l. apply sumn_ext. intros q Hq.
    rewrite <- (annihilate_ext K p _ _ (swap_annihilate n q f Pf Hq) o), <- (swap_create n p _ (annihilate_proper K q f Pf) Hp o).
    unfold swap. rewrite conj_mul. ring.
  Qed.
  Lemma swap_two n U f : proper f -> forall o, swap n (two_body n U f) o =
    sum4 K n (fun p q r s => sconj (U p q r s) * annihilate p (annihilate q (create s (create r (swap n f)))) o).
  Proof.
    intros Pf o. unfold swap at 1, two_body, sum4. rewrite sumn_conj, sumn_mul_l. apply sumn_ext. intros p Hp. rewrite sumn_conj, sumn_mul_l. apply sumn_ext. intros q Hq.
    rewrite sumn_conj, sumn_mul_l. apply sumn_ext. intros r Hr. rewrite sumn_conj, sumn_mul_l. apply sumn_ext. intros s Hs.
    assert (P1 := annihilate_proper K r f Pf). assert (P2 := annihilate_proper K s _ P1). assert (P3 := create_proper K q _ P2).
    assert (E : swap n (create p (create q (annihilate s (annihilate r f)))) == annihilate p (annihilate q (create s (create r (swap n f))))).
    { intros o'. rewrite (swap_create n p _ P3 Hp o'). apply annihilate_ext. intros o2. rewrite (swap_create n q _ P2 Hq o2). apply annihilate_ext.
      intros o3. rewrite (swap_annihilate n s _ P1 Hs o3). apply create_ext. exact (swap_annihilate n r f Pf Hr). }
    rewrite <- (E o). unfold swap. rewrite conj_mul. ring.
  Qed.
  (** Normal order *)
  Lemma normal_four p q r s g : proper g -> forall o, annihilate p (annihilate q (create s (create r g))) o =
    delta q s * (delta p r * g o - create r (annihilate p g) o) - delta p s * (delta q r * g o - create r (annihilate q g) o)
    + delta q r * create s (annihilate p g) o - delta p r * create s (annihilate q g) o + create s (create r (annihilate p (annihilate q g))) o.
  Proof.
    intros Pg o. assert (Pc := create_proper K r g Pg). assert (Pa := annihilate_proper K q g Pg).
    rewrite (annihilate_ext K p _ _ (anti_ac K q s _ Pc) o).
    rewrite (annihilate_sub K p (fun o => delta q s * create r g o) _ o), (annihilate_scal K p _ _ o), (anti_ac K p r g Pg o).
    rewrite (anti_ac K p s _ (annihilate_proper K q _ Pc) o), (anti_ac K q r g Pg o).
    assert (E : annihilate p (annihilate q (create r g)) == (fun o => delta q r * annihilate p g o - (delta p r * annihilate q g o - create r (annihilate p (annihilate q g)) o))).
    { intros o'. rewrite (annihilate_ext K p _ _ (anti_ac K q r g Pg) o').
      rewrite (annihilate_sub K p (fun o => delta q r * g o) _ o'), (annihilate_scal K p _ _ o'), (anti_ac K p r _ Pa o'). reflexivity. }
    rewrite (create_ext K s _ _ E o), (create_sub K s (fun o => delta q r * annihilate p g o) _ o), (create_scal K s _ _ o).
    rewrite (create_sub K s (fun o => delta p r * annihilate q g o) _ o), (create_scal K s _ _ o). ring.
  Qed.
  Lemma sum4_swap12 n F : sum4 K n F = sum4 K n (fun p q r s => F q p r s).
  Proof. unfold sum4. rewrite sumn_swap. reflexivity. Qed.
  Lemma sum4_swap34 n F : sum4 K n F = sum4 K n (fun p q r s => F p q s r).
  Proof. unfold sum4. apply sumn_ext. intros p _. apply sumn_ext. intros q _. rewrite sumn_swap. reflexivity. Qed.
  Lemma sum4_flip n F : sum4 K n F = sum4 K n (fun p q r s => F r s p q).
  Proof.
    unfold sum4. transitivity (sumn n (fun p => sumn n (fun r => sumn n (fun q => sumn n (fun s => F p q r s))))).
    { apply sumn_ext. intros p _. apply sumn_swap. }
    rewrite sumn_swap. apply sumn_ext. intros r _. transitivity (sumn n (fun p => sumn n (fun s => sumn n (fun q => F p q r s)))).
    { apply sumn_ext. intros p _. apply sumn_swap. }
    rewrite sumn_swap. reflexivity.
  Qed.
  Lemma sum4_opp n F : sum4 K n (fun p q r s => - F p q r s) = - sum4 K n F.
  Proof. unfold sum4. rewrite <- sumn_opp. apply sumn_ext. intros p _. rewrite <- sumn_opp. apply sumn_ext. intros q _. rewrite <- sumn_opp. apply sumn_ext. intros r _. apply sumn_opp. Qed.
  Lemma normal_sum n V g : proper g -> antisym_bra n V -> antisym_ket n V -> forall o,
    let B := sum4 K n (fun p q r s => V p q r s * (delta q s * delta p r) * g o) in
    let A := sum4 K n (fun p q r s => V p q r s * delta q s * create r (annihilate p g) o) in
    sum4 K n (fun p q r s => V p q r s * annihilate p (annihilate q (create s (create r g))) o) =
    (B + B) - (A + A + (A + A)) + sum4 K n (fun p q r s => V p q r s * create s (create r (annihilate p (annihilate q g))) o).
  Proof.
    intros Pg Hb Hk o B A.
    set (Y := sum4 K n (fun p q r s => V p q r s * create s (create r (annihilate p (annihilate q g))) o)).
    assert (B' : sum4 K n (fun p q r s => - (V p q r s * (delta p s * delta q r) * g o)) = B).
    { rewrite sum4_swap12. apply sum4_ext. intros p q r s Hp Hq Hr Hs. rewrite (Hb q p r s) by assumption. ring. }
    assert (A1 : sum4 K n (fun p q r s => - (V p q r s * delta p s * create r (annihilate q g) o)) = A).
    { rewrite sum4_swap12. apply sum4_ext. intros p q r s Hp Hq Hr Hs. rewrite (Hb q p r s) by assumption. ring. }
    assert (A2 : sum4 K n (fun p q r s => - (V p q r s * delta q r * create s (annihilate p g) o)) = A).
    { rewrite sum4_swap34. apply sum4_ext. intros p q r s Hp Hq Hr Hs. rewrite (Hk p q s r) by assumption. ring. }
    assert (A3 : sum4 K n (fun p q r s => V p q r s * delta p r * create s (annihilate q g) o) = A).
    { rewrite sum4_swap12, sum4_swap34. apply sum4_ext. intros p q r s Hp Hq Hr Hs. rewrite (Hb q p s r), (Hk p q s r) by assumption. ring. }
    transitivity ((B + B) + (Y + sum4 K n (fun p q r s => - (V p q r s * delta q s * create r (annihilate p g) o)))
      + (sum4 K n (fun p q r s => - - (V p q r s * delta p s * create r (annihilate q g) o))
      + (sum4 K n (fun p q r s => - - (V p q r s * delta q r * create s (annihilate p g) o))
      + sum4 K n (fun p q r s => - (V p q r s * delta p r * create s (annihilate q g) o))))).
    - rewrite <- B' at 2. unfold B, Y. rewrite !sum4_add. apply sum4_ext. intros p q r s _ _ _ _. rewrite (normal_four p q r s g Pg o). ring.
    - rewrite sum4_opp in A1, A2. rewrite !sum4_opp. fold A. rewrite A1, A2, A3. ring.
  Qed.
  Lemma inner_delta n V (W : nat -> nat -> K) :
    sum4 K n (fun p q r s => V p q r s * delta q s * W r p) = sumn n (fun r => sumn n (fun p => sumn n (fun q => V p q r q) * W r p)).
  Proof.
    unfold sum4. transitivity (sumn n (fun p => sumn n (fun r => sumn n (fun q => V p q r q) * W r p))); [|apply sumn_swap].
    apply sumn_ext. intros p _. rewrite sumn_swap. apply sumn_ext. intros r _. rewrite sumn_mul_r. apply sumn_ext. intros q Hq.
    rewrite (sumn_ext K n _ (fun s => V p q r s * W r p * delta q s)) by (intros; ring). apply (sum_delta_r K n q (fun s => V p q r s * W r p) Hq).
  Qed.
  Lemma quarter_four (z : K) : quarter * (z + z + (z + z)) = z.
  Proof. unfold quarter. transitivity ((shalf + shalf) * (shalf + shalf) * z); [ring|]. rewrite half_half. ring. Qed.
  Lemma quarter_two (z : K) : quarter * (z + z) = shalf * z.
  Proof. unfold quarter. transitivity ((shalf + shalf) * (shalf * z)); [ring|]. rewrite half_half. ring. Qed.

  (** The Hamiltonian of the holes *)
  Lemma swap_hamiltonian n h u f : proper f -> hermitian n h -> hermitian2 n u -> antisym_ket n u -> particle_sym n u -> forall o,
    swap n (hamiltonian n quarter h u f) o =
    E_general n h u * swap n f o + hamiltonian n quarter (fun p q => - F_general n h u p q) u (swap n f) o.
  Proof.
    intros Pf Hh Hu Hk Hp o. set (g := swap n f). assert (Pg : proper g) by apply swap_proper, Pf.
    assert (Q : sconj (quarter : K) = quarter) by (unfold quarter; rewrite conj_mul, conj_half; reflexivity).
    transitivity (swap n (one_body n h f) o + quarter * swap n (two_body n u f) o).
    { unfold swap, hamiltonian. rewrite conj_add, conj_mul, Q. ring. }
    rewrite (swap_one n h f Pf o), (swap_two n u f Pf o). fold g.
    set (V := fun p q r s => sconj (u p q r s)).
    assert (Vk : antisym_ket n V) by (intros p q r s H1 H2 H3 H4; unfold V; rewrite (Hk p q r s), conj_opp by assumption; reflexivity).
    assert (Vb : antisym_bra n V).
    { intros p q r s H1 H2 H3 H4. unfold V. rewrite (Hp p q r s), (Hk q p s r), conj_opp by assumption. reflexivity. }
    pose proof (normal_sum n V g Pg Vb Vk o) as N. cbv zeta in N. unfold V in N at 1. rewrite N. clear N.
    set (A := sum4 K n (fun p q r s => V p q r s * delta q s * create r (annihilate p g) o)).
    set (B := sum4 K n (fun p q r s => V p q r s * (delta q s * delta p r) * g o)).
    assert (EA : A = sumn n (fun p => sumn n (fun q => sumn n (fun i => u p i q i) * create p (annihilate q g) o))).
    { unfold A. rewrite (inner_delta n V (fun r p => create r (annihilate p g) o)). apply sumn_ext. intros r Hr. apply sumn_ext. intros p Hp'. f_equal.
      apply sumn_ext. intros q Hq. unfold V. rewrite <- (Hu r q p q) by assumption. reflexivity. }
    assert (EB : B = sumn n (fun p => sumn n (fun q => u p q p q)) * g o).
    { unfold B. rewrite (sum4_ext K n _ (fun p q r s => V p q r s * delta q s * (delta p r * g o))) by (intros; ring).
      rewrite (inner_delta n V (fun r p => delta p r * g o)). rewrite sumn_swap, sumn_mul_r. apply sumn_ext. intros p Hp'.
      rewrite (sumn_ext K n _ (fun r => sumn n (fun q => V p q r q) * g o * delta p r)) by (intros; ring).
      rewrite (sum_delta_r K n p (fun r => sumn n (fun q => V p q r q) * g o) Hp'). f_equal. apply sumn_ext. intros q Hq. unfold V. rewrite <- (Hu p q p q) by assumption. reflexivity. }
    assert (EY : sum4 K n (fun p q r s => V p q r s * create s (create r (annihilate p (annihilate q g))) o) = two_body n u g o).
    { unfold two_body. change (sum4 K n (fun p q r s => V p q r s * create s (create r (annihilate p (annihilate q g))) o) =
        sum4 K n (fun p q r s => u p q r s * create p (create q (annihilate s (annihilate r g))) o)).
      rewrite sum4_swap12, sum4_swap34, (sum4_flip n). apply sum4_ext. intros p q r s H1 H2 H3 H4. f_equal. unfold V.
      rewrite (Hp p q r s) by assumption. rewrite (Hu q p s r) by assumption. rewrite (Hp s r q p) by assumption. reflexivity. }
    assert (E1 : sumn n (fun p => sumn n (fun q => sconj (h p q) * annihilate p (create q g) o)) = sumn n (fun p => h p p) * g o - one_body n h g o).
    { unfold one_body. rewrite sumn_mul_r, (sumn_swap K n n (fun p q => h p q * create p (annihilate q g) o)), <- sumn_sub. apply sumn_ext. intros p Hp'.
      rewrite <- (sum_delta_r K n p (fun q => h q p * g o) Hp'), <- sumn_sub. apply sumn_ext. intros q Hq.
      rewrite (anti_ac K p q g Pg o), (Hh q p) by assumption. ring. }
    rewrite EY, E1. transitivity (sumn n (fun p => h p p) * g o - one_body n h g o + quarter * (B + B) - quarter * (A + A + (A + A)) + quarter * two_body n u g o); [ring|].
    rewrite quarter_four, quarter_two, EB. unfold E_general, hamiltonian.
    assert (EF : one_body n (fun p q => - F_general n h u p q) g o = - one_body n h g o - A).
    { rewrite EA. unfold one_body. rewrite <- sumn_opp, <- sumn_sub. apply sumn_ext. intros p _. rewrite <- sumn_opp, <- sumn_sub. apply sumn_ext. intros q _.
      unfold F_general. ring. }
    rewrite EF. ring.
  Qed.
End ParticleHole.
