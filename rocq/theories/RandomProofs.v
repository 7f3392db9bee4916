(** Random basis sets. *)
From Coq Require Import List Arith Lia Bool.
From Verif Require Import Scalar Py Numpy Spec NumpyFacts BasisSet BasisSpec BasisFacts RandomBasis.
Import ListNotations.

Section RandomProofs.
  Variable K : scalar.
  Add Ring Kring : (s_ring K).
  Local Open Scope K_scope.

  Lemma make_hermitian_ok (h : arr K) n : shape h = [n; n] ->
    exists h', make_hermitian h = Ok h' /\ shape h' = [n; n] /\
      forall p q, (p < n)%nat -> (q < n)%nat -> mat h' p q = shalf * (mat h p q + sconj (mat h q p)).
  Proof.
    intros Sh. unfold make_hermitian.
    destruct (broadcast2_same K sadd h (aT (aconj h))) as (c & Ec & Sc & _ & Gc).
    { cbn. rewrite Sh. reflexivity. }
    unfold aadd. rewrite Ec. cbn. eexists. split; [reflexivity|]. split; [cbn; congruence|].
    intros p q Hp Hq. unfold mat. cbn. rewrite Gc by (rewrite Sh; repeat constructor; assumption). reflexivity.
  Qed.
  Lemma conj_half : sconj (shalf : K) = shalf.
  Proof.
    assert (H : sconj (shalf : K) + sconj shalf = 1) by (rewrite <- conj_add, half_half; apply conj_1).
    transitivity ((shalf + shalf) * sconj (shalf : K)); [rewrite half_half; ring|].
    transitivity ((shalf : K) * (sconj (shalf : K) + sconj (shalf : K))); [ring|]. rewrite H. ring.
  Qed.
  Lemma average_hermitian n (f g : nat -> nat -> K) :
    (forall p q, (p < n)%nat -> (q < n)%nat -> f p q = shalf * (g p q + sconj (g q p))) -> hermitian n f.
  Proof.
    intros H p q Hp Hq. rewrite !H by assumption. rewrite conj_mul, conj_add, conj_half, conj_invol. ring.
  Qed.
  Lemma rows_ok dim n : forall is (a : arr K), shape a = [dim; n; n] -> (forall i, In i is -> (i < dim)%nat) -> NoDup is ->
    exists a', hermitian_rows is a = Ok a' /\ shape a' = [dim; n; n] /\
      forall i p q, (p < n)%nat -> (q < n)%nat ->
        get a' [i; p; q] = if in_dec Nat.eq_dec i is then shalf * (get a [i; p; q] + sconj (get a [i; q; p])) else get a [i; p; q].
  Proof.
    induction is as [|j is IH]; intros a Sa Hb Hnd.
    - exists a. split; [reflexivity|]. split; [exact Sa|]. intros. destruct in_dec as [[]|_]. reflexivity.
    - cbn [hermitian_rows]. unfold row at 1. rewrite Sa. destruct (Nat.ltb_spec j dim) as [Hj|Hj]; [|specialize (Hb j ltac:(left; reflexivity)); lia].
      cbn [rbind]. destruct (make_hermitian_ok (Arr [n; n] (dt a) (fun idx => get a (j :: idx))) n eq_refl) as (r & Er & Sr & Gr).
      rewrite Er. inversion Hnd as [|? ? Hni Hnd']; subst.
      destruct (IH (set_row a j r) Sa ltac:(intros; apply Hb; right; assumption) Hnd') as (a' & Ea & Sa' & Ga).
      exists a'. split; [exact Ea|]. split; [exact Sa'|]. intros i p q Hp Hq. rewrite Ga by assumption. unfold set_row. cbn [get].
      destruct (Nat.eqb_spec i j) as [->|Hij].
      + destruct (in_dec Nat.eq_dec j is) as [H|_]; [contradiction|]. destruct in_dec as [_|H]; [|exfalso; apply H; left; reflexivity].
        exact (Gr p q Hp Hq).
      + destruct (in_dec Nat.eq_dec i is) as [H|H]; destruct (in_dec Nat.eq_dec i (j :: is)) as [H'|H']; try reflexivity.
        * exfalso. apply H'. right. exact H.
        * exfalso. destruct H' as [H'|H']; [congruence|contradiction].
  Qed.
  Lemma two_body_symmetry_ok (u : arr K) n : shape u = [n; n; n; n] ->
    exists u', make_two_body_symmetry u = Ok u' /\ shape u' = [n; n; n; n] /\
      forall p q r s, (p < n)%nat -> (q < n)%nat -> (r < n)%nat -> (s < n)%nat ->
        ten u' p q r s = shalf * (ten u p q r s + ten u q p s r).
  Proof.
    intros Su. unfold make_two_body_symmetry.
    assert (T : exists t, transpose [1; 0; 3; 2]%nat u = Ok t /\ shape t = [n; n; n; n] /\ forall p q r s, ten t p q r s = ten u q p s r).
    { destruct u as [su du gu]. cbn [shape] in Su. subst su. eexists. split; [reflexivity|]. split; [reflexivity|]. reflexivity. }
    destruct T as (t & Et & St & Gt). rewrite Et. cbn [rbind].
    destruct (broadcast2_same K sadd u t) as (c & Ec & Sc & _ & Gc); [congruence|].
    unfold aadd. rewrite Ec. cbn. eexists. split; [reflexivity|]. split; [cbn; congruence|].
    intros p q r s Hp Hq Hr Hs. unfold ten. cbn. rewrite Gc by (rewrite Su; repeat constructor; assumption).
    f_equal. f_equal. apply Gt.
  Qed.

  Variables (rng : nat -> list nat -> K) (npm l dim : nat) (spin anti : bool).
  Definition draw (k : nat) (idx : list nat) : K := rng k idx + si * rng (S k) idx.
  Lemma random_ok : exists h s u d b, random_basis rng npm l dim spin anti = (Ok tt, b) /\
    b_arr b F_h = Some h /\ b_arr b F_s = Some s /\ b_arr b F_u = Some u /\ b_arr b F_dip = Some d /\
    (forall f, ~ In f [F_h; F_s; F_u; F_dip] -> b_arr b f = None) /\
    b_l b = l /\ b_dim b = dim /\ b_np b = Some npm /\ b_spin b = spin /\ b_asym b = anti /\ b_nuc b = rng 8 [] /\
    shape h = [l; l] /\ shape s = [l; l] /\ shape u = [l; l; l; l] /\ shape d = [dim; l; l] /\
    hermitian l (mat h) /\ hermitian l (mat s) /\ (forall i, (i < dim)%nat -> hermitian l (fun p q => get d [i; p; q])) /\
    (forall p q r t, (p < l)%nat -> (q < l)%nat -> (r < l)%nat -> (t < l)%nat ->
      ten u p q r t = shalf * (draw 4 [p; q; r; t] + draw 4 [q; p; t; r])).
  Proof.
    destruct (make_hermitian_ok (random_elements rng 0 [l; l]) l eq_refl) as (h & Eh & Sh & Gh).
    destruct (make_hermitian_ok (random_elements rng 2 [l; l]) l eq_refl) as (s & Es & Ss & Gs).
    destruct (two_body_symmetry_ok (random_elements rng 4 [l; l; l; l]) l eq_refl) as (u & Eu & Su & Gu).
    destruct (rows_ok dim l (seq 0 dim) (random_elements rng 6 [dim; l; l]) eq_refl) as (d & Ed & Sd & Gd).
    { intros i Hi. apply in_seq in Hi. lia. } { apply seq_NoDup. }
    exists h, s, u, d. eexists. split.
    - unfold random_basis, random_setup. rewrite (bind_ok K get_st _ _ (new_basis K Base npm l dim spin anti) (new_basis K Base npm l dim spin anti)) by reflexivity. cbn [b_l b_dim new_basis].
      erewrite bind_ok; [|reflexivity].
      rewrite Eh. erewrite bind_ok; [|reflexivity]. erewrite bind_ok; [|apply set_sq_ok; apply check_axes2; exact Sh].
      rewrite Es. erewrite bind_ok; [|reflexivity]. erewrite bind_ok; [|apply set_sq_ok; apply check_axes2; exact Ss].
      rewrite Eu. erewrite bind_ok; [|reflexivity]. erewrite bind_ok; [|apply set_sq_ok; apply check_axes4; exact Su].
      assert (Ed' : make_dipole_moment_hermitian (random_elements rng 6 [dim; l; l]) = Ok d) by exact Ed.
      rewrite Ed'. erewrite bind_ok; [|reflexivity]. erewrite bind_ok; [|apply set_dipole_ok; exact Sd].
      reflexivity.
    - split; [reflexivity|]. split; [reflexivity|]. split; [reflexivity|]. split; [reflexivity|].
      split. { intros f Hf. destruct f; try reflexivity; exfalso; apply Hf; cbn; tauto. }
      do 6 (split; [reflexivity|]). do 4 (split; [assumption|]).
      split. { apply (average_hermitian l _ (mat (random_elements rng 0 [l; l]))). exact Gh. }
      split. { apply (average_hermitian l _ (mat (random_elements rng 2 [l; l]))). exact Gs. }
      split.
      + intros i Hi. apply (average_hermitian l _ (fun p q => get (random_elements rng 6 [dim; l; l]) [i; p; q])).
        intros p q Hp Hq. rewrite Gd by assumption. destruct in_dec as [_|H]; [reflexivity|]. exfalso. apply H. apply in_seq. lia.
      + exact Gu.
  Qed.
  Lemma random_symmetries b : random_basis rng npm l dim spin anti = (Ok tt, b) ->
    exists h s u d, b_arr b F_h = Some h /\ b_arr b F_s = Some s /\ b_arr b F_u = Some u /\ b_arr b F_dip = Some d /\
      shape h = [l; l] /\ shape s = [l; l] /\ shape u = [l; l; l; l] /\ shape d = [dim; l; l] /\
      hermitian l (mat h) /\ hermitian l (mat s) /\ (forall i, (i < dim)%nat -> hermitian l (fun p q => get d [i; p; q])) /\
      particle_sym l (ten u).
  Proof.
    intros E. destruct random_ok as (h & s & u & d & b' & E' & H1 & H2 & H3 & H4 & _ & _ & _ & _ & _ & _ & _ & S1 & S2 & S3 & S4 & P1 & P2 & P3 & P4).
    rewrite E' in E. injection E as <-. exists h, s, u, d. do 8 (split; [assumption|]). do 3 (split; [assumption|]).
    intros p q r t Hp Hq Hr Ht. rewrite !P4 by assumption. f_equal. ring.
  Qed.
  Lemma random_ready b : random_basis rng npm l dim spin anti = (Ok tt, b) -> (0 < dim)%nat -> ready b l.
  Proof.
    intros E Hd. destruct random_ok as (h & s & u & d & b' & E' & H1 & H2 & H3 & H4 & H5 & H6 & H7 & H8 & _ & _ & _ & S1 & S2 & S3 & S4 & _).
    rewrite E' in E. injection E as <-. constructor; eauto.
    - intros a. rewrite H2. intros X. injection X as <-. exact S2.
    - intros a. rewrite H4, H7. intros X. injection X as <-. auto.
    - intros a. rewrite H5; [discriminate | notin].
    - intros a. rewrite H5; [discriminate | notin].
    - intros f a Hf. rewrite H5; [discriminate | cbn in Hf; destruct_or Hf; subst f; notin].
    - intros a. rewrite H5; [discriminate | notin].
  Qed.
  (** u is Hermitian only if the diagonal elements drawn have imaginary part zero. *)
  Lemma random_hermitian_diagonal b u : random_basis rng npm l dim spin anti = (Ok tt, b) -> b_arr b F_u = Some u ->
    (forall k idx, sconj (rng k idx) = rng k idx) -> hermitian2 l (ten u) ->
    forall p, (p < l)%nat -> rng 5 [p; p; p; p] = 0.
  Proof.
    intros E Eu Hre Hh p Hp. destruct random_ok as (h & s & u' & d & b' & E' & H1 & H2 & H3 & H4 & _ & _ & _ & _ & _ & _ & _ & S1 & S2 & S3 & S4 & _ & _ & _ & P4).
    rewrite E' in E. injection E as <-. rewrite H3 in Eu. injection Eu as <-.
    pose proof (Hh p p p p Hp Hp Hp Hp) as H. rewrite P4 in H by assumption.
    assert (D : forall x : K, shalf * (x + x) = x).
    { intros x. transitivity ((shalf + shalf) * x); [ring|]. rewrite half_half. ring. }
    rewrite D in H. unfold draw in H. rewrite conj_add, conj_mul, conj_i, !Hre in H.
    set (a := rng 4 [p; p; p; p]) in *. set (c := rng 5 [p; p; p; p]) in *.
    assert (Z : si * c + si * c = 0).
    { transitivity ((a + si * c) - (a + - si * c)); [ring|]. rewrite H at 1. ring. }
    transitivity (- (si * (shalf * (si * c + si * c)))); [|rewrite Z; ring].
    rewrite D. transitivity (- (si * si) * c); [rewrite i_squared; ring|ring].
  Qed.
End RandomProofs.
