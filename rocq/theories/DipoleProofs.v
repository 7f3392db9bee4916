(** The dipole matrices of the two-dimensional basis sets in closed form, transition energies
    and sum rules. *)
From Coq Require Import List Arith ZArith Reals Bool Lra Lia.
From Coquelicot Require Import Coquelicot.
From Verif Require Import Scalar ScalarC Py Numpy BasisSet Spec BasisSpec TwoDim TwoDimProofs FieldProofs Cache AngularProofs Gauss Orbitals OrbitalSpec OrbitalProofs MatrixProofs PlaneSpec TwoDimBasis PlaneProofs LadderSpec LadderProofs PairProofs.
Import ListNotations.
Open Scope R_scope.

Lemma plane_conj f v : plane_integral f v -> plane_integral (fun r t => Cconj (f r t)) (Cconj v).
Proof.
  intros (g & G1 & G2 & G3). exists (fun r => Cconj (g r)). split; [|split; [exact G2|]].
  - intros r Hr. pose proof (G1 r Hr) as I. pose proof (is_RInt_fct_extend_fst _ _ _ _ I) as I1. pose proof (is_RInt_fct_extend_snd _ _ _ _ I) as I2.
    apply is_RInt_fct_extend_pair; [exact I1|]. cbn [Cconj snd]. apply (is_RInt_opp (V := R_NormedModule)) in I2. exact I2.
  - eapply half_line_ext; [|apply half_line_val with (u := -1 * snd v); [apply (half_line_scal (-1)); exact G3 | cbn; ring]]. intros r _. cbn. ring.
Qed.
Section Dipole.
  Variables mass omega : R.
  Hypotheses (Hm : 0 < mass) (Hw : 0 < omega).
  Notation orb := (orbital mass omega).
  Lemma turn_plus s t : (0 <= fst s)%Z -> (0 <= fst t)%Z ->
    plane_integral (fun r u => (Cconj (orb s r u) * (RtoC r * spf_theta u 1) * orb t r u)%C) (RtoC (turn_element mass omega s t)).
  Proof. intros Hs Ht. eapply plane_ext; [|apply (turn_bracket mass omega Hm Hw s t Hs Ht)]. intros r u _. cbv beta. unfold zpsi, orbital. ring. Qed.
  Lemma turn_minus s t : (0 <= fst s)%Z -> (0 <= fst t)%Z ->
    plane_integral (fun r u => (Cconj (orb s r u) * Cconj (RtoC r * spf_theta u 1) * orb t r u)%C) (RtoC (turn_element mass omega t s)).
  Proof.
    intros Hs Ht. pose proof (plane_conj _ _ (turn_plus t s Ht Hs)) as P. replace (Cconj (RtoC (turn_element mass omega t s))) with (RtoC (turn_element mass omega t s)) in P by (unfold Cconj, RtoC; cbn; f_equal; ring).
    eapply plane_ext; [|exact P]. intros r u _. cbv beta. set (z := (RtoC r * spf_theta u 1)%C). destruct (orb s r u), (orb t r u), z. unfold Cmult, Cconj. cbn. f_equal; ring.
  Qed.
  Lemma x_right s t : (0 <= fst s)%Z -> (0 <= fst t)%Z -> matrix_element (orb s) (orb t) (fun x _ => x) (x_element mass omega s t).
  Proof.
    intros Hs Ht. pose proof (plane_scal (1 / 2) _ _ (plane_add _ _ _ _ (turn_plus s t Hs Ht) (turn_minus s t Hs Ht))) as P. unfold matrix_element, x_element.
    replace (RtoC ((turn_element mass omega s t + turn_element mass omega t s) / 2)) with (RtoC (1 / 2) * (RtoC (turn_element mass omega s t) + RtoC (turn_element mass omega t s)))%C by (rewrite <- RtoC_plus, <- RtoC_mult; f_equal; field).
    eapply plane_ext; [|exact P]. intros r u _. cbv beta. destruct (orb s r u), (orb t r u). unfold spf_theta. rewrite Rmult_1_l. unfold Cmult, Cconj, Cplus, RtoC. cbn [fst snd]. f_equal; field.
  Qed.
  Lemma y_right s t : (0 <= fst s)%Z -> (0 <= fst t)%Z -> matrix_element (orb s) (orb t) (fun _ y => y) (y_element mass omega s t).
  Proof.
    intros Hs Ht. pose proof (plane_add _ _ _ _ (turn_plus s t Hs Ht) (plane_scal (-1) _ _ (turn_minus s t Hs Ht))) as P.
    apply (plane_scalC (- Ci * RtoC (1 / 2))%C) in P. unfold matrix_element, y_element.
    replace (- Ci * RtoC ((turn_element mass omega s t - turn_element mass omega t s) / 2))%C
      with (- Ci * RtoC (1 / 2) * (RtoC (turn_element mass omega s t) + RtoC (-1) * RtoC (turn_element mass omega t s)))%C
      by (rewrite <- RtoC_mult, <- RtoC_plus, <- Cmult_assoc, <- RtoC_mult; f_equal; f_equal; field).
    eapply plane_ext; [|exact P]. intros r u _. cbv beta. destruct (orb s r u), (orb t r u). unfold spf_theta. rewrite Rmult_1_l. unfold Copp, Cmult, Cconj, Cplus, RtoC, Ci. cbn [fst snd]. f_equal; field.
  Qed.
  (** The array of a basis set *)
  Lemma dipole_closed l N L larmor V state (b : basis CC) (d : arr CC) :
    plane_basis l N L mass larmor (sqrt omega) V state (fun p => orb (state p)) b -> (forall p, (p < l)%nat -> 0 <= fst (state p))%Z -> b_arr b F_dip = Some d ->
    forall p q, (p < l)%nat -> (q < l)%nat ->
    get d [0; p; q]%nat = x_element mass omega (state p) (state q) /\ get d [1; p; q]%nat = y_element mass omega (state p) (state q).
  Proof.
    intros B Hn Hd p q Hp Hq. destruct (pb_arrays _ _ _ _ _ _ _ _ _ _ B) as (h & s & u & d' & spf & X). decompose [and] X. clear X.
    match goal with E : b_arr b F_dip = Some d' |- _ => rewrite Hd in E; injection E as <- end.
    match goal with M : forall p q, _ -> _ -> matrix_element _ _ _ _ /\ _ |- _ => destruct (M p q Hp Hq) as [X Y] end.
    exact (conj (plane_unique _ _ _ X (x_right (state p) (state q) (Hn p Hp) (Hn q Hq))) (plane_unique _ _ _ Y (y_right (state p) (state q) (Hn p Hp) (Hn q Hq)))).
  Qed.
End Dipole.
