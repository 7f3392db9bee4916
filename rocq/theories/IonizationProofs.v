(** Bounds on the energies with one electron less and one more. *)
From Coq Require Import List Arith ZArith Reals Lra Lia Bool.
From Coquelicot Require Import Coquelicot.
From Verif Require Import Scalar ScalarC Py Numpy BasisSet Spec OneDimSpec DotProofs GridSpec GridProofs EnergyFacts SystemFacts Systems.
From Verif Require Import RaiseTheorems FockSpec FockProofs FockSystem InnerSpec InnerProofs RaiseSpec RaiseProofs RaiseFock FockSpectrumSpec FockSpectrum GroundTheorems.
Import ListNotations.
Open Scope R_scope.
Local Notation S_ := (sumn (K := CC)).
Local Notation state := (FockSpec.state CC).

Lemma det_bound n m d (X : state -> state) E Psi c : symmetric_operator n X -> (forall f, proper f -> proper (X f)) -> spectrum n X m d E Psi ->
  among n c -> particles n c = m -> E O <= Re (expect (K := CC) n X c).
Proof.
  intros XS XP Sp A P. set (D := determinant (K := CC) n c).
  assert (PD : particle_state n m D) by (rewrite <- P; apply (det_particles CC)).
  assert (N : inner n D D = RtoC 1) by (unfold D; rewrite (inner_det CC); [apply (det_self CC) | exact A | apply det_proper]).
  assert (V : inner n D (X D) = expect (K := CC) n X c) by (unfold D; rewrite (inner_det CC); [reflexivity | exact A | apply XP, det_proper]).
  assert (Hd : (0 < d)%nat).
  { destruct d; [|lia]. exfalso. pose proof (sp_complete _ _ _ _ _ _ Sp D PD c A) as Z. cbn in Z. unfold D in Z. rewrite (det_self CC) in Z. apply (f_equal fst) in Z. cbn in Z. lra. }
  destruct (ground_lowest n m d X E Psi XS Sp Hd D PD) as [_ L]. rewrite N, V in L. cbn [Re RtoC fst] in L. cbn in L. lra.
Qed.
Lemma ionization (w : world CC) s k N l x (b : basis CC) (h u : arr CC) f : sys_at w s k N l x b -> b_arr b F_h = Some h -> b_arr b F_u = Some u -> buffer_ok f h u ->
  hermitian l (mat h) -> hermitian2 l (ten u) -> particle_sym l (ten u) -> (k = General -> antisym_ket l (ten u)) ->
  let n := spin_orbitals k l in let m := electrons k N in let X := many_body k l (mat h) (ten u) in
  exists (e : R) F, reference_energy s w = (Ok (RtoC e), w) /\ fock_matrix s h u f w = (Ok F, w) /\
    (forall i d E Psi, (i < N)%nat -> spectrum n X (m - 1) d E Psi -> E O <= e - Re (mat F i i)) /\
    (forall a d E Psi, (N <= a < l)%nat -> spectrum n X (m + 1) d E Psi -> E O <= e + Re (mat F a a)).
Proof.
  intros A Eh Eu Bf Hh Hu Hp Ha n m X. pose proof (many_body_symmetric k l (mat h) (ten u) Hh Hu) as Sy. fold n X in Sy.
  pose proof (at_le CC _ _ _ _ _ _ _ A) as HN. assert (Hm : (m <= n)%nat) by (unfold m, n; destruct k; cbn [spin_orbitals electrons]; lia).
  destruct (ground_system w s k N l x b h u A Eh Eu Hh Hu Ha) as (_ & _ & _ & _ & _ & _ & e & R & _).
  destruct (fock_excitations CC s w k N l x b h u f A Eh Eu Bf Hp Ha) as (e' & F & R' & EF & X'). assert (e' = RtoC e) by congruence. subst e'.
  exists e, F. split; [exact R|]. split; [exact EF|].
  assert (Rem : forall I, (I < m)%nat -> among n (put I false (lowest m)) /\ particles n (put I false (lowest m)) = (m - 1)%nat).
  { intros I HI. assert (AL : among n (lowest m)) by (apply lowest_among, Hm). split; [apply among_put; [exact AL | lia]|].
    assert (LI : lowest m I = true) by (apply Nat.ltb_lt, HI). pose proof (particles_remove n I (lowest m) ltac:(lia) LI) as Q. rewrite (lowest_particles n m) in Q by exact Hm. lia. }
  assert (Add : forall I, (m <= I < n)%nat -> among n (put I true (lowest m)) /\ particles n (put I true (lowest m)) = (m + 1)%nat).
  { intros I HI. assert (AL : among n (lowest m)) by (apply lowest_among, Hm). split; [apply among_put; [exact AL | lia]|].
    assert (LI : lowest m I = false) by (apply Nat.ltb_ge; lia). pose proof (particles_add n I (lowest m) ltac:(lia) LI) as Q. rewrite (lowest_particles n m) in Q by exact Hm. lia. }
  pose proof (many_body_proper k l (mat h) (ten u)) as XP. fold X in XP.
  split; intros i d E Psi Hi Sp.
  - destruct k; cbn [spin_orbitals electrons many_body] in *; destruct X' as (X1 & _ & _).
    + destruct (Rem i Hi) as [B1 B2]. pose proof (det_bound n _ d X E Psi _ Sy XP Sp B1 B2) as L. unfold X, n, m in L. rewrite (X1 i Hi) in L. cbn in L. exact L.
    + destruct (Rem (2 * i)%nat ltac:(unfold m; lia)) as [B1 B2]. pose proof (det_bound n _ d X E Psi _ Sy XP Sp B1 B2) as L. unfold X, n, m in L. rewrite (X1 (2 * i)%nat ltac:(lia)) in L.
      rewrite Nat.mul_comm, Nat.div_mul in L by lia. cbn in L. exact L.
  - destruct k; cbn [spin_orbitals electrons many_body] in *; destruct X' as (_ & X1 & _).
    + destruct (Add i Hi) as [B1 B2]. pose proof (det_bound n _ d X E Psi _ Sy XP Sp B1 B2) as L. unfold X, n, m in L. rewrite (X1 i Hi) in L. cbn in L. exact L.
    + destruct (Add (2 * i)%nat ltac:(unfold m, n; lia)) as [B1 B2]. pose proof (det_bound n _ d X E Psi _ Sy XP Sp B1 B2) as L. unfold X, n, m in L. rewrite (X1 (2 * i)%nat ltac:(lia)) in L.
      rewrite (Nat.mul_comm 2 i), Nat.div_mul in L by lia. cbn in L. exact L.
Qed.
