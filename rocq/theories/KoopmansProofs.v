(** Removing the last particle (pair) from a determinant with frozen orbitals. *)
From Coq Require Import List Arith ZArith Lia Bool.
From Verif Require Import Scalar Py Numpy Spec BasisSet BasisSpec EnergySpec EnergyFacts Systems SystemFacts.
Import ListNotations.

Section Koopmans.
  Variable K : scalar.
  Add Ring KringKo : (s_ring K).
  Local Open Scope K_scope.
  Notation mx := (nat -> nat -> K).
  Notation tx := (nat -> nat -> nat -> nat -> K).
  Lemma square_last m (g : nat -> nat -> K) : sumn (S m) (fun i => sumn (S m) (fun j => g i j)) =
    sumn m (fun i => sumn m (fun j => g i j)) + sumn m (fun i => g i m) + (sumn m (fun j => g m j) + g m m).
  Proof. cbn [sumn]. rewrite sumn_add. reflexivity. Qed.
  Lemma last_general l m (h : mx) (u : tx) : (S m <= l)%nat -> particle_sym l u -> antisym_ket l u ->
    E_general (S m) h u = E_general m h u + F_general (S m) h u m m.
  Proof.
    intros Hl Hs Ha. assert (Z : u m m m m = 0).
    { pose proof (Ha m m m m ltac:(lia) ltac:(lia) ltac:(lia) ltac:(lia)) as E.
      transitivity ((shalf + shalf) * u m m m m); [rewrite half_half; ring|]. transitivity (shalf * (u m m m m + u m m m m)); [ring|].
      rewrite E at 1. ring. }
    unfold E_general, F_general. rewrite square_last. cbn [sumn]. rewrite Z.
    rewrite (sumn_ext K m (fun i => u i m i m) (fun i => u m i m i)) by (intros i Hi; apply Hs; lia).
    set (T := sumn m (fun i => u m i m i)). transitivity (sumn m (fun i => h i i) + h m m + shalf * sumn m (fun i => sumn m (fun j => u i j i j)) + (shalf + shalf) * T); [ring|].
    rewrite half_half. ring.
  Qed.
  Lemma last_restricted l m (h : mx) (u : tx) : (S m <= l)%nat -> particle_sym l u ->
    E_restricted (S m) h u = E_restricted m h u + ((1 + 1) * F_restricted (S m) h u m m - u m m m m).
  Proof.
    intros Hl Hs. unfold E_restricted, F_restricted. rewrite (square_last m (fun i j => (1 + 1) * u i j i j - u i j j i)). cbn [sumn].
    rewrite (sumn_ext K m (fun i => (1 + 1) * u i m i m - u i m m i) (fun i => (1 + 1) * u m i m i - u m i i m)).
    2: { intros i Hi. rewrite (Hs i m i m), (Hs i m m i) by lia. reflexivity. }
    ring.
  Qed.
  Lemma set_size_ok s (w : world K) k N l x b n : sys_at w s k N l x b -> (n <= l)%nat ->
    exists w', set_system_size s (Z.of_nat n) (Z.of_nat l) w = (Ok tt, w') /\ sys_at w' s k n l (sized x (Z.of_nat n) (Z.of_nat l)) b.
  Proof.
    intros [H1 H2 Hk Hnp Hn Ho Hle Rd] Hn'. unfold set_system_size. rewrite (proj2 (Z.leb_le _ _)) by lia. unfold bind at 1. cbn [py_assert ret].
    rewrite (wbind_ok K _ _ _ _ _ (get_sys_ok K s w x H1)). eexists. split; [reflexivity|].
    constructor; cbn; try assumption; try reflexivity.
    apply nth_lset_same. eapply nth_some_lt; eassumption.
  Qed.
  Lemma koopmans s (w : world K) k m l x b h u f : sys_at w s k (S m) l x b ->
    b_arr b F_h = Some h -> b_arr b F_u = Some u -> buffer_ok f h u -> particle_sym l (ten u) -> (k = General -> antisym_ket l (ten u)) ->
    exists w' e e' F, set_system_size s (Z.of_nat m) (Z.of_nat l) w = (Ok tt, w') /\ fock_matrix s h u f w = (Ok F, w) /\
      reference_energy s w = (Ok e, w) /\ reference_energy s w' = (Ok e', w') /\
      e = e' + match k with General => mat F m m | Spatial => (1 + 1) * mat F m m - ten u m m m m end.
  Proof.
    intros A Hh Hu Hf Hs Ha. pose proof (at_le K _ _ _ _ _ _ _ A) as Hl.
    destruct (set_size_ok s w k (S m) l x b m A ltac:(lia)) as (w' & E & A').
    destruct (r_h K b l (at_ready K _ _ _ _ _ _ _ A)) as (h0 & Hh0 & Sh). rewrite Hh in Hh0. injection Hh0 as <-.
    destruct (r_u K b l (at_ready K _ _ _ _ _ _ _ A)) as (u0 & Hu0 & Su). rewrite Hu in Hu0. injection Hu0 as <-.
    destruct (fock_matrix_ok K w s k (S m) l x b h u f A Sh Su Hf) as (F & EF & SF & GF).
    exists w'. eexists. eexists. exists F. split; [exact E|]. split; [exact EF|].
    split; [exact (reference_energy_ok K w s k (S m) l x b h u A Hh Hu Sh Su)|].
    split; [exact (reference_energy_ok K w' s k m l _ b h u A' Hh Hu Sh Su)|].
    rewrite GF by lia. destruct k; [apply (last_general l); auto | apply (last_restricted l); auto].
  Qed.
End Koopmans.
