(** Angular momentum in the two-dimensional oscillator. *)
From Coq Require Import List Arith ZArith Znumtheory Reals Lra Lia Bool.
From Coquelicot Require Import Coquelicot.
From Verif Require Import Scalar ScalarC Py Numpy BasisSet Spec BasisSpec OneDimSpec DotProofs Systems.
From Verif Require Import TwoDim TwoDimProofs Orbitals Coulomb CoulombProofs Cache CacheProofs MatrixProofs TwoDimBasis PlaneProofs DipoleTheorems FieldProofs SymmetryProofs.
From Verif Require Import FockSpec InnerSpec RaiseSpec FockSpectrumSpec SharpSpec SharpProofs SharpTheorems SharpSystems ReversalSpec ReversalProofs ReversalTheorems.
Import ListNotations.
Open Scope R_scope.

Lemma choose_each {A} (d : nat) (P : nat -> A -> Prop) (a0 : A) : (forall p, (p < d)%nat -> exists a, P p a) -> exists f : nat -> A, forall p, (p < d)%nat -> P p (f p).
Proof.
  induction d as [|d IH]; intros H; [exists (fun _ => a0); intros; lia|]. destruct IH as (f & Hf); [intros; apply H; lia|]. destruct (H d ltac:(lia)) as (a & Ha).
  exists (fun p => if (p =? d)%nat then a else f p). intros p Hp. destruct (Nat.eqb_spec p d) as [->|N]; [exact Ha|]. apply Hf. lia.
Qed.
Lemma sharp_amounts n t f : modulus t = 0%Z -> sharp n t f -> exists M, amounts n (charge t) M f.
Proof. intros Z (M & H). exists M. intros o Ho Nz. pose proof (H o Ho Nz) as D. unfold alike in D. rewrite Z in D. apply Z.divide_0_l in D. lia. Qed.
(** Any elements with a reversed quantum number *)
Lemma reversed_pairs l h u pi g : hermitian (K := CC) l h -> hermitian2 (K := CC) l u -> exchange l pi -> unchanged1 l pi h -> unchanged2 l pi u -> reversed l pi g -> kept l h u [Label g 0] ->
  forall m, let n := (2 * l)%nat in let X := many_body Spatial l h u in let d := choose n m in
  exists E Psi Psi' M S, spectrum n X m d E Psi /\ spectrum n X m d E Psi' /\ forall p, (p < d)%nat ->
      amounts n (per_spin Spatial g) (M p) (Psi p) /\ amounts n (per_spin Spatial g) (- M p) (Psi' p) /\ amounts n spin_of (S p) (Psi p) /\ amounts n spin_of (S p) (Psi' p).
Proof.
  intros Hh Hu Hp H1 H2 Rv Kp m n X d. destruct (proj1 (many_sharp Spatial l h u [Label g 0] Hh Hu Kp m)) as (E & Psi & Sp & Sh). cbn [spin_orbitals] in Sp, Sh.
  destruct (many_reversed Spatial l h u pi g Hp H1 H2 Rv m d E Psi Sp) as (Psi' & Sp' & A & B). cbn [spin_orbitals] in Sp', A, B.
  destruct (choose_each d (fun p M => amounts n (per_spin Spatial g) M (Psi p)) 0%Z) as (M & HM).
  { intros p Hd. destruct (sharp_amounts n (of_orbital (Label g 0)) (Psi p) eq_refl (Sh p Hd _ (or_intror (or_introl eq_refl)))) as (M & Q). exists M. exact Q. }
  destruct (choose_each d (fun p S => amounts n spin_of S (Psi p)) 0%Z) as (S & HS).
  { intros p Hd. destruct (sharp_amounts n spin_label (Psi p) eq_refl (Sh p Hd _ (or_introl eq_refl))) as (M' & Q). exists M'. exact Q. }
  exists E, Psi, Psi', M, S. split; [exact Sp|]. split; [exact Sp'|]. intros p Hd. split; [apply HM, Hd|]. split; [apply A; [exact Hd | apply HM, Hd]|]. split; [apply HS, Hd|]. apply B; [reflexivity | exact Hd | apply HS, Hd].
Qed.
Lemma partner_exchange l k : (2 * l = k * (k + 1))%nat -> exchange l partner.
Proof.
  intros Hl p Hp. assert (Q : shell_state (partner (partner p)) = shell_state p). { rewrite !partner_right. cbn [fst snd]. rewrite Z.opp_involutive. symmetry. apply surjective_pairing. } split; [|apply shell_state_inj, Q].
  destruct (shell_fill k p) as (j & Hj & Ej); [lia|]. assert (partner p = j) as -> by (apply shell_state_inj; rewrite partner_right, Ej; reflexivity). lia.
Qed.
Lemma coulomb_partner p q r s : coulomb_of shell_state (partner p) (partner q) (partner r) (partner s) = coulomb_of shell_state p q r s.
Proof. unfold coulomb_of. rewrite !partner_right. cbn [fst snd]. apply coulomb_mirror. Qed.
Lemma oscillator_pairs npm spin anti l k L N omega mass e (files : fs) b t : (2 * l = k * (k + 1))%nat -> sound files -> oscillator npm spin anti l L N omega mass e files = (Ok b, t) ->
  angular_pairs l b (fun p => snd (shell_state p)).
Proof.
  intros Hl F E. pose proof (partner_exchange l k Hl) as PE. pose proof (oscillator_holds _ _ _ _ _ _ _ _ _ _ _ _ F E) as H.
  destruct (oscillator_conserved _ _ _ _ _ _ _ _ _ _ _ _ F E) as (h & u & Eh & Eu & Hh & Hu & Kp). exists h, u. split; [exact Eh|]. split; [exact Eu|].
  assert (H1 : unchanged1 l partner (mat h)).
  { destruct (ho_h _ _ _ _ _ _ _ _ _ _ _ H) as (h' & Eh' & _ & Gh). rewrite Eh in Eh'. injection Eh' as <-. intros p q Hp Hq. unfold mat. rewrite !Gh. f_equal. apply oscillator_reflect; apply partner_right. }
  assert (H2 : unchanged2 l partner (ten u)).
  { destruct (ho_u _ _ _ _ _ _ _ _ _ _ _ H) as (u' & Eu' & _ & Gu). rewrite Eu in Eu'. injection Eu' as <-. intros p q r s Hp Hq Hr Hs. unfold ten. rewrite !Gu by (assumption || apply PE; assumption). rewrite coulomb_partner. reflexivity. }
  assert (Rv : reversed l partner (fun p => snd (shell_state p))) by (intros p _; rewrite partner_right; reflexivity).
  intros m n X d. split.
  - exact (reversed_pairs l (mat h) (ten u) partner _ Hh Hu PE H1 H2 Rv Kp m).
  - intros En Psi p M Sp Hd A NM. exact (reversed_degenerate Spatial l (mat h) (ten u) partner _ Hh Hu PE H1 H2 Rv m d En Psi p M Sp Hd A NM).
Qed.
