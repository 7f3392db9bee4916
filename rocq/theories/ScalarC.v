(** The complex numbers (Coquelicot's C = R * R) as scalars.  [small x] is
    |x| < 1e-12. *)
From Coq Require Import Reals Lra Bool.
From Coquelicot Require Import Coquelicot.
From Verif Require Import Scalar.
Open Scope R_scope.

Definition small_C (x : C) : bool := if Rlt_dec (Cmod x) (1 / 1000000000000) then true else false.

Lemma C_ring_laws : ring_theory (RtoC 0) (RtoC 1) Cplus Cmult Cminus Copp eq.
Proof.
  constructor; intros.
  - apply Cplus_0_l. - apply Cplus_comm. - apply Cplus_assoc. - apply Cmult_1_l.
  - apply Cmult_comm. - apply Cmult_assoc. - apply Cmult_plus_distr_r. - reflexivity. - apply Cplus_opp_r.
Qed.
Lemma C_conj_add x y : Cconj (Cplus x y) = Cplus (Cconj x) (Cconj y).
Proof. unfold Cconj, Cplus. cbn. f_equal; lra. Qed.
Lemma C_conj_mul x y : Cconj (Cmult x y) = Cmult (Cconj x) (Cconj y).
Proof. unfold Cconj, Cmult. cbn. f_equal; lra. Qed.
Lemma C_conj_invol x : Cconj (Cconj x) = x.
Proof. destruct x. unfold Cconj. cbn. f_equal. lra. Qed.
Lemma C_conj_i : Cconj Ci = Copp Ci.
Proof. unfold Cconj, Ci, Copp. cbn. f_equal; lra. Qed.
Lemma C_i_squared : Cmult Ci Ci = Copp (RtoC 1).
Proof. unfold Cmult, Ci, Copp, RtoC. cbn. f_equal; lra. Qed.
Lemma C_half : Cplus (RtoC (/2)) (RtoC (/2)) = RtoC 1.
Proof. unfold Cplus, RtoC. cbn. f_equal; lra. Qed.
Lemma C_small_0 : small_C (RtoC 0) = true.
Proof. unfold small_C. rewrite Cmod_0. destruct Rlt_dec; [reflexivity | lra]. Qed.
Lemma C_small_1 : small_C (RtoC 1) = false.
Proof. unfold small_C. rewrite Cmod_1. destruct Rlt_dec; [lra | reflexivity]. Qed.

Definition CC : scalar :=
  Scalar C (RtoC 0) (RtoC 1) Ci (RtoC (/2)) Cplus Cmult Cminus Copp Cconj small_C
    C_ring_laws C_conj_add C_conj_mul C_conj_invol C_conj_i C_i_squared C_half C_small_0 C_small_1.
