(** Concrete objects over the Gaussian rationals, used to show that the
    hypotheses of the property theorems are satisfiable and to refute the
    claims that fail. *)
From Coq Require Import List Arith ZArith Lia Bool.
From Verif Require Import Scalar Py Numpy Spec BasisSet BasisSpec.
Import ListNotations.

(** A matrix literal. *)
Definition lit2 (d : dtype) (rows : list (list QI)) : arr QI :=
  Arr [length rows; length (hd [] rows)] d
    (fun idx => match idx with [i; j] => nth j (nth i rows []) s0 | _ => s0 end).
Definition lit4 (d : dtype) (n : nat) (f : nat -> nat -> nat -> nat -> QI) : arr QI :=
  Arr [n; n; n; n] d (fun idx => match idx with [p; q; r; s] => f p q r s | _ => s0 end).

Definition nz (n : nat) : QI := qz (Z.of_nat n) 0.

(** Two orbitals on a three-point grid. *)
Definition ex_h : arr QI := lit2 Complex128 [[qz 1 0; qz 0 1]; [qz 0 (-1); qz 2 0]].
Definition ex_s : arr QI := eye 2.
(** u[p,q,r,s] = g(p,r) g(q,s) with g Hermitian: both two-body symmetries hold. *)
Definition ex_u : arr QI :=
  lit4 Complex128 2 (fun p q r s => smul (mat ex_h p r) (mat ex_h q s)).
Definition ex_dip : arr QI :=
  Arr [1; 2; 2]%nat Float64
    (fun idx => match idx with [_; p; q] => if (p =? q)%nat then s0 else qz 3 0 | _ => s0 end).
Definition ex_spf : arr QI := lit2 Complex128 [[qz 1 0; qz 2 1; qz 0 0]; [qz 0 1; qz 1 0; qz 5 0]].

Definition ex_arr (f : field) : option (arr QI) :=
  match f with
  | F_h => Some ex_h | F_s => Some ex_s | F_u => Some ex_u | F_dip => Some ex_dip | F_spf => Some ex_spf
  | _ => None
  end.
Definition ex_basis : basis QI := Basis Base (Some 0) 2 1 ex_arr s0 false false.

(** An invertible, non-unitary coefficient matrix and its inverse, a
    rectangular one, and a 2x1 one. *)
Definition ex_C : arr QI := lit2 Complex128 [[qz 1 0; qz 0 1]; [qz 0 0; qz 1 0]].
Definition ex_Cinv : arr QI := lit2 Complex128 [[qz 1 0; qz 0 (-1)]; [qz 0 0; qz 1 0]].
Definition ex_R : arr QI := lit2 Complex128 [[qz 1 0; qz 2 0; qz 0 1]; [qz 0 0; qz 1 0; qz 1 1]].
Definition ex_col : arr QI := lit2 Complex128 [[qz 1 0]; [qz 0 0]].
(** A unitary one: exchange of the two orbitals. *)
Definition ex_X : arr QI := lit2 Complex128 [[qz 0 0; qz 1 0]; [qz 1 0; qz 0 0]].

Lemma ex_ready : ready ex_basis 2.
Proof.
  constructor; cbn.
  - exists 0. reflexivity.
  - reflexivity.
  - exists ex_h. split; reflexivity.
  - exists ex_u. split; reflexivity.
  - intros a E. injection E as <-. reflexivity.
  - intros a E. injection E as <-. split; [reflexivity | lia].
  - intros a E. injection E as <-. exists [3]. split; reflexivity.
  - discriminate.
  - intros f a H E. destruct H as [<-|[<-|[<-|[<-|[]]]]]; discriminate E.
  - discriminate.
Qed.

(** The same basis after change_to_general_orbital_basis(): four spin-orbitals. *)
Definition ex_gos : basis QI := snd (change_to_general None true ex_basis).
Definition the (x : option (arr QI)) : arr QI := match x with Some a => a | None => zeros [] Int64 end.
Lemma the_some (x : option (arr QI)) : (if x then true else false) = true -> x = Some (the x).
Proof. destruct x; [reflexivity | discriminate]. Qed.
Lemma opt_shape (x : option (arr QI)) a sh : x = Some a -> option_map shape x = Some sh -> shape a = sh.
Proof. intros -> E. injection E as E. exact E. Qed.

Lemma ex_gos_ready : ready ex_gos 4.
Proof.
  constructor.
  - exists 0. vm_compute. reflexivity.
  - vm_compute. reflexivity.
  - exists (the (b_arr ex_gos F_h)). split; [apply the_some|]; vm_compute; reflexivity.
  - exists (the (b_arr ex_gos F_u)). split; [apply the_some|]; vm_compute; reflexivity.
  - intros a E. apply (opt_shape _ _ _ E). vm_compute. reflexivity.
  - intros a E. split; [apply (opt_shape _ _ _ E); vm_compute; reflexivity | vm_compute; lia].
  - intros a E. exists [3]. split; [|vm_compute; reflexivity]. apply (opt_shape _ _ _ E). vm_compute. reflexivity.
  - intros a E. exists [3]. split; [|vm_compute; reflexivity]. apply (opt_shape _ _ _ E). vm_compute. reflexivity.
  - intros f a H E. apply (opt_shape _ _ _ E). destruct H as [<-|[<-|[<-|[<-|[]]]]]; vm_compute; reflexivity.
  - intros a E. split; [apply (opt_shape _ _ _ E)|]; vm_compute; reflexivity.
Qed.
(** Exchange of neighbouring spin-orbitals, i.e. a spin flip. *)
Definition ex_flip : arr QI :=
  Arr [4; 4]%nat Complex128
    (fun idx => match idx with
      | [i; j] => if (Nat.div2 i =? Nat.div2 j)%nat && negb (i =? j)%nat then s1 else s0
      | _ => s0 end).
(** The first three of the four spin-orbitals. *)
Definition ex_cut : arr QI :=
  Arr [4; 3]%nat Complex128
    (fun idx => match idx with [i; j] => if (i =? j)%nat then s1 else s0 | _ => s0 end).
Definition the_ok (x : res (arr QI)) : arr QI := match x with Ok a => a | Err _ => zeros [] Int64 end.
Lemma the_ok_spec (x : res (arr QI)) : is_ok x = true -> x = Ok (the_ok x).
Proof. destruct x; [reflexivity | discriminate]. Qed.

(** A complex orthonormal spin pair: a = (3, 4i)/5, b = (4i, 3)/5. *)
Definition ex_va : list QI := [qr 3 5; smul si (qr 4 5)].
Definition ex_vb : list QI := [smul si (qr 4 5); qr 3 5].
Lemma ex_pair : orthonormal_pair ex_va ex_vb.
Proof. repeat split; qi. Qed.
Lemma default_pair : orthonormal_pair (default_a QI) (default_b QI).
Proof. repeat split; qi. Qed.
(** The example basis with overlap 2 (not orthonormal). *)
Definition ex_s2 : arr QI := lit2 Float64 [[qz 2 0; qz 0 0]; [qz 0 0; qz 2 0]].
Definition ex_basis2 : basis QI := set_arr F_s (Some ex_s2) ex_basis.
Lemma ex_ready2 : ready ex_basis2 2.
Proof.
  constructor; cbn.
  - exists 0. reflexivity.
  - reflexivity.
  - exists ex_h. split; reflexivity.
  - exists ex_u. split; reflexivity.
  - intros a E. injection E as <-. reflexivity.
  - intros a E. injection E as <-. split; [reflexivity | lia].
  - intros a E. injection E as <-. exists [3]. split; reflexivity.
  - discriminate.
  - intros f a H E. destruct H as [<-|[<-|[<-|[<-|[]]]]]; discriminate E.
  - discriminate.
Qed.
Lemma ex_s_delta : forall p q, p < 2 -> q < 2 -> mat ex_s p q = delta p q.
Proof. intros [|[|p]] [|[|q]] Hp Hq; try lia; qi. Qed.
(** kron(ex_R, 1_2) *)
Definition ex_R2 : arr QI := Arr [4; 6]%nat Complex128
  (fun idx => match idx with [i; j] => dbl1 (mat ex_R) i j | _ => s0 end).
Definition ex_R2d : arr QI := Arr [6; 4]%nat Complex128
  (fun idx => match idx with [i; j] => dbl1 (mat (dagger ex_R)) i j | _ => s0 end).
