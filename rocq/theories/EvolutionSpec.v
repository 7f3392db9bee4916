(** The time-dependent Schroedinger equation on Fock space. *)
From Coq Require Import Arith Reals.
From Coquelicot Require Import Coquelicot.
From Verif Require Import Scalar ScalarC Numpy Spec BasisSet Py Systems OperatorSpec FockSpec InnerSpec.
Open Scope R_scope.

(** The complex function f of a real variable has the derivative z at t. *)
Definition derivative (f : R -> C) (t : R) (z : C) : Prop :=
  is_derive (fun x => Re (f x)) t (Re z) /\ is_derive (fun x => Im (f x)) t (Im z).
(** f is continuous. *)
Definition ccont (f : R -> C) : Prop := forall t, continuous (fun x => Re (f x)) t /\ continuous (fun x => Im (f x)) t.
(** i d psi / dt = H(t) psi, amplitude by amplitude, in the Fock space of n spin-orbitals *)
Definition evolution (n : nat) (H : R -> state CC -> state CC) (psi : R -> state CC) : Prop :=
  (forall t, proper (psi t)) /\
  forall t o, among n o -> derivative (fun x => psi x o) t (- Ci * H t (psi t) o)%C.
(** Two states are the same vector. *)
Definition same_state (n : nat) (f g : state CC) : Prop := forall o, among n o -> f o = g o.
(** The elements that h_t(t) and u_t(t) of a system return at time t *)
Definition h_at (s : nat) (w : world CC) (t : R) : nat -> nat -> C :=
  match sys_h_t (K := CC) s (RtoC t) w with (Ok (Some a), _) => mat a | _ => fun _ _ => RtoC 0 end.
Definition u_at (s : nat) (w : world CC) (t : R) : nat -> nat -> nat -> nat -> C :=
  match sys_u_t (K := CC) s (RtoC t) w with (Ok (Some a), _) => ten a | _ => fun _ _ _ _ => RtoC 0 end.
(** The operator adds a Hermitian term to h and leaves u real multiples, at all times: a real
    pulse and polarization along Hermitian dipole elements, a real weight of a Hermitian
    matrix, or a real switching function *)
Definition hermitian_drive (l : nat) (d : option (arr CC)) (M : meaning CC) : Prop :=
  forall t : R, hermitian (K := CC) l (one_body_term (K := CC) M d (RtoC t)) /\ Im (two_body_factor (K := CC) M (RtoC t)) = 0.
(** exp(-i x) *)
Definition phase (x : R) : C := (cos x, - sin x).
(** sum_pq A_pq a_p^+ a_q over the spin-orbitals of the system: the second-quantized form of
    orbital matrix elements A *)
Definition observable (k : kind) (l : nat) (A : nat -> nat -> C) : state CC -> state CC :=
  match k with
  | General => one_body (K := CC) l A
  | Spatial => one_body (K := CC) (2 * l) (dbl1 (K := CC) A)
  end.
(** ... and changes continuously. *)
Definition continuous_drive (l : nat) (d : option (arr CC)) (M : meaning CC) : Prop :=
  (forall p q, (p < l)%nat -> (q < l)%nat -> ccont (fun t => one_body_term (K := CC) M d (RtoC t) p q)) /\
  ccont (fun t => two_body_factor (K := CC) M (RtoC t)).
