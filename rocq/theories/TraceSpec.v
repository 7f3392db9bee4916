(** The sum of all exact energies, from the traces of the elements. *)
From Coq Require Import Arith Reals.
From Coquelicot Require Import Coquelicot.
From Verif Require Import Scalar ScalarC Py Numpy BasisSet Spec OneDimSpec GridSpec Systems FockSpec InnerSpec RaiseSpec FockSpectrumSpec.
Open Scope R_scope.

(** In how many of the ways to put m electrons on n spin-orbitals one given spin-orbital is
    occupied, and in how many two given ones are *)
Definition with_one (n m : nat) : nat := match n, m with S n', S m' => choose n' m' | _, _ => 0 end.
Definition with_two (n m : nat) : nat := match n, m with S n', S m' => with_one n' m' | _, _ => 0 end.
(** The trace of the one-body elements over the spin-orbitals, and that of the two-body elements
    over the pairs of spin-orbitals *)
Definition trace_one (k : kind) (l : nat) (h : nat -> nat -> C) : C :=
  match k with
  | General => sumn (K := CC) l (fun p => h p p)
  | Spatial => (RtoC 2 * sumn (K := CC) l (fun p => h p p))%C
  end.
Definition trace_two (k : kind) (l : nat) (u : nat -> nat -> nat -> nat -> C) : C :=
  match k with
  | General => (RtoC (1 / 2) * sumn (K := CC) l (fun p => sumn (K := CC) l (fun q => u p q p q)))%C
  | Spatial => sumn (K := CC) l (fun p => sumn (K := CC) l (fun q => (RtoC 2 * u p q p q - u p q q p)%C))
  end.
(** The sum of the energies of all states of m electrons *)
Definition energy_sum (k : kind) (l m : nat) (h : nat -> nat -> C) (u : nat -> nat -> nat -> nat -> C) : C :=
  let n := match k with General => l | Spatial => 2 * l end%nat in
  (RtoC (INR (with_one n m)) * trace_one k l h + RtoC (INR (with_two n m)) * trace_two k l u)%C.
(** A basis set of l orbitals in which the exact energies of m electrons with spin add up to
    the given traces, each with the number of determinants that feel it, for every m *)
Definition energies_add (l : nat) (b : basis CC) (t1 t2 : R) : Prop :=
  exists h u, b_arr b F_h = Some h /\ b_arr b F_u = Some u /\ forall m, let n := (2 * l)%nat in exists E Psi,
    spectrum n (many_body Spatial l (mat h) (ten u)) m (choose n m) E Psi /\ rsum (choose n m) E = INR (with_one n m) * t1 + INR (with_two n m) * t2.
