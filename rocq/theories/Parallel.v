(** Model of the parallel loop that fills the array of Coulomb elements,
    two_dim_helper.py:252-271 _get_coulomb_elements.  numba.prange distributes the values of
    p over threads, which fill one shared array; the order in which their actions
    interleave is arbitrary.  Each thread has its own loop counters and its own copies of
    n_p, m_p and so on (numba makes variables assigned in the body of a prange loop private),
    kept here in the program counter.  [element] stands for coulomb_ho with any kind of
    arithmetic, [indices] for get_indices_nm. *)
From Coq Require Import List Arith ZArith Reals Bool.
From Verif Require Import TwoDim Coulomb.
Import ListNotations.
Open Scope nat_scope.

Section Loop.
  Context {V : Type}.
  Variables (zero : V) (indices : nat -> Z * Z) (element : Z * Z -> Z * Z -> Z * Z -> Z * Z -> V).
  Variable n : nat.   (* num_orbitals *)

  (** The shared array *)
  Definition cells := nat -> nat -> nat -> nat -> V.
  (** two_dim_helper.py:256 np.zeros(shape) *)
  Definition zeros4 : cells := fun _ _ _ _ => zero.
  Definition store (u : cells) (p q r s : nat) (v : V) : cells :=
    fun p' q' r' s' => if (p' =? p) && (q' =? q) && (r' =? r) && (s' =? s) then v else u p' q' r' s'.

  Inductive control :=
  | NextP
  | NextQ (p : nat) (np : Z * Z) (q : nat)
  | NextR (p : nat) (np : Z * Z) (q : nat) (nq : Z * Z) (r : nat)
  | NextS (p : nat) (np : Z * Z) (q : nat) (nq : Z * Z) (r : nat) (nr : Z * Z) (s : nat)
  | Store (p : nat) (np : Z * Z) (q : nat) (nq : Z * Z) (r : nat) (nr : Z * Z) (s : nat) (v : V).
  (** A thread: the values of p it has still to work on, and where it is *)
  Record thread := Thread { queue : list nat; at_ : control }.

  (** One action of a thread; None when it has finished. *)
  Definition action (t : thread) (u : cells) : option (thread * cells) :=
    match at_ t with
    | NextP =>                                                   (* lines 258-259 *)
        match queue t with
        | [] => None
        | p :: rest => Some (Thread rest (NextQ p (indices p) 0), u)
        end
    | NextQ p np q =>                                            (* lines 260-261 *)
        if q <? n then Some (Thread (queue t) (NextR p np q (indices q) 0), u)
        else Some (Thread (queue t) NextP, u)
    | NextR p np q nq r =>                                       (* lines 262-263 *)
        if r <? n then Some (Thread (queue t) (NextS p np q nq r (indices r) 0), u)
        else Some (Thread (queue t) (NextQ p np (S q)), u)
    | NextS p np q nq r nr s =>                                  (* lines 264-269 *)
        if s <? n then Some (Thread (queue t) (Store p np q nq r nr s (element np nq nr (indices s))), u)
        else Some (Thread (queue t) (NextR p np q nq (S r)), u)
    | Store p np q nq r nr s v =>                                (* line 267, the assignment *)
        Some (Thread (queue t) (NextS p np q nq r nr (S s)), store u p q r s v)
    end.

  Record pool := Pool { shared : cells; threads : list thread }.
  Fixpoint set_nth (i : nat) (t : thread) (ts : list thread) {struct ts} : list thread :=
    match ts, i with
    | [], _ => []
    | _ :: ts', 0 => t :: ts'
    | x :: ts', S i' => x :: set_nth i' t ts'
    end.
  (** Thread i acts; a finished thread stays as it is. *)
  Definition turn (i : nat) (m : pool) : pool :=
    match nth_error (threads m) i with
    | None => m
    | Some t =>
        match action t (shared m) with
        | None => m
        | Some (t', u') => Pool u' (set_nth i t' (threads m))
        end
    end.
  Definition execute (schedule : list nat) (m : pool) : pool := fold_left (fun m i => turn i m) schedule m.
  (** The threads get the values of p in [shares]. *)
  Definition launch (shares : list (list nat)) : pool := Pool zeros4 (map (fun ps => Thread ps NextP) shares).
  Definition done (t : thread) : bool := match queue t, at_ t with [], NextP => true | _, _ => false end.
  Definition finished (m : pool) : bool := forallb done (threads m).
  (** The cell a thread is about to write *)
  Definition target (t : thread) : option (nat * nat * nat * nat) :=
    match at_ t with Store p _ q _ r _ s _ => Some (p, q, r, s) | _ => None end.
End Loop.

(** two_dim_helper.py:267-269 with the arguments of coulomb_ho in the order of the call *)
Definition coulomb_call (np nq nr ns : Z * Z) : R :=
  coulomb_ho (Z.to_nat (fst np)) (snd np) (Z.to_nat (fst nq)) (snd nq) (Z.to_nat (fst nr)) (snd nr) (Z.to_nat (fst ns)) (snd ns).
