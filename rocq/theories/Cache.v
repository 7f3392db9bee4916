(** Model of the Coulomb cache, two_dim_helper.py:187-249: get_coulomb_elements with the
    environment variable QS_CACHE_TDHO.  A cache file is identified by its directory
    (sys.path[0] of the calling process) and the number of orbitals, the only things its
    name depends on.  Its content is a sequence of cells: the .npy header, which records
    the shape, and the stored numbers.  Timing and printing are left out. *)
From Coq Require Import List Arith ZArith Lia Bool Reals.
From Verif Require Import Py TwoDim Coulomb.
Import ListNotations.

(** two_dim_helper.py:252-271 _get_coulomb_elements, as the list of its entries in C order *)
Definition coulomb_array (num_orbitals : nat) : list R :=
  flat_map (fun p => flat_map (fun q => flat_map (fun r => map (fun s =>
    coulomb_of shell_state p q r s) (seq 0 num_orbitals)) (seq 0 num_orbitals)) (seq 0 num_orbitals)) (seq 0 num_orbitals).

(** A cell never written in a file that was extended past its end reads as zero bytes. *)
Inductive cell := Header (num_orbitals : nat) | Datum (x : R) | Hole.
Definition file := list cell.
Definition number (c : cell) : R := match c with Datum x => x | _ => 0%R end.

(** The content np.save writes, in order. *)
Definition image (n : nat) : file := Header n :: map Datum (coulomb_array n).
(** np.load: the header must be there and all the entries it announces. *)
Definition np_load (f : file) : res (list R) :=
  match f with
  | Header n :: rest =>
      if (length (coulomb_array n) <=? length rest)%nat
      then Ok (map number (firstn (length (coulomb_array n)) rest)) else Err ValueError
  | _ => Err ValueError
  end.

(** The cache files of all directories. *)
Definition fs := nat -> nat -> option file.
Definition fs_set (s : fs) (d n : nat) (f : file) : fs :=
  fun d' n' => if (d' =? d)%nat && (n' =? n)%nat then Some f else s d' n'.

(** What a call depends on besides its argument: whether QS_CACHE_TDHO is set, sys.path[0],
    and whether files can be created there. *)
Record setting := Setting { cached : bool; dir : nat; writable : bool }.

(** two_dim_helper.py:207-249, with nothing else running *)
Definition get_coulomb_elements (e : setting) (n : nat) : M fs (list R) :=
  if negb (cached e) then ret (coulomb_array n)
  else
    let* s := get_st in
    match s (dir e) n with
    | Some f => lift (np_load f)
    | None =>
        if writable e then modify (fun s => fs_set s (dir e) n (image n)) ;; ret (coulomb_array n)
        else raise OSError
    end.
(** A history of calls; exceptions are caught. *)
Fixpoint calls (h : list (setting * nat)) (s : fs) : list (res (list R)) * fs :=
  match h with
  | [] => ([], s)
  | (e, n) :: h' => let (r, s1) := get_coulomb_elements e n s in let (rs, s2) := calls h' s1 in (r :: rs, s2)
  end.

(** ** The same function step by step, several processes sharing the file system *)
Inductive point :=
| Begin                         (* line 207 *)
| Found                         (* line 223 passed: the file exists *)
| Computed                      (* line 239 *)
| Writing (offset : nat)        (* inside np.save, the file opened and truncated *)
| Returned (r : res (list R))
| Crashed.
Record process := Process { p_env : setting; p_n : nat; p_at : point }.
Record machine := Machine { m_fs : fs; m_procs : list process }.

(** Write cells at an offset. *)
Definition write_at (f : file) (offset : nat) (cs : list cell) : file :=
  firstn offset (f ++ repeat Hole (offset - length f)) ++ cs ++ skipn (offset + length cs) f.
(** One atomic action of a process; a write may transfer any positive number of cells. *)
Definition advance (chunk : nat) (p : process) (s : fs) : process * fs :=
  let e := p_env p in let n := p_n p in
  let goto q := Process e n q in
  match p_at p with
  | Begin =>
      if negb (cached e) then (goto (Returned (Ok (coulomb_array n))), s)
      else match s (dir e) n with Some _ => (goto Found, s) | None => (goto Computed, s) end
  | Found =>
      match s (dir e) n with
      | Some f => (goto (Returned (np_load f)), s)
      | None => (goto (Returned (Err OSError)), s)
      end
  | Computed =>
      if writable e then (goto (Writing 0), fs_set s (dir e) n [])
      else (goto (Returned (Err OSError)), s)
  | Writing offset =>
      match firstn (S chunk) (skipn offset (image n)) with
      | [] => (goto (Returned (Ok (coulomb_array n))), s)
      | cs =>
          let f := match s (dir e) n with Some f => f | None => [] end in
          (goto (Writing (offset + length cs)), fs_set s (dir e) n (write_at f offset cs))
      end
  | Returned _ | Crashed => (p, s)
  end.

Inductive action := Spawn (e : setting) (n : nat) | Run (i chunk : nat) | Crash (i : nat).
Fixpoint replace_at {A} (i : nat) (x : A) (l : list A) : list A :=
  match l, i with
  | [], _ => []
  | _ :: l', O => x :: l'
  | y :: l', S i' => y :: replace_at i' x l'
  end.
Definition act (a : action) (m : machine) : machine :=
  match a with
  | Spawn e n => Machine (m_fs m) (m_procs m ++ [Process e n Begin])
  | Run i chunk =>
      match nth_error (m_procs m) i with
      | None => m
      | Some p => let (p', s) := advance chunk p (m_fs m) in Machine s (replace_at i p' (m_procs m))
      end
  | Crash i =>
      match nth_error (m_procs m) i with
      | None => m
      | Some p => Machine (m_fs m) (replace_at i (Process (p_env p) (p_n p) Crashed) (m_procs m))
      end
  end.
Definition run (t : list action) (m : machine) : machine := fold_left (fun m a => act a m) t m.
