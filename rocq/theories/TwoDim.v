(** Orbital numbering of the two-dimensional oscillator
    (quantum_systems/quantum_dots/two_dim/two_dim_helper.py:113-184) and the
    magnetic-field table (274-304, 383-418; two_dim_ho.py:281-305).
    Python integers are Z; the floating-point [middle] is a half-integer and is
    represented by its double. *)
From Coq Require Import List Arith ZArith Lia Bool Reals.
From Verif Require Import Py.
Import ListNotations.
Open Scope Z_scope.

(** [for i in range(a, b)] adding up f(i) *)
Fixpoint sum_range (a : Z) (len : nat) (f : Z -> Z) (acc : Z) : Z :=
  match len with O => acc | S k => sum_range (a + 1) k f (acc + f a) end.

(** two_dim_helper.py:113-135 *)
Definition get_index_p (n m : Z) : Z :=
  let num_shells := 2 * n + Z.abs m + 1 in
  let previous_shell := sum_range 1 (Z.to_nat (num_shells - 1)) (fun i => i) 0 in
  let current_shell := previous_shell + num_shells in
  if m =? 0 then
    if n =? 0 then 0
    else previous_shell + (current_shell - previous_shell) / 2
  else if m <? 0 then previous_shell + n
  else current_shell - (n + 1).

(** two_dim_helper.py:145-148, the while loop; None when [fuel] iterations do
    not suffice (they always do in [get_indices_nm], see TwoDimProofs). *)
Fixpoint shell_loop (fuel : nat) (p previous current counter : Z) : option (Z * Z * Z) :=
  if current <=? p then
    match fuel with
    | O => None
    | S k => shell_loop k p current (current + (counter + 1)) (counter + 1)
    end
  else Some (previous, current, counter).
(** two_dim_helper.py:138-168 *)
Definition get_indices_nm (p : Z) : option (Z * Z) :=
  match shell_loop (Z.to_nat p) p 0 1 1 with
  | None => None
  | Some (previous, current, counter) =>
      let middle2 := (current - previous) + 2 * previous in
      if Z.odd (current - previous) && (p =? middle2 / 2) then Some (counter / 2, 0)
      else if 2 * p <? middle2 then
        let n := p - previous in Some (n, - ((counter - 1) - 2 * n))
      else
        let n := (current - 1) - p in Some (n, (counter - 1) - 2 * n)
  end.
(** n, m = get_indices_nm(p) for an orbital number p *)
Definition shell_state (p : nat) : Z * Z := match get_indices_nm (Z.of_nat p) with Some s => s | None => (0, 0) end.
(** two_dim_helper.py:171-173 *)
Definition get_shell_energy (n m : Z) : Z := 2 * n + Z.abs m + 1.
(** two_dim_helper.py:176-184: the diagonal of h, as written by the loop *)
Definition one_body_diagonal (p : Z) : option Z :=
  match get_indices_nm p with Some (n, m) => Some (get_shell_energy n m) | None => None end.

(** ** The table of states in a magnetic field *)
Open Scope R_scope.
Definition state := (Z * Z)%type.
(** two_dim_helper.py:274-275 *)
Definition shell_energy_B (omega omega_c : R) (s : state) : R :=
  omega * IZR (2 * fst s + Z.abs (snd s) + 1) - (omega_c * IZR (snd s)) / 2.
(** np.arange(a, b) *)
Definition arange (a b : Z) : list Z := map (fun k => (a + Z.of_nat k)%Z) (seq 0 (Z.to_nat (b - a))).
(** two_dim_helper.py:386-394: the rows in the order they are written *)
Definition grid (ns ms : list Z) : list state := flat_map (fun n => map (fun m => (n, m)) ms) ns.

(** df.sort_values(by=["E", "m"]): rows by energy, then m (two_dim_helper.py:396) *)
Definition before (e : state -> R) (s t : state) : bool :=
  if Rlt_dec (e s) (e t) then true
  else if Rlt_dec (e t) (e s) then false
  else (snd s <=? snd t)%Z.
Fixpoint insert (e : state -> R) (s : state) (l : list state) : list state :=
  match l with
  | [] => [s]
  | t :: r => if before e s t then s :: l else t :: insert e s r
  end.
Fixpoint sort_rows (e : state -> R) (l : list state) : list state :=
  match l with [] => [] | s :: r => insert e s (sort_rows e r) end.

(** np.round(x, 8), halves to even *)
Definition round_half_even (x : R) : Z :=
  let z := Int_part x in
  let f := x - IZR z in
  if Rlt_dec f (1/2) then z else if Rlt_dec (1/2) f then (z + 1)%Z
  else if Z.even z then z else (z + 1)%Z.
Definition round8 (x : R) : R := IZR (round_half_even (x * 100000000)) / 100000000.
(** Series.unique(): first occurrences, in order *)
Fixpoint unique (l : list R) (seen : list R) : list R :=
  match l with
  | [] => []
  | x :: r => if in_dec Req_EM_T x seen then unique r seen else x :: unique r (x :: seen)
  end.
(** two_dim_helper.py:398-403: the level of a row is the last [i] whose energy
    lies within 1e-6; 0 if there is none *)
Fixpoint level_from (es : list R) (i : nat) (e : R) (acc : nat) : nat :=
  match es with
  | [] => acc
  | x :: r => level_from r (S i) e (if Rlt_dec (Rabs (e - x)) (1 / 1000000) then i else acc)
  end.
Definition levels (es : list R) : list nat :=
  let us := unique (map round8 es) [] in map (fun e => level_from us 0 e 0%nat) es.
(** two_dim_helper.py:410-413: the cap, IndexError when iloc runs off the end *)
Fixpoint cap_from (rest : list nat) (cap k : nat) : res nat :=
  match rest with
  | [] => Err IndexError
  | lv :: r => if (lv =? cap)%nat then cap_from r cap (S k) else Ok k
  end.
(** two_dim_helper.py:383-418 *)
Definition construct_dataframe (ns ms : list Z) (omega_c omega : R) : res (list state) :=
  let e := shell_energy_B omega omega_c in
  match grid ns ms with
  | [] => Err KeyError
  | _ =>
      let rows := sort_rows e (grid ns ms) in
      let lv := levels (map e rows) in
      let k := (length ns * (length ns - 1) / 2)%nat in
      match skipn k lv with
      | [] => Err IndexError
      | cap :: _ => let! n := cap_from (skipn k lv) cap k in Ok (firstn n rows)
      end
  end.
(** two_dim_ho.py:281-291, 302-305: the orbitals of TwoDimHarmonicOscB, in order;
    KeyError from df.loc when the table is too short *)
Definition field_states (l : nat) (omega_0 omega_c : R) : res (list state) :=
  let omega := sqrt (omega_0 ^ 2 + omega_c ^ 2 / 4) in
  let l' := Z.of_nat l in
  let! df := construct_dataframe (arange 0 l') (arange (- l' - 5) (l' + 6)) omega_c omega in
  if (l <=? length df)%nat then Ok (firstn l df) else Err KeyError.
