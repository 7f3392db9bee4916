(** The matrices of x and y between oscillator states in the plane, in closed form. *)
From Coq Require Import ZArith Reals Bool.
From Coquelicot Require Import Coquelicot.
Open Scope R_scope.

(** Quanta turning to the left and to the right; m is their difference and 2 n + |m| their sum. *)
Definition left_quanta (s : Z * Z) : Z := fst s + Z.max (snd s) 0.
Definition right_quanta (s : Z * Z) : Z := fst s + Z.max (- snd s) 0.
(** <s| x + i y |t>: one quantum to the left more or one to the right less *)
Definition turn_element (mass omega : R) (s t : Z * Z) : R :=
  (if (fst s =? fst t)%Z then 1 else -1)
  * (if ((left_quanta s =? left_quanta t + 1) && (right_quanta s =? right_quanta t))%Z then sqrt (IZR (left_quanta s) / (mass * omega))
     else if ((left_quanta s =? left_quanta t) && (right_quanta s + 1 =? right_quanta t))%Z then sqrt (IZR (right_quanta t) / (mass * omega))
     else 0).
(** <s| x |t> and <s| y |t> *)
Definition x_element (mass omega : R) (s t : Z * Z) : C := RtoC ((turn_element mass omega s t + turn_element mass omega t s) / 2).
Definition y_element (mass omega : R) (s t : Z * Z) : C := (- Ci * RtoC ((turn_element mass omega s t - turn_element mass omega t s) / 2))%C.

(** Energy in a field with Larmor frequency [larmor] *)
Definition level (omega larmor : R) (s : Z * Z) : R := omega * (IZR (left_quanta s + right_quanta s) + 1) - larmor * IZR (left_quanta s - right_quanta s).
(** [t] has one quantum more or one less than [s]. *)
Definition neighbour (s t : Z * Z) : Prop := (0 <= fst t)%Z /\ (Z.abs (left_quanta t - left_quanta s) + Z.abs (right_quanta t - right_quanta s) = 1)%Z.
(** The first [l] states of a table hold all neighbours of state [p]. *)
Definition inner (l : nat) (state : nat -> Z * Z) (p : nat) : Prop := forall t, neighbour (state p) t -> exists q, (q < l)%nat /\ state q = t.
