(** The cardinal (sinc) functions. *)
From Coq Require Import Reals.
From Coquelicot Require Import Coquelicot.
Open Scope R_scope.

(** The mean of cos(pi y t) over 0 <= t <= 1: the band-limited function that is 1 at 0 and
    0 at every other integer *)
Definition cardinal (y : R) : R := RInt (fun t => cos (PI * y * t)) 0 1.
(** The one centred at c for grid spacing d, of unit norm *)
Definition cardinal_function (d c x : R) : R := cardinal ((x - c) / d) / sqrt d.
