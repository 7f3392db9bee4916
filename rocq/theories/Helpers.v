(** quantum_systems/system_helper.py:4-11, for Python integers. *)
From Coq Require Import ZArith.
Open Scope Z_scope.

(** system_helper.py:4-6 *)
Definition delta (p q : Z) : bool := p =? q.
(** system_helper.py:9-11 *)
Definition spin_delta (p q : Z) : Z := Z.lxor (Z.lxor (Z.land p 1) (Z.land q 1)) 1.
