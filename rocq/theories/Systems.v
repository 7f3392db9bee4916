(** Model of quantum_systems/system.py, general_orbital_system.py,
    spatial_orbital_system.py and time_evolution_operators/operator.py.
    Objects live in a world and refer to each other by index, so that two
    systems can share a basis set or an operator. *)
From Coq Require Import List Arith ZArith Lia Bool.
From Verif Require Import Scalar Py Numpy BasisSet.
Import ListNotations.

(** Replace element [i] of a list. *)
Fixpoint lset {A} (i : nat) (x : A) (l : list A) : list A :=
  match l, i with
  | [], _ => []
  | _ :: l', O => x :: l'
  | y :: l', S i' => y :: lset i' x l'
  end.

Inductive kind := General | Spatial.

Section Systems.
  Variable K : scalar.
  Local Open Scope K_scope.
  Notation arr := (arr K).
  Notation basis := (basis K).

  (** system.py:19-27, 42-48 (np, n, l, m, o, v) *)
  Record system := System {
    sy_kind : kind;
    sy_bs : nat;            (* _basis_set *)
    sy_np : option nat;
    sy_n : Z; sy_l : Z; sy_m : Z;
    sy_o : pyslice; sy_v : pyslice;
    sy_op : option nat      (* _time_evolution_operator *)
  }.

  (** Attribute values of operators: a number or array, a function supplied by
      the user, or "lambda t: tmp" created inside h_t, which refers to the
      variable tmp of that call by reference ([Lam c]: cell c). *)
  Inductive pyval := Val (a : arr) | Fun (f : K -> arr) | Lam (c : nat).
  Definition callable (v : pyval) : bool := match v with Val _ => false | _ => true end.
  Definition call (cells : list arr) (v : pyval) (t : K) : res arr :=
    match v with
    | Val _ => Err TypeError
    | Fun f => Ok (f t)
    | Lam c => match nth_error cells c with Some a => Ok a | None => Err NameError end
    end.

  (** operator.py: TimeEvolutionOperator, LaserField (79-82),
      AdiabaticSwitching (111-116), CustomOneBodyOperator (128-131) *)
  Inductive operator :=
  | OpPlain
  | OpLaser (pulse : pyval) (pol : option pyval) (cells : list arr)
  | OpSwitch (f : K -> arr)
  | OpCustom (weight : pyval) (A : arr) (cells : list arr).
  Record tevo := Tevo { te_op : operator; te_sys : option nat }.
  Definition laser_field (pulse : pyval) (pol : option pyval) : operator := OpLaser pulse pol [].
  Definition adiabatic_switching (f : pyval) : operator :=
    match f with Val a => OpSwitch (fun _ => a) | Fun g => OpSwitch g | Lam _ => OpPlain end.
  Definition custom_one_body (w : pyval) (A : arr) : operator := OpCustom w A [].

  Record world := World { w_bs : list basis; w_sy : list system; w_op : list tevo }.
  Definition WM := M world.
  Definition set_bs (x : list basis) (w : world) := World x (w_sy w) (w_op w).
  Definition set_sy (x : list system) (w : world) := World (w_bs w) x (w_op w).
  Definition set_op (x : list tevo) (w : world) := World (w_bs w) (w_sy w) x.

  (** Run a method of the basis set with index [i]. *)
  Definition on_basis {A} (i : nat) (m : BM K A) : WM A :=
    fun w => match nth_error (w_bs w) i with
             | None => (Err Unmodelled, w)
             | Some b => let (r, b') := m b in (r, set_bs (lset i b' (w_bs w)) w)
             end.
  Definition get_sys (s : nat) : WM system :=
    fun w => match nth_error (w_sy w) s with Some x => (Ok x, w) | None => (Err Unmodelled, w) end.
  Definition put_sys (s : nat) (x : system) : WM unit := modify (fun w => set_sy (lset s x (w_sy w)) w).
  Definition get_op (o : nat) : WM tevo :=
    fun w => match nth_error (w_op w) o with Some x => (Ok x, w) | None => (Err Unmodelled, w) end.
  Definition put_op (o : nat) (x : tevo) : WM unit := modify (fun w => set_op (lset o x (w_op w)) w).
  Definition alloc_basis (b : basis) : WM nat :=
    fun w => (Ok (length (w_bs w)), set_bs (w_bs w ++ [b]) w).
  Definition alloc_sys (x : system) : WM nat :=
    fun w => (Ok (length (w_sy w)), set_sy (w_sy w ++ [x]) w).
  Definition alloc_op (o : operator) : WM nat :=
    fun w => (Ok (length (w_op w)), set_op (w_op w ++ [Tevo o None]) w).

  (** system.py:29-48 set_system_size, on the attributes it assigns *)
  Definition sized (x : system) (n l : Z) : system :=
    System (sy_kind x) (sy_bs x) (sy_np x) n l (l - n) (PySlice 0 n) (PySlice n l) (sy_op x).
  Definition set_system_size (s : nat) (n l : Z) : WM unit :=
    py_assert (n <=? l)%Z ;;
    let* x := get_sys s in
    put_sys s (sized x n l).

  (** system.py:19-27 QuantumSystem.__init__ *)
  Definition system_init (k : kind) (n : Z) (i : nat) : WM nat :=
    let* b := on_basis i get_st in
    py_assert (n <=? Z.of_nat (b_l b))%Z ;;
    py_assert (n <=? Z.of_nat (b_l b))%Z ;;
    alloc_sys (sized (System k i (b_np b) 0 0 0 (PySlice 0 0) (PySlice 0 0) None) n (Z.of_nat (b_l b))).

  (** general_orbital_system.py:39-54.  When change_to_general_orbital_basis
      returns None the following attribute access fails. *)
  Definition general_init (n : Z) (i : nat) (a b : list K) (anti : bool) : WM nat :=
    let* bs := on_basis i get_st in
    (if b_spin bs then ret tt
     else let* r := on_basis i (change_to_general (Some (a, b)) anti) in
          if r then ret tt else raise AttributeError) ;;
    when anti (on_basis i anti_symmetrize_two_body) ;;
    system_init General n i.
  (** spatial_orbital_system.py:40-50; n // 2 rounds down. *)
  Definition spatial_init (n : Z) (i : nat) : WM nat :=
    py_assert (n mod 2 =? 0)%Z ;;
    let* bs := on_basis i get_st in
    py_assert (negb (b_spin bs)) ;;
    system_init Spatial (n / 2) i.

  (** system.py:54-64 *)
  Definition sys_change_module (s m : nat) : WM unit :=
    let* x := get_sys s in
    put_sys s (System (sy_kind x) (sy_bs x) (Some m) (sy_n x) (sy_l x) (sy_m x) (sy_o x) (sy_v x) (sy_op x)) ;;
    on_basis (sy_bs x) (change_module m).
  (** system.py:66-68 *)
  Definition sys_change_basis (s : nat) (C : arr) (Ct : option arr) : WM unit :=
    let* x := get_sys s in
    on_basis (sy_bs x) (change_basis C Ct) ;;
    let* b := on_basis (sy_bs x) get_st in
    set_system_size s (sy_n x) (Z.of_nat (b_l b)).
  (** system.py:78-81 *)
  Definition sys_density (s : nat) (rho : arr) (C Ct : option arr) : WM arr :=
    let* x := get_sys s in
    on_basis (sy_bs x) (compute_particle_density rho C Ct).
  (** system.py:83-119: getters *)
  Definition sys_get (s : nat) (f : field) : WM (option arr) :=
    let* x := get_sys s in on_basis (sy_bs x) (rd f).
  Definition sys_bra (s : nat) : WM (option arr) :=
    let* x := get_sys s in on_basis (sy_bs x) get_bra.
  (** system.py:121-125 and operator.py:30-42 *)
  Definition set_time_evolution_operator (s : nat) (o : option nat) : WM unit :=
    let* x := get_sys s in
    put_sys s (System (sy_kind x) (sy_bs x) (sy_np x) (sy_n x) (sy_l x) (sy_m x) (sy_o x) (sy_v x) o) ;;
    match o with
    | None => ret tt
    | Some o => let* te := get_op o in put_op o (Tevo (te_op te) (Some s))
    end.
  (** system.py:127-139; operator.py:5-28, 84-86, 118-120, 133-135 *)
  Definition is_one_body (o : operator) : bool :=
    match o with OpLaser _ _ _ | OpCustom _ _ _ => true | _ => false end.
  Definition is_two_body (o : operator) : bool := match o with OpSwitch _ => true | _ => false end.
  Definition has_op (p : operator -> bool) (s : nat) : WM bool :=
    let* x := get_sys s in
    match sy_op x with
    | None => ret false
    | Some o => let* te := get_op o in ret (p (te_op te))
    end.

  (** np.zeros(n) with element 0 set to 1 *)
  Definition unit_vector (n : nat) : res arr :=
    match n with
    | O => Err IndexError
    | S _ => Ok (Arr [n] Float64 (fun idx => match idx with [O] => 1 | _ => 0 end))
    end.
  Definition need_arr {S} (e : exn) (x : option arr) : M S arr :=
    match x with Some a => ret a | None => raise e end.
  Definition need_np_w {S} (x : option nat) : M S unit :=
    match x with Some _ => ret tt | None => raise AttributeError end.

  (** operator.py:88-108 LaserField.h_t.  The two lambdas share the variable
      tmp of the call, i.e. one cell. *)
  Definition laser_set (o : nat) (pulse : pyval) (pol : option pyval) (cells : list arr) : WM unit :=
    let* te := get_op o in put_op o (Tevo (OpLaser pulse pol cells) (te_sys te)).
  Definition laser_h_t (o s : nat) (pulse : pyval) (pol : option pyval) (cells : list arr) (t : K) : WM arr :=
    let* x := get_sys s in
    let c := length cells in
    let '(pulse, cells) :=
      match pulse with Val a => (Lam c, cells ++ [a]) | _ => (pulse, cells) end in
    laser_set o pulse pol cells ;;
    let* pol :=
      (match pol with
       | Some p => ret p
       | None =>
           let* d := sys_get s F_dip in
           let* d := need_arr AttributeError d in
           let* n := lift (shape_at d 0) in
           need_np_w (sy_np x) ;;
           laser_set o pulse (Some (Val (zeros [n] Float64))) cells ;;
           let* v := lift (unit_vector n) in
           laser_set o pulse (Some (Val v)) cells ;;
           ret (Val v)
       end) in
    let '(pol, cells) :=
      match pol with
      | Val a => (Lam c, if (length cells =? c)%nat then cells ++ [a] else lset c a cells)
      | _ => (pol, cells)
      end in
    laser_set o pulse (Some pol) cells ;;
    let* h := sys_get s F_h in
    let* e := lift (call cells pulse t) in
    need_np_w (sy_np x) ;;
    let* p := lift (call cells pol t) in
    let* d := sys_get s F_dip in
    let* d := need_arr IndexError d in
    let* pd := lift (tensordot p d 0 0) in
    let* epd := lift (amul e pd) in
    let* h := need_arr TypeError h in
    lift (aadd h epd).
  (** operator.py:137-144 CustomOneBodyOperator.h_t *)
  Definition custom_h_t (o s : nat) (w : pyval) (A : arr) (cells : list arr) (t : K) : WM arr :=
    let '(w, cells) := match w with Val a => (Lam (length cells), cells ++ [a]) | _ => (w, cells) end in
    let* te := get_op o in
    put_op o (Tevo (OpCustom w A cells) (te_sys te)) ;;
    let* h := sys_get s F_h in
    let* e := lift (call cells w t) in
    let* eA := lift (amul e A) in
    let* h := need_arr TypeError h in
    lift (aadd h eA).
  (** system.py:141-145; operator.py:44-59 *)
  Definition sys_h_t (s : nat) (t : K) : WM (option arr) :=
    let* x := get_sys s in
    match sy_op x with
    | None => sys_get s F_h
    | Some o =>
        let* te := get_op o in
        match te_sys te with
        | None => raise AttributeError
        | Some s' =>
            match te_op te with
            | OpLaser pulse pol cells => let* r := laser_h_t o s' pulse pol cells t in ret (Some r)
            | OpCustom w A cells => let* r := custom_h_t o s' w A cells t in ret (Some r)
            | OpPlain | OpSwitch _ => sys_get s' F_h
            end
        end
    end.
  (** system.py:147-151; operator.py:61-76, 122-125 *)
  Definition sys_u_t (s : nat) (t : K) : WM (option arr) :=
    let* x := get_sys s in
    match sy_op x with
    | None => sys_get s F_u
    | Some o =>
        let* te := get_op o in
        match te_sys te with
        | None => raise AttributeError
        | Some s' =>
            match te_op te with
            | OpSwitch f =>
                let* u := sys_get s' F_u in
                let* u := need_arr TypeError u in
                let* r := lift (amul (f t) u) in
                ret (Some r)
            | _ => sys_get s' F_u
            end
        end
    end.

  (** general_orbital_system.py:92-96 *)
  Definition energy_general (o : pyslice) (h u : arr) : res K :=
    let! hoo := slice [Some o; Some o] h in
    let! e1 := trace_num hoo in
    let! uoo := slice [Some o; Some o; Some o; Some o] u in
    let! t := trace 1 3 uoo in
    let! e2 := trace_num t in
    Ok (e1 + shalf * e2).
  (** spatial_orbital_system.py:122-129 *)
  Definition energy_spatial (o : pyslice) (h u : arr) : res K :=
    let! hoo := slice [Some o; Some o] h in
    let! e1 := trace_num hoo in
    let! uoo := slice [Some o; Some o; Some o; Some o] u in
    let! td := trace 1 3 uoo in
    let! ed := trace_num td in
    let! uoo' := slice [Some o; Some o; Some o; Some o] u in
    let! tx := trace 1 2 uoo' in
    let! ex := trace_num tx in
    Ok ((1 + 1) * e1 + (1 + 1) * ed - ex).
  (** compute_reference_energy; missing arrays cannot be indexed. *)
  Definition reference_energy (s : nat) : WM K :=
    let* x := get_sys s in
    let* h := sys_get s F_h in
    let* u := sys_get s F_u in
    need_np_w (sy_np x) ;;
    let* h := need_arr TypeError h in
    let* u := need_arr TypeError u in
    lift (match sy_kind x with
          | General => energy_general (sy_o x) h u
          | Spatial => energy_spatial (sy_o x) h u
          end).

  (** The optional buffer argument of construct_fock_matrix: absent, an array
      of its own, or the very array passed as h. *)
  Inductive buffer := NoBuffer | Buffer (f : arr) | SameAsH.
  (** f and h after "if f is None: f = np.zeros_like(h)" and "f.fill(0)" *)
  Definition fock_start (h : arr) (f : buffer) : arr * arr :=
    match f with
    | NoBuffer => (zeros_like h, h)
    | Buffer f => (zeros_like f, h)
    | SameAsH => (zeros_like h, zeros_like h)
    end.
  (** general_orbital_system.py:127-138 *)
  Definition fock_general (o : pyslice) (h u : arr) (f : buffer) : res arr :=
    let '(f, h) := fock_start h f in
    let! f := iadd f h in
    let! uo := slice [None; Some o; None; Some o] u in
    let! e := einsum_piqi uo in
    iadd f e.
  (** spatial_orbital_system.py:159-171 *)
  Definition fock_spatial (o : pyslice) (h u : arr) (f : buffer) : res arr :=
    let '(f, h) := fock_start h f in
    let! f := iadd f h in
    let! uo := slice [None; Some o; None; Some o] u in
    let! e := einsum_piqi uo in
    let! f := iadd f (scale Int64 (1 + 1) e) in
    let! ux := slice [None; Some o; Some o; None] u in
    let! ex := einsum_piiq ux in
    isub f ex.
  Definition fock_matrix (s : nat) (h u : arr) (f : buffer) : WM arr :=
    let* x := get_sys s in
    need_np_w (sy_np x) ;;
    lift (match sy_kind x with
          | General => fock_general (sy_o x) h u f
          | Spatial => fock_spatial (sy_o x) h u f
          end).
  (** general_orbital_system.py:140-148, spatial_orbital_system.py:173-175 *)
  Definition change_to_hf_basis (s : nat) : WM unit := raise NotImplementedError.

  (** basis_set.py:739-760 copy_basis, for an object none of whose attributes
      is a module other than np (see PyHeap.v for the copying itself). *)
  Definition copy_basis (i : nat) : WM nat :=
    let* b := on_basis i get_st in
    match b_np b with
    | None => raise Unmodelled
    | Some m =>
        on_basis i (modify (set_np None)) ;;
        let* b0 := on_basis i get_st in
        let* j := alloc_basis b0 in
        on_basis j (change_module m) ;;
        on_basis i (change_module m) ;;
        ret j
    end.
  (** spatial_orbital_system.py:52-106.  Deep-copying an operator reaches
      its system, hence the module stored there: TypeError. *)
  Definition construct_general (s : nat) (a b : list K) (anti : bool) : WM nat :=
    let* x := get_sys s in
    let* j := copy_basis (sy_bs x) in
    let* g := general_init (sy_n x * 2) j a b anti in
    match sy_op x with
    | None => ret g
    | Some _ => raise TypeError
    end.
End Systems.

Arguments Val {K}. Arguments Fun {K}. Arguments Lam {K}. Arguments callable {K}. Arguments call {K}.
Arguments OpPlain {K}. Arguments OpLaser {K}. Arguments OpSwitch {K}. Arguments OpCustom {K}.
Arguments Tevo {K}. Arguments te_op {K}. Arguments te_sys {K}.
Arguments laser_field {K}. Arguments adiabatic_switching {K}. Arguments custom_one_body {K}.
Arguments World {K}. Arguments w_bs {K}. Arguments w_sy {K}. Arguments w_op {K}.
Arguments set_bs {K}. Arguments set_sy {K}. Arguments set_op {K}.
Arguments on_basis {K A}. Arguments get_sys {K}. Arguments put_sys {K}. Arguments get_op {K}. Arguments put_op {K}.
Arguments alloc_basis {K}. Arguments alloc_sys {K}. Arguments alloc_op {K}.
Arguments set_system_size {K}. Arguments system_init {K}. Arguments general_init {K}. Arguments spatial_init {K}.
Arguments sys_change_module {K}. Arguments sys_change_basis {K}. Arguments sys_density {K}. Arguments sys_get {K}.
Arguments sys_bra {K}. Arguments set_time_evolution_operator {K}. Arguments is_one_body {K}. Arguments is_two_body {K}.
Arguments has_op {K}. Arguments need_arr {K S}. Arguments need_np_w {S}. Arguments unit_vector {K}.
Arguments laser_set {K}. Arguments laser_h_t {K}. Arguments custom_h_t {K}. Arguments sys_h_t {K}. Arguments sys_u_t {K}.
Arguments energy_general {K}. Arguments energy_spatial {K}. Arguments reference_energy {K}.
Arguments NoBuffer {K}. Arguments Buffer {K}. Arguments SameAsH {K}. Arguments fock_start {K}.
Arguments fock_general {K}. Arguments fock_spatial {K}. Arguments fock_matrix {K}.
Arguments change_to_hf_basis {K}. Arguments copy_basis {K}. Arguments construct_general {K}.
