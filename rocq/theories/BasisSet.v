(** Model of quantum_systems/basis_set.py (class BasisSet) and of the methods
    that quantum_systems/sinc_dvr/one_dim/sinc_dvr.py (class ODSincDVR)
    overrides.  Methods are state transformers [M basis A]: the state after an
    exception is part of the result. *)
From Coq Require Import List Arith ZArith Lia Bool.
From Verif Require Import Scalar Py Numpy.
Import ListNotations.

(** Array-valued attributes (basis_set.py:43-61, 546-547). *)
Inductive field :=
| F_grid | F_h | F_u | F_s | F_dip
| F_sigx | F_sigy | F_sigz
| F_spx | F_spy | F_spz | F_sp2 | F_sp2tb
| F_spf | F_bra | F_a | F_b.

Definition field_eqb (f g : field) : bool :=
  match f, g with
  | F_grid, F_grid | F_h, F_h | F_u, F_u | F_s, F_s | F_dip, F_dip
  | F_sigx, F_sigx | F_sigy, F_sigy | F_sigz, F_sigz
  | F_spx, F_spx | F_spy, F_spy | F_spz, F_spz | F_sp2, F_sp2 | F_sp2tb, F_sp2tb
  | F_spf, F_spf | F_bra, F_bra | F_a, F_a | F_b, F_b => true
  | _, _ => false
  end.

(** Which class the object has: BasisSet (and the subclasses that override
    none of the modelled methods) or ODSincDVR. *)
Inductive cls := Base | SincDVR.

Section BasisSet.
  Variable K : scalar.
  Local Open Scope K_scope.
  Notation arr := (arr K).

  (** basis_set.py:32-66.  [b_np = None] is the temporary state inside
      copy_basis (basis_set.py:751). *)
  Record basis := Basis {
    b_cls : cls;
    b_np : option nat;
    b_l : nat;
    b_dim : nat;
    b_arr : field -> option arr;
    b_nuc : K;
    b_spin : bool;   (* _includes_spin *)
    b_asym : bool    (* _anti_symmetrized_u *)
  }.

  (** basis_set.py:32-66 BasisSet.__init__ *)
  Definition new_basis (c : cls) (npm l dim : nat) (includes_spin anti_symmetrized_u : bool) : basis :=
    Basis c (Some npm) l dim (fun _ => None) 0 includes_spin anti_symmetrized_u.

  Definition upd (f : field) (x : option arr) (m : field -> option arr) : field -> option arr :=
    fun g => if field_eqb f g then x else m g.
  Definition set_arr (f : field) (x : option arr) (b : basis) : basis :=
    Basis (b_cls b) (b_np b) (b_l b) (b_dim b) (upd f x (b_arr b)) (b_nuc b) (b_spin b) (b_asym b).
  Definition set_np (x : option nat) (b : basis) : basis :=
    Basis (b_cls b) x (b_l b) (b_dim b) (b_arr b) (b_nuc b) (b_spin b) (b_asym b).
  Definition set_l (x : nat) (b : basis) : basis :=
    Basis (b_cls b) (b_np b) x (b_dim b) (b_arr b) (b_nuc b) (b_spin b) (b_asym b).
  Definition set_spin (x : bool) (b : basis) : basis :=
    Basis (b_cls b) (b_np b) (b_l b) (b_dim b) (b_arr b) (b_nuc b) x (b_asym b).
  Definition set_asym (x : bool) (b : basis) : basis :=
    Basis (b_cls b) (b_np b) (b_l b) (b_dim b) (b_arr b) (b_nuc b) (b_spin b) x.
  (** basis_set.py:244-246 *)
  Definition set_nuc (x : K) (b : basis) : basis :=
    Basis (b_cls b) (b_np b) (b_l b) (b_dim b) (b_arr b) x (b_spin b) (b_asym b).

  Definition BM := M basis.
  Definition rd (f : field) : BM (option arr) := fun b => (Ok (b_arr b f), b).
  Definition wr (f : field) (x : option arr) : BM unit := modify (set_arr f x).
  (** Using the stored module when it is None raises AttributeError. *)
  Definition need_np : BM nat :=
    fun b => match b_np b with Some m => (Ok m, b) | None => (Err AttributeError, b) end.
  (** np.f(None, ...): TypeError for arithmetic on None. *)
  Definition need (e : exn) (x : option arr) : BM arr :=
    match x with Some a => ret a | None => raise e end.

  (** basis_set.py:735-737 check_axis_lengths, under all(...) *)
  Definition check_axes (a : arr) (l : nat) : bool := forallb (Nat.eqb l) (shape a).

  (** basis_set.py:88-92, 98-102, 108-112: setters of h, u, s *)
  Definition set_sq (f : field) (a : arr) : BM unit :=
    let* b := get_st in
    py_assert (check_axes a (b_l b)) ;;
    wr f (Some a).
  (** basis_set.py:118-125 dipole_moment setter *)
  Definition set_dipole (a : arr) : BM unit :=
    let* b := get_st in
    let* n := lift (alen a) in
    py_assert (n =? b_dim b) ;;
    for_each (seq 0 (b_dim b))
      (fun i => let* r := lift (row a i) in py_assert (check_axes r (b_l b))) ;;
    wr F_dip (Some a).
  (** basis_set.py:131-180: setters of spin_x, spin_y, spin_z, spin_2, spin_2_tb *)
  Definition set_spin_op (f : field) (a : arr) : BM unit :=
    let* b := get_st in
    py_assert (b_spin b) ;;
    py_assert (check_axes a (b_l b)) ;;
    wr f (Some a).
  (** basis_set.py:186-210: setters of sigma_x, sigma_y, sigma_z *)
  Definition set_sigma (f : field) (a : arr) : BM unit :=
    let* b := get_st in
    py_assert (b_spin b) ;;
    wr f (Some a).
  (** basis_set.py:216-222 and 232-238: setters of spf and bra_spf *)
  Definition set_orbitals (f : field) (x : option arr) : BM unit :=
    match x with
    | None => wr f None
    | Some a =>
        let* b := get_st in
        let* n := lift (shape_at a 0) in
        py_assert (n =? b_l b) ;;
        py_assert (length (tl (shape a)) =? b_dim b) ;;
        wr f (Some a)
    end.
  (** basis_set.py:80-82 grid setter *)
  Definition set_grid (a : arr) : BM unit := wr F_grid (Some a).

  (** basis_set.py:224-230: the bra_spf getter fills the cache *)
  Definition get_bra : BM (option arr) :=
    let* bra := rd F_bra in
    let* spf := rd F_spf in
    match bra, spf with
    | None, Some a => wr F_bra (Some (aconj a)) ;; ret (Some (aconj a))
    | _, _ => ret bra
    end.

  (** sinc_dvr.py:91-97 u_repr; getattr default "4d" for other classes
      (basis_set.py:545) *)
  Inductive urepr := U2d | U4d | Uunknown.
  Definition urepr_eqb (a b : urepr) : bool :=
    match a, b with U2d, U2d | U4d, U4d | Uunknown, Uunknown => true | _, _ => false end.
  Definition u_repr (b : basis) : urepr :=
    match b_arr b F_u with
    | Some a => if (ndim a =? 2)%nat then U2d else if (ndim a =? 4)%nat then U4d else Uunknown
    | None => Uunknown
    end.
  Definition u_repr_attr (b : basis) : urepr :=
    match b_cls b with Base => U4d | SincDVR => u_repr b end.

  (** The names both conversion loops run over (basis_set.py:262-274, 283-295). *)
  Definition conv_fields : list field :=
    [F_h; F_s; F_u; F_spf; F_bra; F_dip; F_spx; F_spy; F_spz; F_sp2; F_sp2tb].
  (** The list of (name, array) pairs is built before the loop runs; building
      it calls the bra_spf getter. *)
  Definition conv_list : BM (list (field * option arr)) :=
    get_bra ;;
    let* b := get_st in
    ret (map (fun f => (f, b_arr b f)) conv_fields).

  (** basis_set.py:252-275 change_module; np.asarray keeps the elements.
      sinc_dvr.py:191-199 override: only the module is set for 2d storage. *)
  Definition change_module_base (m : nat) : BM unit :=
    modify (set_np (Some m)) ;;
    let* xs := conv_list in
    for_each xs (fun fa => wr (fst fa) (snd fa)).
  Definition change_module (m : nat) : BM unit :=
    let* b := get_st in
    match b_cls b with
    | Base => change_module_base m
    | SincDVR => if urepr_eqb (u_repr b) U2d then modify (set_np (Some m)) else change_module_base m
    end.

  (** basis_set.py:277-297 cast_to_complex *)
  Definition cast_to_complex : BM unit :=
    let* xs := conv_list in
    for_each xs (fun fa =>
      match snd fa with
      | None => ret tt
      | Some a => need_np ;; wr (fst fa) (Some (astype Complex128 a))
      end).

  (** basis_set.py:299-301 *)
  Definition transform_spf (spf C : arr) : res arr := tensordot C spf 0 0.
  (** basis_set.py:303-305 *)
  Definition transform_bra_spf (bra Ct : arr) : res arr := tensordot Ct bra 1 0.
  (** C.conj().T *)
  Definition dagger (C : arr) : arr := aT (aconj C).
  Definition default_tilde (C : arr) (Ct : option arr) : arr :=
    match Ct with None => dagger C | Some x => x end.
  (** basis_set.py:307-312 *)
  Definition transform_one_body (h C : arr) (Ct : option arr) : res arr :=
    let Ct := default_tilde C Ct in
    let! hC := dot h C in
    dot Ct hC.
  (** basis_set.py:314-328 *)
  Definition transform_two_body_base (u C : arr) (Ct : option arr) : res arr :=
    let Ct := default_tilde C Ct in
    let! u1 := tensordot u C 3 0 in
    let! u2 := tensordot u1 C 2 0 in
    let! u3 := transpose [0; 1; 3; 2]%nat u2 in
    let! u4 := tensordot u3 Ct 1 1 in
    let! u5 := transpose [0; 3; 1; 2]%nat u4 in
    tensordot Ct u5 1 0.

  (** np.einsum("bs,ar,qb,pa,ab->pqrs", C, C, Ct, Ct, u) and, with [swap],
      "br,as,qb,pa,ab->pqrs" (sinc_dvr.py:233-251).  Operand shapes must agree
      (einsum's broadcasting of length-1 axes is not modelled). *)
  Definition einsum_dvr (swap : bool) (C Ct u : arr) : res arr :=
    match shape C, shape Ct, shape u with
    | [k1; n], [n'; k2], [k3; k4] =>
        if (k1 =? k2)%nat && (k1 =? k3)%nat && (k1 =? k4)%nat then
          Ok (Arr [n'; n'; n; n] (dmax (dmax (dt C) (dt Ct)) (dt u))
                (fun idx => match idx with
                  | [p; q; r; s] =>
                      sumn k1 (fun a => sumn k1 (fun b =>
                        mat C b (if swap then r else s) * mat C a (if swap then s else r)
                        * mat Ct q b * mat Ct p a * mat u a b))
                  | _ => 0
                  end))
        else Err ValueError
    | _, _, _ => Err ValueError
    end.
  (** sinc_dvr.py:218-260 *)
  Definition transform_two_body_dvr (b : basis) (u C : arr) (anti : bool) (Ct : option arr) : res arr :=
    if urepr_eqb (u_repr b) U2d then
      let Ct := default_tilde C Ct in
      let! u1 := einsum_dvr false C Ct u in
      if anti then
        let! u2 := einsum_dvr true C Ct u in
        isub u1 u2
      else Ok u1
    else if anti then Err AssertionError
    else transform_two_body_base u C Ct.
  (** self.transform_two_body_elements(u, C, np=..., C_tilde=...) *)
  Definition transform_two_body (b : basis) (u C : arr) (Ct : option arr) : res arr :=
    match b_cls b with
    | Base => transform_two_body_base u C Ct
    | SincDVR => transform_two_body_dvr b u C false Ct
    end.

  (** basis_set.py:330-331 and 333-334 *)
  Definition get_transformed_h (C : arr) : BM arr :=
    need_np ;;
    let* h := rd F_h in
    let* h := need TypeError h in
    lift (transform_one_body h C None).
  Definition get_transformed_u (C : arr) : BM arr :=
    need_np ;;
    let* u := rd F_u in
    let* u := need IndexError u in
    let* b := get_st in
    lift (transform_two_body b u C None).

  (** basis_set.py:336-350.  The loop over the spin operators rebinds its loop
      variable only, so the transformed matrices are dropped. *)
  Definition change_basis_one_body (C Ct : arr) : BM unit :=
    need_np ;;
    let* h := rd F_h in
    let* h := need TypeError h in
    let* h' := lift (transform_one_body h C (Some Ct)) in
    set_sq F_h h' ;;
    let* s := rd F_s in
    (match s with
     | None => ret tt
     | Some s => let* s' := lift (transform_one_body s C (Some Ct)) in set_sq F_s s'
     end) ;;
    let* b := get_st in
    for_each [b_arr b F_spx; b_arr b F_spy; b_arr b F_spz; b_arr b F_sp2]
      (fun spin => match spin with
         | None => ret tt
         | Some x => let* _ := lift (transform_one_body x C (Some Ct)) in ret tt
         end).
  (** basis_set.py:352-360 *)
  Definition change_basis_two_body (C Ct : arr) : BM unit :=
    need_np ;;
    let* u := rd F_u in
    let* u := need IndexError u in
    let* b := get_st in
    let* u' := lift (transform_two_body b u C (Some Ct)) in
    set_sq F_u u' ;;
    let* t := rd F_sp2tb in
    match t with
    | None => ret tt
    | Some t =>
        let* b := get_st in
        let* t' := lift (transform_two_body b t C (Some Ct)) in
        set_spin_op F_sp2tb t'
    end.
  (** basis_set.py:362-372 *)
  Definition change_basis_dipole (d C Ct : arr) : BM unit :=
    let* n := lift (shape_at d 0) in
    let* xs := lift (rmap (fun i => let! r := row d i in transform_one_body r C (Some Ct)) (seq 0 n)) in
    need_np ;;
    let* d' := lift (stack xs) in
    set_dipole d'.
  (** basis_set.py:374-377 *)
  Definition change_basis_spf (C Ct : arr) : BM unit :=
    let* bra := get_bra in
    need_np ;;
    let* bra := need IndexError bra in
    let* bra' := lift (transform_bra_spf bra Ct) in
    set_orbitals F_bra (Some bra') ;;
    let* spf := rd F_spf in
    let* spf := need IndexError spf in
    let* spf' := lift (transform_spf spf C) in
    set_orbitals F_spf (Some spf').
  (** basis_set.py:379-427 (and sinc_dvr.py:262-263, which delegates) *)
  Definition change_basis (C : arr) (Ct : option arr) : BM unit :=
    let* l' := lift (shape_at C 1) in
    modify (set_l l') ;;
    let Ct := default_tilde C Ct in
    change_basis_one_body C Ct ;;
    change_basis_two_body C Ct ;;
    let* d := rd F_dip in
    (match d with None => ret tt | Some d => change_basis_dipole d C Ct end) ;;
    let* spf := rd F_spf in
    (match spf with None => ret tt | Some _ => change_basis_spf C Ct end).

  (** quantum_systems/system_helper.py:14-27 *)
  Definition particle_density (rho ket bra : arr) : res arr :=
    if list_eqb (shape bra) (shape ket) then
      if deqb (dt bra) (dt ket) then
        let! np_ := shape_at bra 0 in
        let! nq := shape_at ket 0 in
        rfold (fun acc p =>
          let! phi_t := row bra p in
          rfold (fun acc q =>
            let! phi := row ket q in
            let! c := item2 rho q p in
            let! t := amul (scale (dt rho) c phi_t) phi in
            iadd acc t) (seq 0 nq) acc)
          (seq 0 np_) (zeros (tl (shape ket)) (dt ket))
      else Err AssertionError
    else Err AssertionError.
  (** basis_set.py:429-472 *)
  Definition compute_particle_density (rho : arr) (C : option arr) (Ct : option arr) : BM arr :=
    let* spf := rd F_spf in
    let* ket := need AssertionError spf in
    let* bra := get_bra in
    let* bra := need AttributeError bra in
    match C with
    | None => need_np ;; lift (particle_density rho ket bra)
    | Some C =>
        need_np ;;
        let* ket := lift (transform_spf ket C) in
        let* bra := lift (transform_bra_spf bra (default_tilde C Ct)) in
        lift (particle_density rho ket bra)
    end.

  (** basis_set.py:731-733 *)
  Definition anti_symmetrize_u_base (u : arr) : res arr :=
    let! t := transpose [0; 1; 3; 2]%nat u in asub u t.
  (** sinc_dvr.py:211-216 *)
  Definition anti_symmetrize_u (c : cls) (u : arr) : res arr :=
    match c with
    | Base => anti_symmetrize_u_base u
    | SincDVR => if (ndim u =? 2)%nat then Ok u else anti_symmetrize_u_base u
    end.
  (** basis_set.py:474-491 *)
  Definition anti_symmetrize_two_body : BM unit :=
    let* b := get_st in
    if b_asym b then ret tt
    else
      let* u := need AttributeError (b_arr b F_u) in
      let* u' := lift (anti_symmetrize_u (b_cls b) u) in
      set_sq F_u u' ;;
      let* t := rd F_sp2tb in
      (match t with
       | None => ret tt
       | Some t => let* t' := lift (anti_symmetrize_u (b_cls b) t) in set_spin_op F_sp2tb t'
       end) ;;
      modify (set_asym true).

  (** basis_set.py:706-714: new[::2] = spf; new[1::2] = spf *)
  Definition add_spin_spf (spf : arr) : res arr :=
    match shape spf with
    | [] => Err IndexError
    | n :: g =>
        Ok (Arr ((n * 2)%nat :: g) (dt spf)
              (fun idx => match idx with
                          | P :: x => if Nat.even P then get spf (Nat.div2 P :: x)
                                      else get spf (Nat.div2 P :: x)
                          | [] => 0
                          end))
    end.
  (** basis_set.py:723-725 *)
  Definition add_spin_one_body (h : arr) : arr := kron h (eye 2).
  (** basis_set.py:727-729 *)
  Definition add_spin_two_body_base (u : arr) : res arr :=
    let! e := einsum_outer (eye 2) (eye 2) in Ok (kron u e).
  (** sinc_dvr.py:201-209 *)
  Definition add_spin_two_body (c : cls) (u : arr) : res arr :=
    match c with
    | Base => add_spin_two_body_base u
    | SincDVR => if (ndim u =? 2)%nat then Ok (kron u (Arr [2; 2]%nat Float64 (fun _ => 1)))
                 else add_spin_two_body_base u
    end.

  (** np.dot(s.conj().T, np.dot(mat, t)) stored into element [i, j]
      (basis_set.py:646-650) *)
  Definition braket (s m t : arr) : res K :=
    let! mt := dot m t in
    let! r := dot (dagger s) mt in
    if list_eqb (shape r) [1; 1]%nat then Ok (get r [0; 0]%nat) else Err ValueError.
  Definition sigma_mat (m : arr) (a b : arr) : res arr :=
    let! aa := braket a m a in
    let! ab := braket a m b in
    let! ba := braket b m a in
    let! bb := braket b m b in
    Ok (of_2x2 Complex128 aa ab ba bb).
  Definition sigma_x_mat : arr := of_2x2 Complex128 0 1 1 0.
  Definition sigma_y_mat : arr := of_2x2 Complex128 0 (- si) si 0.
  Definition sigma_z_mat : arr := of_2x2 Complex128 1 0 0 (- (1)).
  (** basis_set.py:593-652 setup_pauli_matrices *)
  Definition setup_pauli_matrices (a b : arr) : res (arr * arr * arr) :=
    let! x := sigma_mat sigma_x_mat a b in
    let! y := sigma_mat sigma_y_mat a b in
    let! z := sigma_mat sigma_z_mat a b in
    Ok (x, y, z).

  (** basis_set.py:654-704 setup_spin_squared_operator *)
  Definition setup_spin_squared (sx sy sz overlap : arr) : res (arr * arr) :=
    let! l := alen sx in
    rfold (fun acc s_i =>
      let! t := matmul s_i overlap in
      let! t := matmul t s_i in
      let! s2 := iadd (fst acc) t in
      let! e := einsum_outer s_i s_i in
      let! tb := iadd (snd acc) e in
      Ok (s2, tb))
      [sx; sy; sz]
      (zeros_like sx, zeros [l; l; l; l] (dt sx)).

  (** abs(np.dot(x.conj().T, y) - c) < 1e-12 on a 1x1 result *)
  Definition check_ip (x y : arr) (c : K) : BM unit :=
    let* r := lift (dot (dagger x) y) in
    py_assert (small (get r [0; 0]%nat - c)).

  (** basis_set.py:545-566: spin operators *)
  Definition setup_spin_ops (overlap : arr) (a b : list K) : BM unit :=
    let ca := column (of_list Complex128 a) in
    let cb := column (of_list Complex128 b) in
    wr F_a (Some ca) ;;
    wr F_b (Some cb) ;;
    check_ip ca ca 1 ;;
    check_ip cb cb 1 ;;
    check_ip ca cb 0 ;;
    let* sg := lift (setup_pauli_matrices ca cb) in
    let '(sgx, sgy, sgz) := sg in
    set_sigma F_sigx sgx ;;
    set_sigma F_sigy sgy ;;
    set_sigma F_sigz sgz ;;
    set_spin_op F_spx (scale Float64 shalf (kron overlap sgx)) ;;
    set_spin_op F_spy (scale Float64 shalf (kron overlap sgy)) ;;
    set_spin_op F_spz (scale Float64 shalf (kron overlap sgz)) ;;
    let* bx := get_st in
    let* sx := need AttributeError (b_arr bx F_spx) in
    let* sy := need AttributeError (b_arr bx F_spy) in
    let* sz := need AttributeError (b_arr bx F_spz) in
    let* s := need AttributeError (b_arr bx F_s) in
    let* s2 := lift (setup_spin_squared sx sy sz s) in
    set_spin_op F_sp2 (fst s2) ;;
    set_spin_op F_sp2tb (snd s2).

  (** basis_set.py:493-591.  Returns true when the Python method returns
      [self], false when it returns None (already spin-doubled). *)
  Definition to_general_base (a b : list K) (anti : bool) : BM bool :=
    let* bs := get_st in
    if b_spin bs then ret false
    else
      modify (set_spin true) ;;
      modify (set_l (2 * b_l bs)) ;;
      let* overlap := need AttributeError (b_arr bs F_s) in
      need_np ;;
      let* h := need TypeError (b_arr bs F_h) in
      set_sq F_h (add_spin_one_body h) ;;
      let* s := rd F_s in
      let* s := need TypeError s in
      set_sq F_s (add_spin_one_body s) ;;
      let* u := rd F_u in
      let* u := need TypeError u in
      let* u' := lift (add_spin_two_body (b_cls bs) u) in
      set_sq F_u u' ;;
      let* bs2 := get_st in
      when (negb (urepr_eqb (u_repr_attr bs2) U2d)) (setup_spin_ops overlap a b) ;;
      when anti anti_symmetrize_two_body ;;
      let* d := rd F_dip in
      (match d with
       | None => ret tt
       | Some d =>
           let* n := lift (alen d) in
           let* xs := lift (rmap (fun i => let! r := row d i in Ok (add_spin_one_body r)) (seq 0 n)) in
           let* d' := lift (stack xs) in
           set_dipole d'
       end) ;;
      let* spf := rd F_spf in
      (match spf with
       | None => ret tt
       | Some spf =>
           let* spf' := lift (add_spin_spf spf) in
           set_orbitals F_spf (Some spf') ;;
           let* bra := rd F_bra in
           match bra with
           | None => ret tt
           | Some bra =>
               let* bra' := lift (add_spin_spf bra) in
               set_orbitals F_bra (Some bra')
           end
       end) ;;
      cast_to_complex ;;
      ret true.

  (** sinc_dvr.py:126-144 set_u_repr: the new array is built and dropped. *)
  Definition set_u_repr (r : urepr) : BM unit :=
    let* b := get_st in
    if urepr_eqb r (u_repr b) then ret tt
    else
      let* u := need TypeError (b_arr b F_u) in
      match r with
      | U4d =>
          let new_u := Arr [b_l b; b_l b; b_l b; b_l b] (dt u)
            (fun idx => match idx with
               | [p; q; r; s] => if (p =? r)%nat && (q =? s)%nat then mat u p q else 0
               | _ => 0 end) in
          (if (2 <=? ndim u)%nat then (let _ := new_u in ret tt) else raise IndexError)
      | U2d =>
          let new_u := Arr [b_l b; b_l b] (dt u)
            (fun idx => match idx with [p; q] => ten u p q p q | _ => 0 end) in
          (if (4 <=? ndim u)%nat then (let _ := new_u in ret tt) else raise IndexError)
      | Uunknown => raise ValueError
      end.

  (** The call change_to_general_orbital_basis([a=, b=,] anti_symmetrize=):
      sinc_dvr.py:179-189 accepts no a, b. *)
  Definition default_a : list K := [1; 0].
  Definition default_b : list K := [0; 1].
  Definition change_to_general (ab : option (list K * list K)) (anti : bool) : BM bool :=
    let* bs := get_st in
    let '(a, b) := match ab with Some p => p | None => (default_a, default_b) end in
    match b_cls bs with
    | Base => to_general_base a b anti
    | SincDVR =>
        match ab with
        | Some _ => raise TypeError
        | None =>
            when (anti && urepr_eqb (u_repr bs) U2d) (set_u_repr U4d) ;;
            to_general_base default_a default_b anti
        end
    end.
End BasisSet.

Arguments Basis {K}. Arguments b_cls {K}. Arguments b_np {K}. Arguments b_l {K}. Arguments b_dim {K}.
Arguments b_arr {K}. Arguments b_nuc {K}. Arguments b_spin {K}. Arguments b_asym {K}.
Arguments upd {K}. Arguments set_arr {K}. Arguments set_np {K}. Arguments set_l {K}.
Arguments set_spin {K}. Arguments set_asym {K}. Arguments set_nuc {K}.
Arguments rd {K}. Arguments wr {K}. Arguments need_np {K}. Arguments need {K}.
Arguments check_axes {K}. Arguments set_sq {K}. Arguments set_dipole {K}. Arguments set_spin_op {K}.
Arguments set_sigma {K}. Arguments set_orbitals {K}. Arguments set_grid {K}. Arguments get_bra {K}.
Arguments u_repr {K}. Arguments u_repr_attr {K}. Arguments conv_list {K}.
Arguments change_module_base {K}. Arguments change_module {K}. Arguments cast_to_complex {K}.
Arguments transform_spf {K}. Arguments transform_bra_spf {K}. Arguments dagger {K}.
Arguments default_tilde {K}. Arguments transform_one_body {K}. Arguments transform_two_body_base {K}.
Arguments einsum_dvr {K}. Arguments transform_two_body_dvr {K}. Arguments transform_two_body {K}.
Arguments get_transformed_h {K}. Arguments get_transformed_u {K}.
Arguments change_basis_one_body {K}. Arguments change_basis_two_body {K}.
Arguments change_basis_dipole {K}. Arguments change_basis_spf {K}. Arguments change_basis {K}.
Arguments particle_density {K}. Arguments compute_particle_density {K}.
Arguments anti_symmetrize_u_base {K}. Arguments anti_symmetrize_u {K}.
Arguments anti_symmetrize_two_body {K}. Arguments add_spin_spf {K}. Arguments add_spin_one_body {K}.
Arguments add_spin_two_body_base {K}. Arguments add_spin_two_body {K}. Arguments braket {K}.
Arguments sigma_mat {K}. Arguments setup_pauli_matrices {K}. Arguments setup_spin_squared {K}.
Arguments check_ip {K}. Arguments setup_spin_ops {K}. Arguments to_general_base {K}.
Arguments set_u_repr {K}. Arguments change_to_general {K}.
