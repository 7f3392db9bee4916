(** Vocabulary for stating properties of basis objects: what a user can read
    off an object, and when two objects read the same.  Only the record
    [basis] itself is taken from the model, none of its methods. *)
From Coq Require Import List Arith ZArith Lia Bool.
From Verif Require Import Scalar Numpy Spec BasisSet.
Import ListNotations.

Section BasisSpec.
  Variable K : scalar.
  Local Open Scope K_scope.
  Notation arr := (arr K).
  Notation basis := (basis K).
  Implicit Types (C D h u : arr) (b : basis).

  (** The matrix meant by the C_tilde argument. *)
  Definition tilde C (Ct : option arr) : nat -> nat -> K :=
    match Ct with None => adj (mat C) | Some D => mat D end.
  Definition tilde_shape C (Ct : option arr) (k l : nat) : Prop :=
    match Ct with None => shape C = [l; k] | Some D => shape D = [k; l] end.

  (** Properties of one stored array before and after. *)
  Definition arr_sat (x : option arr) (P : arr -> Prop) : Prop := forall a, x = Some a -> P a.

  (** A basis object whose arrays all have the sizes announced by [l] and
      [dim], with h and four-index u set: what every constructor of the
      library produces. *)
  Record ready b (l : nat) : Prop := Ready {
    r_np : exists m, b_np b = Some m;
    r_l : b_l b = l;
    r_h : exists h, b_arr b F_h = Some h /\ shape h = [l; l];
    r_u : exists u, b_arr b F_u = Some u /\ shape u = [l; l; l; l];
    r_s : forall a, b_arr b F_s = Some a -> shape a = [l; l];
    r_dip : forall a, b_arr b F_dip = Some a -> shape a = [b_dim b; l; l] /\ (0 < b_dim b)%nat;
    r_spf : forall a, b_arr b F_spf = Some a -> exists g, shape a = l :: g /\ length g = b_dim b;
    r_bra : forall a, b_arr b F_bra = Some a -> exists g, shape a = l :: g /\ length g = b_dim b;
    r_spin : forall f a, In f [F_spx; F_spy; F_spz; F_sp2] -> b_arr b f = Some a -> shape a = [l; l];
    r_tb : forall a, b_arr b F_sp2tb = Some a -> shape a = [l; l; l; l] /\ b_spin b = true
  }.

  (** Relations between an optional array before and after. *)
  Definition changed1 (l k : nat) C D (x y : option arr) : Prop :=
    match x, y with
    | None, None => True
    | Some a, Some a' => shape a' = [k; k] /\
        forall p q, (p < k)%nat -> (q < k)%nat -> mat a' p q = T1 l (mat a) (mat C) (mat D) p q
    | _, _ => False
    end.
  Definition changed2 (l k : nat) C D (x y : option arr) : Prop :=
    match x, y with
    | None, None => True
    | Some a, Some a' => shape a' = [k; k; k; k] /\
        forall p q r s, (p < k)%nat -> (q < k)%nat -> (r < k)%nat -> (s < k)%nat ->
          ten a' p q r s = T2 l (ten a) (mat C) (mat D) p q r s
    | _, _ => False
    end.
  (** Dipole: component i is a one-body operator. *)
  Definition changed_dip (dim l k : nat) C D (x y : option arr) : Prop :=
    match x, y with
    | None, None => True
    | Some a, Some a' => shape a' = [dim; k; k] /\
        forall i p q, (i < dim)%nat -> (p < k)%nat -> (q < k)%nat ->
          get a' [i; p; q] = T1 l (fun x y => get a [i; x; y]) (mat C) (mat D) p q
    | _, _ => False
    end.
  (** phi'_p = sum_a C[a,p] phi_a on every grid point *)
  Definition changed_spf (l k : nat) C (x y : option arr) : Prop :=
    match x, y with
    | None, None => True
    | Some a, Some a' => shape a' = k :: tl (shape a) /\ dt a' = dmax (dt C) (dt a) /\
        forall p x, (p < k)%nat -> get a' (p :: x) = sumn l (fun i => mat C i p * get a (i :: x))
    | _, _ => False
    end.
  Definition changed_bra (l k : nat) D (x y : option arr) : Prop :=
    match x, y with
    | None, None => True
    | Some a, Some a' => shape a' = k :: tl (shape a) /\ dt a' = dmax (dt D) (dt a) /\
        forall p x, (p < k)%nat -> get a' (p :: x) = sumn l (fun i => mat D p i * get a (i :: x))
    | _, _ => False
    end.
  (** The bra orbitals a reader would see (basis_set.py:224-230). *)
  Definition bra_view b : option arr :=
    match b_arr b F_bra, b_arr b F_spf with
    | None, Some a => Some (aconj a)
    | x, _ => x
    end.

  (** The whole effect of a successful change_basis. *)
  Record basis_changed (l k : nat) C D b b' : Prop := BasisChanged {
    bc_l : b_l b' = k;
    bc_cls : b_cls b' = b_cls b;
    bc_np : b_np b' = b_np b;
    bc_dim : b_dim b' = b_dim b;
    bc_nuc : b_nuc b' = b_nuc b;
    bc_spin : b_spin b' = b_spin b;
    bc_asym : b_asym b' = b_asym b;
    bc_h : changed1 l k C D (b_arr b F_h) (b_arr b' F_h);
    bc_s : changed1 l k C D (b_arr b F_s) (b_arr b' F_s);
    bc_u : changed2 l k C D (b_arr b F_u) (b_arr b' F_u);
    bc_tb : changed2 l k C D (b_arr b F_sp2tb) (b_arr b' F_sp2tb);
    bc_dip : changed_dip (b_dim b) l k C D (b_arr b F_dip) (b_arr b' F_dip);
    bc_spf : changed_spf l k C (b_arr b F_spf) (b_arr b' F_spf);
    bc_bra : b_arr b F_spf <> None -> changed_bra l k D (bra_view b) (b_arr b' F_bra);
    bc_bra0 : b_arr b F_spf = None -> b_arr b' F_bra = b_arr b F_bra;
    bc_rest : forall f, In f [F_grid; F_sigx; F_sigy; F_sigz; F_spx; F_spy; F_spz; F_sp2; F_a; F_b] ->
      b_arr b' f = b_arr b f
  }.

  (** Relations between an optional array before and after spin doubling. *)
  Definition doubled1 (l : nat) (x y : option arr) : Prop :=
    match x, y with
    | None, None => True
    | Some a, Some a' => shape a' = [2 * l; 2 * l]%nat /\ forall P Q, mat a' P Q = dbl1 (mat a) P Q
    | _, _ => False
    end.
  Definition doubled2 (l : nat) (anti : bool) (x y : option arr) : Prop :=
    match x, y with
    | None, None => True
    | Some a, Some a' => shape a' = [2 * l; 2 * l; 2 * l; 2 * l]%nat /\
        forall P Q R S, (P < 2 * l)%nat -> (Q < 2 * l)%nat -> (R < 2 * l)%nat -> (S < 2 * l)%nat ->
          ten a' P Q R S = (if anti then exch (dbl2 (ten a)) else dbl2 (ten a)) P Q R S
    | _, _ => False
    end.
  Definition doubled_dip (dim l : nat) (x y : option arr) : Prop :=
    match x, y with
    | None, None => True
    | Some a, Some a' => shape a' = [dim; (2 * l)%nat; (2 * l)%nat] /\
        forall i P Q, (i < dim)%nat -> get a' [i; P; Q] = dbl1 (fun p q => get a [i; p; q]) P Q
    | _, _ => False
    end.
  Definition doubled_spf (l : nat) (x y : option arr) : Prop :=
    match x, y with
    | None, None => True
    | Some a, Some a' => shape a' = (2 * l)%nat :: tl (shape a) /\
        forall P x, get a' (P :: x) = get a ((P / 2)%nat :: x)
    | _, _ => False
    end.
  (** Spin matrices of a basis with spatial overlap [s] for the spin vectors va, vb. *)
  Definition spin_matrix (sg : nat -> nat -> K) (va vb : list K) (s : nat -> nat -> K) (P Q : nat) : K :=
    shalf * (s (P / 2)%nat (Q / 2)%nat
             * T1 2 sg (spin_cols va vb) (adj (spin_cols va vb)) (P mod 2) (Q mod 2)).
  Definition stored (sh : list nat) (f : nat -> nat -> K) (x : option arr) : Prop :=
    exists a, x = Some a /\ shape a = sh /\ forall P Q, mat a P Q = f P Q.

  (** The whole effect of a successful spin doubling with spin vectors va, vb.
      [anti]: were the two-body elements anti-symmetrized by this call? *)
  Record spin_doubled (l : nat) (va vb : list K) (anti : bool) (s : arr) b b' : Prop := SpinDoubled {
    sd_l : b_l b' = (2 * l)%nat;
    sd_cls : b_cls b' = b_cls b;
    sd_np : b_np b' = b_np b;
    sd_dim : b_dim b' = b_dim b;
    sd_nuc : b_nuc b' = b_nuc b;
    sd_spin : b_spin b' = true;
    sd_asym : b_asym b' = b_asym b || anti;
    sd_h : doubled1 l (b_arr b F_h) (b_arr b' F_h);
    sd_s : doubled1 l (b_arr b F_s) (b_arr b' F_s);
    sd_u : doubled2 l anti (b_arr b F_u) (b_arr b' F_u);
    sd_dip : doubled_dip (b_dim b) l (b_arr b F_dip) (b_arr b' F_dip);
    sd_spf : doubled_spf l (b_arr b F_spf) (b_arr b' F_spf);
    sd_bra : b_arr b F_spf <> None -> doubled_spf l (bra_view b) (b_arr b' F_bra);
    sd_bra0 : b_arr b F_spf = None -> b_arr b' F_bra = option_map (astype Complex128) (b_arr b F_bra);
    sd_grid : b_arr b' F_grid = b_arr b F_grid;
    sd_sigx : stored [2; 2]%nat (T1 2 pauli_x (spin_cols va vb) (adj (spin_cols va vb))) (b_arr b' F_sigx);
    sd_sigy : stored [2; 2]%nat (T1 2 pauli_y (spin_cols va vb) (adj (spin_cols va vb))) (b_arr b' F_sigy);
    sd_sigz : stored [2; 2]%nat (T1 2 pauli_z (spin_cols va vb) (adj (spin_cols va vb))) (b_arr b' F_sigz);
    sd_spx : stored [2 * l; 2 * l]%nat (spin_matrix pauli_x va vb (mat s)) (b_arr b' F_spx);
    sd_spy : stored [2 * l; 2 * l]%nat (spin_matrix pauli_y va vb (mat s)) (b_arr b' F_spy);
    sd_spz : stored [2 * l; 2 * l]%nat (spin_matrix pauli_z va vb (mat s)) (b_arr b' F_spz);
    sd_sp2 : exists a, b_arr b' F_sp2 = Some a /\ shape a = [2 * l; 2 * l]%nat /\
      forall P Q, (P < 2 * l)%nat -> (Q < 2 * l)%nat -> mat a P Q =
        let S sg := spin_matrix sg va vb (mat s) in
        let SSS sg := mmul (2 * l) (mmul (2 * l) (S sg) (dbl1 (mat s))) (S sg) P Q in
        SSS pauli_x + SSS pauli_y + SSS pauli_z;
    sd_tb : exists a, b_arr b' F_sp2tb = Some a /\ shape a = [2 * l; 2 * l; 2 * l; 2 * l]%nat /\
      forall P Q R T, (P < 2 * l)%nat -> (Q < 2 * l)%nat -> (R < 2 * l)%nat -> (T < 2 * l)%nat ->
        let S sg := spin_matrix sg va vb (mat s) in
        let SS sg P Q R T := S sg P R * S sg Q T in
        let W P Q R T := SS pauli_x P Q R T + SS pauli_y P Q R T + SS pauli_z P Q R T in
        ten a P Q R T = (if anti then exch W else W) P Q R T;
    sd_complex : forall f a, In f [F_h; F_s; F_u; F_spf; F_bra; F_dip; F_spx; F_spy; F_spz; F_sp2; F_sp2tb] ->
      b_arr b' f = Some a -> dt a = Complex128
  }.

  (** Equality of everything a user can read off two basis objects. *)
  Definition opt_aeq (x y : option arr) : Prop :=
    match x, y with None, None => True | Some a, Some a' => aeq a a' | _, _ => False end.
  Record same_values b b' : Prop := SameValues {
    sv_l : b_l b = b_l b'; sv_dim : b_dim b = b_dim b';
    sv_spin : b_spin b = b_spin b'; sv_asym : b_asym b = b_asym b'; sv_nuc : b_nuc b = b_nuc b';
    sv_cls : b_cls b = b_cls b'; sv_np : b_np b = b_np b';
    sv_arr : forall f, f <> F_bra -> opt_aeq (b_arr b f) (b_arr b' f);
    sv_bra : opt_aeq (bra_view b) (bra_view b')
  }.

  (** Spin matrices are unset, or the size does not change. *)
  Definition spin_mats_ok b (l k : nat) : Prop :=
    l = k \/ forall f, In f [F_spx; F_spy; F_spz; F_sp2] -> b_arr b f = None.

End BasisSpec.

Arguments tilde {K}. Arguments tilde_shape {K}. Arguments arr_sat {K}. Arguments ready {K}.
Arguments changed1 {K}. Arguments changed2 {K}. Arguments changed_dip {K}. Arguments changed_spf {K}.
Arguments changed_bra {K}. Arguments bra_view {K}. Arguments basis_changed {K}.
Arguments doubled1 {K}. Arguments doubled2 {K}. Arguments doubled_dip {K}. Arguments doubled_spf {K}.
Arguments spin_matrix {K}. Arguments stored {K}. Arguments spin_doubled {K}.
Arguments sd_l {K l va vb anti s b b'}.
Arguments sd_cls {K l va vb anti s b b'}.
Arguments sd_np {K l va vb anti s b b'}.
Arguments sd_dim {K l va vb anti s b b'}.
Arguments sd_nuc {K l va vb anti s b b'}.
Arguments sd_spin {K l va vb anti s b b'}.
Arguments sd_asym {K l va vb anti s b b'}.
Arguments sd_h {K l va vb anti s b b'}.
Arguments sd_s {K l va vb anti s b b'}.
Arguments sd_u {K l va vb anti s b b'}.
Arguments sd_dip {K l va vb anti s b b'}.
Arguments sd_spf {K l va vb anti s b b'}.
Arguments sd_bra {K l va vb anti s b b'}.
Arguments sd_bra0 {K l va vb anti s b b'}.
Arguments sd_grid {K l va vb anti s b b'}.
Arguments sd_sigx {K l va vb anti s b b'}.
Arguments sd_sigy {K l va vb anti s b b'}.
Arguments sd_sigz {K l va vb anti s b b'}.
Arguments sd_spx {K l va vb anti s b b'}.
Arguments sd_spy {K l va vb anti s b b'}.
Arguments sd_spz {K l va vb anti s b b'}.
Arguments sd_sp2 {K l va vb anti s b b'}.
Arguments sd_tb {K l va vb anti s b b'}.
Arguments sd_complex {K l va vb anti s b b'}.
Arguments opt_aeq {K}. Arguments same_values {K}. Arguments spin_mats_ok {K}.
Arguments bc_l {K l k C D b b'}. Arguments bc_cls {K l k C D b b'}. Arguments bc_np {K l k C D b b'}.
Arguments bc_dim {K l k C D b b'}. Arguments bc_nuc {K l k C D b b'}. Arguments bc_spin {K l k C D b b'}.
Arguments bc_asym {K l k C D b b'}. Arguments bc_h {K l k C D b b'}. Arguments bc_s {K l k C D b b'}.
Arguments bc_u {K l k C D b b'}. Arguments bc_tb {K l k C D b b'}. Arguments bc_dip {K l k C D b b'}.
Arguments bc_spf {K l k C D b b'}. Arguments bc_bra {K l k C D b b'}. Arguments bc_bra0 {K l k C D b b'}.
Arguments bc_rest {K l k C D b b'}.
