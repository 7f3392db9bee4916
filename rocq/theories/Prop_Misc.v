(** C63-C65: random bases, molecules, sample collection. *)
From Coq Require Import List Arith ZArith Lia Bool String.
From Verif Require Import Scalar Py Numpy Spec BasisSet BasisSpec Systems SystemFacts Examples RandomBasis RandomProofs
  Molecule MoleculeSpec MoleculeProofs Sampler SamplerProofs.
Import ListNotations.
Open Scope list_scope.
Open Scope nat_scope.

(** C63. Everything but one symmetry. *)
Theorem C63_symmetries_partial :
  forall (K : scalar) (rng : nat -> list nat -> K) npm l dim (spin anti : bool),
  exists b, random_basis rng npm l dim spin anti = (Ok tt, b) /\
  exists h s u d, b_arr b F_h = Some h /\ b_arr b F_s = Some s /\ b_arr b F_u = Some u /\ b_arr b F_dip = Some d /\
    shape h = [l; l] /\ shape s = [l; l] /\ shape u = [l; l; l; l] /\ shape d = [dim; l; l] /\
    hermitian l (mat h) /\ hermitian l (mat s) /\ (forall i, i < dim -> hermitian l (fun p q => get d [i; p; q])) /\
    particle_sym l (ten u).
Proof.
  intros K rng npm l dim spin anti. destruct (random_ok K rng npm l dim spin anti) as (h & s & u & d & b & E & _).
  exists b. split; [exact E|]. exact (random_symmetries K rng npm l dim spin anti b E).
Qed.
Print Assumptions C63_symmetries_partial.
(** Missing: the two-body elements are not Hermitian. *)
Definition C63_hermitian_claim : Prop :=
  forall (K : scalar) (rng : nat -> list nat -> K) npm l dim (spin anti : bool) b u,
  (forall k idx, sconj (rng k idx) = rng k idx) ->
  random_basis rng npm l dim spin anti = (Ok tt, b) -> b_arr b F_u = Some u -> hermitian2 l (ten u).
Theorem C63_hermitian_refuted : ~ C63_hermitian_claim.
Proof.
  intros H. destruct (random_ok QI (fun _ _ => qr 1 2) 0 1 1 false false) as (h & s & u & d & b & E & _ & _ & Eu & _).
  specialize (H QI (fun _ _ => qr 1 2) 0 1 1 false false b u ltac:(intros; qi) E Eu).
  pose proof (random_hermitian_diagonal QI _ 0 1 1 false false b u E Eu ltac:(intros; qi) H 0 ltac:(lia)) as Z.
  discriminate Z.
Qed.
Print Assumptions C63_hermitian_refuted.
(** They are only if the generator draws exact zeros all along the diagonal. *)
Theorem C63_hermitian_only_if :
  forall (K : scalar) (rng : nat -> list nat -> K) npm l dim (spin anti : bool) b u,
  random_basis rng npm l dim spin anti = (Ok tt, b) -> b_arr b F_u = Some u ->
  (forall k idx, sconj (rng k idx) = rng k idx) -> hermitian2 l (ten u) ->
  forall p, p < l -> rng 5 [p; p; p; p] = s0.
Proof. exact random_hermitian_diagonal. Qed.
Print Assumptions C63_hermitian_only_if.
(** A random basis can be used like any other: C01-C05 and C09 apply to it. *)
Theorem C63_ready :
  forall (K : scalar) (rng : nat -> list nat -> K) npm l dim (spin anti : bool) b,
  random_basis rng npm l dim spin anti = (Ok tt, b) -> 0 < dim -> ready b l.
Proof. exact random_ready. Qed.
Print Assumptions C63_ready.

(** C64 *)
Theorem C64_atomic :
  forall (K : scalar) npm (mol : molecule K) k, integrals mol k ->
  forall N, m_n mol = 2 * N -> forall (anti : bool) w, N <= m_l mol ->
  exists b, atomic mol b /\
    (exists s w' x, pyscf_ao npm mol false anti w = (Ok s, w') /\ sys_at w' s Spatial N (m_l mol) x b /\ sy_l x = Z.of_nat (m_l mol)) /\
    (exists g w' x bg, pyscf_ao npm mol true anti w = (Ok g, w') /\ sys_at w' g General (2 * N) (2 * m_l mol) x bg /\
      sy_l x = Z.of_nat (2 * m_l mol) /\
      spin_doubled (m_l mol) (default_a K) (default_b K) anti (m_s mol) b bg).
Proof. exact ao_ok. Qed.
Print Assumptions C64_atomic.
Theorem C64_molecular :
  forall (K : scalar) npm (mol : molecule K) k, integrals mol k ->
  forall N, m_n mol = 2 * N -> forall (anti : bool) w, N <= m_l mol -> N <= k ->
  exists b b', atomic mol b /\ basis_changed (m_l mol) k (m_mo mol) (default_tilde (m_mo mol) None) b b' /\ b_arr b' F_bra = None /\
    (exists s w' x, pyscf_rhf npm mol false anti w = (Ok s, w') /\ sys_at w' s Spatial N k x b' /\ sy_l x = Z.of_nat k) /\
    (exists g w' x bg s', b_arr b' F_s = Some s' /\ pyscf_rhf npm mol true anti w = (Ok g, w') /\
      sys_at w' g General (2 * N) (2 * k) x bg /\ sy_l x = Z.of_nat (2 * k) /\
      spin_doubled k (default_a K) (default_b K) anti s' b' bg).
Proof. exact rhf_ok. Qed.
Print Assumptions C64_molecular.
Theorem C64_overlap :
  forall (K : scalar) (mol : molecule K) k, integrals mol k -> orthonormal_orbitals mol k ->
  forall b b', atomic mol b -> basis_changed (m_l mol) k (m_mo mol) (default_tilde (m_mo mol) None) b b' ->
  exists s', b_arr b' F_s = Some s' /\ shape s' = [k; k] /\ forall p q, p < k -> q < k -> mat s' p q = delta p q.
Proof. intros K mol k Hi Ho b b' Ha B. exact (changed_overlap K mol k Hi b b' Ha Ho B). Qed.
Print Assumptions C64_overlap.
Theorem C64_odd_rejected :
  forall (K : scalar) npm (mol : molecule K) k, integrals mol k ->
  forall (anti add_spin : bool) w, m_n mol mod 2 <> 0 ->
  (exists w', pyscf_ao npm mol add_spin anti w = (Err AssertionError, w') /\ w_sy w' = w_sy w) /\
  pyscf_rhf npm mol add_spin anti w = (Err AssertionError, w).
Proof. exact odd_rejected. Qed.
Print Assumptions C64_odd_rejected.
(** The stored elements have the symmetries a two-body operator needs, when the integrals
    have those of electron repulsion over real functions. *)
Theorem C64_symmetries :
  forall (K : scalar) (mol : molecule K) b u, atomic mol b -> repulsion (m_l mol) (ten (m_eri mol)) ->
  b_arr b F_u = Some u -> particle_sym (m_l mol) (ten u) /\ hermitian2 (m_l mol) (ten u).
Proof. exact atomic_symmetries. Qed.
Print Assumptions C64_symmetries.
Definition small_molecule : molecule QI :=
  Molecule 2 2 (qz 3 0) ex_h (lit2 Float64 [[qz 4 0; qz 0 0]; [qz 0 0; qz 1 0]])
    (Arr [2; 2; 2; 2] Float64 (fun idx => match idx with [p; q; r; s] => qz (Z.of_nat ((p + q + 1) * (r + s + 1))) 0 | _ => qz 0 0 end))
    (zeros [3; 2; 2] Float64) (lit2 Complex128 [[qr 1 2; qz 0 0]; [qz 0 0; qz 0 1]]).
Example C64_instance : integrals small_molecule 2 /\ orthonormal_orbitals small_molecule 2 /\ m_n small_molecule = 2 * 1 /\
  repulsion 2 (ten (m_eri small_molecule)).
Proof.
  split; [constructor; reflexivity|]. split; [|split; [reflexivity|]].
  - intros [|[|p]] [|[|q]] Hp Hq; try lia; qi.
  - intros [|[|p]] [|[|q]] [|[|r]] [|[|s]] Hp Hq Hr Hs; try lia; (split; [|split]); qi.
Qed.

(** C65. Each sampler sees the steps, in order, whatever else happens in between. *)
Theorem C65_steps_in_order :
  forall (key val time user : Type) (key_eqb : key -> key -> bool) (ss : list (sampler key val time user)) cls
    (h : list (op key val time)) w i,
  quiet key val time user ss -> i < List.length ss ->
  seen_by time i (w_log (run key_eqb ss cls h w)) = seen_by time i (w_log w) ++ steps_of key val time h.
Proof. exact history_seen. Qed.
Print Assumptions C65_steps_in_order.
(** Samplers are called in the order of the list, each step to all before the next. *)
Theorem C65_calls :
  forall (key val time user : Type) (key_eqb : key -> key -> bool) (ss : list (sampler key val time user)) cls
    (h : list (op key val time)),
  quiet key val time user ss -> forall w,
  sampling time (w_log (run key_eqb ss cls h w)) =
  sampling time (w_log w) ++ flat_map (fun t => map (fun i => (i, t)) (seq 0 (List.length ss))) (steps_of key val time h).
Proof. exact history_sampling. Qed.
Print Assumptions C65_calls.
(** When a sampler raises: it and those before it have been called, those after it not. *)
Theorem C65_stops :
  forall (key val time user : Type) (ss : list (sampler key val time user)) t w e w',
  sample ss t w = (Err e, w') ->
  exists k, k < List.length ss /\ w_log w' = w_log w ++ map (fun i => Sampled i t) (seq 0 (S k)) /\
    exists s st, nth_error ss k = Some s /\ fst (sp_sample s t st) = Err e.
Proof. exact sample_stops. Qed.
Print Assumptions C65_stops.
(** dump hands the dictionary of the collector to the first sampler, what a sampler returns
    to the next, returns and keeps what the last returns, and saves that. *)
Theorem C65_dump :
  forall (key val time user : Type) (ss : list (sampler key val time user)) cls p f (e s : bool) w r w',
  dump ss cls p f e s w = (Ok r, w') ->
  exists l, w_log w' = w_log w ++ l /\ chain time 0 (w_samples w) l r /\ List.length l = List.length ss /\ w_samples w' = r /\
    (s = true -> w_files w' p (match f with None => ("tmp_" ++ cls ++ ".samples")%string | Some f => f end) = w_heap w' r).
Proof. exact dump_chain. Qed.
Print Assumptions C65_dump.
Theorem C65_dump_fails :
  forall (key val time user : Type) (ss : list (sampler key val time user)) cls p f (e s : bool) w x w',
  dump ss cls p f e s w = (Err x, w') ->
  (exists i sp r st, nth_error ss i = Some sp /\ fst (sp_dump sp r st) = Err x) \/
  (s = true /\ e = false /\ x = OSError /\ w_dirs w' p = true /\
   exists l, w_log w' = w_log w ++ l /\ chain time 0 (w_samples w) l (w_samples w') /\ List.length l = List.length ss).
Proof. exact dump_fails. Qed.
Print Assumptions C65_dump_fails.
(** add_sample and get_samples *)
Theorem C65_map :
  forall (key val time user : Type) (key_eqb : key -> key -> bool), (forall a b, key_eqb a b = true <-> a = b) ->
  forall k v (w : Sampler.world key val time user) d, w_heap w (w_samples w) = Some d ->
  exists w' d', add_sample key_eqb k v w = (Ok tt, w') /\ get_samples w' = (Ok (w_samples w), w') /\
    w_heap w' (w_samples w) = Some d' /\ d' k = Some v /\ (forall k', k' <> k -> d' k' = d k') /\
    (forall r, r <> w_samples w -> w_heap w' r = w_heap w r).
Proof. exact add_get. Qed.
Print Assumptions C65_map.
(** Samplers which store under a key of their own: all their values and all earlier samples
    are in the dictionary returned. *)
Theorem C65_collects :
  forall (key val time user : Type) (key_eqb : key -> key -> bool), (forall a b, key_eqb a b = true <-> a = b) ->
  forall own (ss : list (sampler key val time user)) cls p f (e : bool) w d,
  storing key val time user key_eqb own ss -> w_heap w (w_samples w) = Some d -> NoDup (map fst own) ->
  exists w' d', dump ss cls p f e false w = (Ok (w_samples w), w') /\ w_heap w' (w_samples w) = Some d' /\
    (forall kv, In kv own -> d' (fst kv) = Some (snd kv)) /\ (forall k, ~ In k (map fst own) -> d' k = d k).
Proof. exact storing_dump. Qed.
Print Assumptions C65_collects.
(** A sampler counting its calls and storing a value *)
Definition counting (kv : nat * nat) : sampler nat nat nat nat :=
  SamplerObj (fun _ st => (Ok tt, (S (fst st), snd st)))
    (fun r st => match snd st r with
                 | Some d => (Ok r, (fst st, hset r (fun k => if k =? fst kv then Some (snd kv) else d k) (snd st)))
                 | None => (Err KeyError, st) end).
Example C65_instance : quiet nat nat nat nat [counting (0, 7); counting (1, 8)] /\
  storing nat nat nat nat Nat.eqb [(0, 7); (1, 8)] [counting (0, 7); counting (1, 8)].
Proof.
  split.
  - intros s t st [<-|[<-|[]]]; eexists; reflexivity.
  - repeat (apply Forall2_cons || apply Forall2_nil); intros r u h d Hd; exists u; cbn; rewrite Hd; reflexivity.
Qed.
