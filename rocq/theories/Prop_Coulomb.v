(** C42-C46: the Coulomb elements of the two-dimensional oscillators and their cache. *)
From Coq Require Import List Arith ZArith Lia Bool Reals Lra.
From Verif Require Import Py TwoDim Coulomb CoulombSpec CoulombProofs Cache CacheProofs CacheExamples.
Import ListNotations.
Open Scope R_scope.

(** C42. [nm] is any table of quantum numbers: that of the plain oscillator or the one of
    the oscillator in a field. *)
Theorem C42_angular_momentum :
  forall (nm : nat -> Z * Z) p q r s, (snd (nm p) + snd (nm q) <> snd (nm r) + snd (nm s))%Z -> coulomb_of nm p q r s = 0.
Proof. exact angular. Qed.
Print Assumptions C42_angular_momentum.
Example C42_instance : (snd (shell_state 1) + snd (shell_state 0) <> snd (shell_state 2) + snd (shell_state 0))%Z /\ coulomb_of shell_state 0 0 0 0 = sqrt (PI / 2).
Proof. split; [vm_compute; discriminate | exact ground_element]. Qed.

(** C43. *)
Theorem C43_symmetries :
  forall (nm : nat -> Z * Z) p q r s,
  coulomb_of nm q p s r = coulomb_of nm p q r s /\ coulomb_of nm r s p q = coulomb_of nm p q r s.
Proof. exact (fun nm p q r s => conj (coulomb_exchange _ _ _ _ _ _ _ _) (coulomb_transpose _ _ _ _ _ _ _ _)). Qed.
Print Assumptions C43_symmetries.
Theorem C43_mirror :
  forall (nm nm' : nat -> Z * Z) p q r s, (forall x, nm' x = (fst (nm x), - snd (nm x))%Z) -> coulomb_of nm' p q r s = coulomb_of nm p q r s.
Proof. exact mirror. Qed.
Print Assumptions C43_mirror.

(** C44. In the order of the article: states 1, 2, 3, 4 are i, j, k, l. *)
Theorem C44_formula :
  forall (Gam : R -> R) ni mi nj mj nl ml nk mk, is_gamma Gam ->
  coulomb_ho ni mi nj mj nl ml nk mk = anisimovas_matulis Gam ni mi nj mj nk mk nl ml.
Proof. exact formula. Qed.
Print Assumptions C44_formula.
Example C44_instance : is_gamma half_gamma /\ coulomb_ho 0 0 0 0 0 0 0 0 = sqrt (PI / 2).
Proof. exact (conj half_gamma_ok ground_element). Qed.

(** C45. Whatever valid cache files exist at the start (in particular none). *)
Theorem C45_transparent :
  forall (h : list (setting * nat)) (s : fs),
  (forall d n f, s d n = Some f -> f = image n) -> Forall (fun c => cached (fst c) = false \/ writable (fst c) = true) h ->
  fst (calls h s) = map (fun c => Ok (coulomb_array (snd c))) h.
Proof. exact (fun h s H F => proj1 (history_transparent h s H F)). Qed.
Print Assumptions C45_transparent.
(** The files stay valid even when some calls cannot store theirs. *)
Theorem C45_files_stay_valid :
  forall (e : setting) n (s : fs), (forall d n f, s d n = Some f -> f = image n) ->
  forall d k f, snd (get_coulomb_elements e n s) d k = Some f -> f = image k.
Proof. exact (fun e n s H => proj1 (call_sound e n s H)). Qed.
Print Assumptions C45_files_stay_valid.
(** In a directory that cannot be written the elements are computed and then lost. *)
Theorem C45_readonly_directory :
  forall e n s, cached e = true -> writable e = false -> s (dir e) n = None -> get_coulomb_elements e n s = (Err OSError, s).
Proof. exact readonly. Qed.
Print Assumptions C45_readonly_directory.
Example C45_instance : (forall d n f, no_files d n = Some f -> f = image n) /\
  Forall (fun c : setting * nat => cached (fst c) = false \/ writable (fst c) = true) [(here, 3%nat); (Setting false 0 true, 3%nat); (here, 3%nat); (Setting true 1 true, 2%nat)].
Proof. split; [exact no_files_sound|]. repeat (apply Forall_cons; [cbn; auto|]). apply Forall_nil. Qed.

(** C46. A crash. *)
Definition C46_claim : Prop :=
  forall t e n, cached e = true -> writable e = true ->
  fst (get_coulomb_elements e n (m_fs (run t (Machine no_files [])))) = Ok (coulomb_array n).
Theorem C46_refuted : ~ C46_claim.
Proof. exact crash_refuted. Qed.
Print Assumptions C46_refuted.
(** Wherever in np.save the process dies, every later call that looks for this file
    raises, whatever calls are made in between. *)
Theorem C46_crash_is_permanent :
  forall e n s ks h off, s (dir e) n = None ->
  let m := run (Spawn e n :: map (Run 0) ks) (Machine s []) in
  nth_error (m_procs m) 0 = Some (Process e n (Writing off)) -> (off < length (image n))%nat ->
  forall i e', nth_error h i = Some (e', n) -> cached e' = true -> dir e' = dir e ->
  nth_error (fst (calls h (m_fs (act (Crash 0) m)))) i = Some (Err ValueError).
Proof. exact crash_poisons. Qed.
Print Assumptions C46_crash_is_permanent.
(** Concurrency, without crashes. *)
Definition C46_concurrent_claim : Prop :=
  forall t i p r, crash_free t -> nth_error (m_procs (run t (Machine no_files []))) i = Some p -> p_at p = Returned r ->
  writable (p_env p) = true -> r = Ok (coulomb_array (p_n p)).
Theorem C46_concurrent_refuted : ~ C46_concurrent_claim.
Proof. exact concurrent_refuted. Qed.
Print Assumptions C46_concurrent_refuted.
(** For every n >= 2 there is an interleaving after which a call silently returns zeros. *)
Theorem C46_silent_zeros :
  forall n ys y, coulomb_array n = ys ++ [y] ->
  nth_error (m_procs (run (torn_trace n) (Machine no_files []))) 2 = Some (Process here n (Returned (Ok (repeat 0 (length ys) ++ [y])))).
Proof. exact torn_load. Qed.
Print Assumptions C46_silent_zeros.
(** What remains true.  In every interleaving with any crashes a call that returns gives
    the right elements, except that some may be 0; otherwise it raises. *)
Theorem C46_right_or_zero_partial :
  forall s t i p r, (forall d n f, s d n = Some f -> f = image n) ->
  nth_error (m_procs (run t (Machine s []))) i = Some p -> p_at p = Returned r ->
  match r with Ok xs => Forall2 (fun x y => x = y \/ x = 0) xs (coulomb_array (p_n p)) | Err e => e = ValueError \/ e = OSError end.
Proof. exact returned_torn. Qed.
Print Assumptions C46_right_or_zero_partial.
(** Without crashes, once nobody is writing all files are complete. *)
Theorem C46_quiescence_partial :
  forall s t, (forall d n f, s d n = Some f -> f = image n) -> crash_free t ->
  (forall i p off, nth_error (m_procs (run t (Machine s []))) i = Some p -> p_at p <> Writing off) ->
  forall d n f, m_fs (run t (Machine s [])) d n = Some f -> f = image n.
Proof. exact quiescent_sound. Qed.
Print Assumptions C46_quiescence_partial.
(** The steps of a process running alone give what get_coulomb_elements gives. *)
Theorem C46_steps_agree :
  forall e n s ks r,
  (exists p, nth_error (m_procs (run (Spawn e n :: map (Run 0) ks) (Machine s []))) 0 = Some p /\ p_at p = Returned r) ->
  r = fst (get_coulomb_elements e n s).
Proof. exact alone_result. Qed.
Print Assumptions C46_steps_agree.
Example C46_instance :
  let m := run (Spawn here 1 :: map (Run 0) [0; 0; 0])%nat (Machine no_files []) in
  nth_error (m_procs m) 0 = Some (Process here 1 (Writing 1)) /\ (1 < length (image 1))%nat.
Proof. split; [reflexivity | cbn; lia]. Qed.
