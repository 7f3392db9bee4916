(** Model of quantum_systems/sampler.py.  Samplers are user code: any methods on a state of
    their own and on the dictionaries that exist.  Dictionaries are objects with an
    identity, so aliasing is visible.  Calls are recorded in the order they are made. *)
From Coq Require Import List Arith Bool String.
From Verif Require Import Py.
Import ListNotations.

Section Sampler.
  Variables (key val time user : Type) (key_eqb : key -> key -> bool).
  Definition dict := key -> option val.
  (** All dictionaries, by identity *)
  Definition heap := nat -> option dict.
  Definition hset (r : nat) (d : dict) (h : heap) : heap := fun r' => if (r' =? r)%nat then Some d else h r'.
  (** sampler.py:95-110: sample(step) and dump(samples) -> samples *)
  Record sampler := SamplerObj {
    sp_sample : time -> M (user * heap) unit;
    sp_dump : nat -> M (user * heap) nat }.

  Inductive event := Sampled (i : nat) (t : time) | Dumped (i rin rout : nat).
  (** Files: what np.save wrote under (path, filename); directories that exist *)
  Record world := World {
    w_user : user; w_heap : heap; w_log : list event;
    w_dirs : string -> bool; w_files : string -> string -> option dict; w_samples : nat }.
  Definition SM := M world.
  Definition record_event (e : event) : SM unit :=
    modify (fun w => World (w_user w) (w_heap w) (w_log w ++ [e]) (w_dirs w) (w_files w) (w_samples w)).
  Definition in_sampler {A} (m : M (user * heap) A) : SM A :=
    fun w => let (r, s) := m (w_user w, w_heap w) in
             (r, World (fst s) (snd s) (w_log w) (w_dirs w) (w_files w) (w_samples w)).
  Definition set_samples (r : nat) : SM unit :=
    modify (fun w => World (w_user w) (w_heap w) (w_log w) (w_dirs w) (w_files w) r).
  Definition set_heap (h : heap) (w : world) : world :=
    World (w_user w) h (w_log w) (w_dirs w) (w_files w) (w_samples w).

  (** A SampleCollector: its samplers with their positions, and the name of its class *)
  Variables (samplers : list sampler) (cls : string).
  Definition positions : list (nat * sampler) := combine (seq 0 (List.length samplers)) samplers.
  (** sampler.py:27-38; the call is recorded before it is made *)
  Definition sample (t : time) : SM unit :=
    for_each positions (fun p => record_event (Sampled (fst p) t) ;; in_sampler (sp_sample (snd p) t)).
  (** os.makedirs(path, exist_ok) on directories *)
  Definition makedirs (path : string) (exist_ok : bool) : SM unit :=
    let* w := get_st in
    if w_dirs w path then (if exist_ok then ret tt else raise OSError)
    else modify (fun w => World (w_user w) (w_heap w) (w_log w) (fun p => if String.eqb p path then true else w_dirs w p) (w_files w) (w_samples w)).
  (** np.save of the dictionary; pickling it is assumed to succeed *)
  Definition np_save (path filename : string) : SM unit :=
    modify (fun w => World (w_user w) (w_heap w) (w_log w) (w_dirs w)
      (fun p f => if String.eqb p path && String.eqb f filename then w_heap w (w_samples w) else w_files w p f) (w_samples w)).
  (** sampler.py:40-83 *)
  Definition dump (path : string) (filename : option string) (exist_ok save_samples : bool) : SM nat :=
    for_each positions (fun p =>
      let* w := get_st in
      let* r := in_sampler (sp_dump (snd p) (w_samples w)) in
      record_event (Dumped (fst p) (w_samples w) r) ;;
      set_samples r) ;;
    let* w := get_st in
    if negb save_samples then ret (w_samples w)
    else
      let filename := match filename with None => ("tmp_" ++ cls ++ ".samples")%string | Some f => f end in
      makedirs path exist_ok ;;
      np_save path filename ;;
      ret (w_samples w).
  (** sampler.py:85-86 *)
  Definition add_sample (k : key) (v : val) : SM unit :=
    let* w := get_st in
    match w_heap w (w_samples w) with
    | None => raise Unmodelled
    | Some d => modify (set_heap (hset (w_samples w) (fun k' => if key_eqb k' k then Some v else d k') (w_heap w)))
    end.
  (** sampler.py:88-89: the dictionary itself, not a copy *)
  Definition get_samples : SM nat := let* w := get_st in ret (w_samples w).

  (** What a user may do, in any order, catching exceptions *)
  Inductive op := OpSample (t : time) | OpDump (path : string) (filename : option string) (exist_ok save : bool)
                | OpAdd (k : key) (v : val) | OpGet.
  Definition run1 (o : op) (w : world) : world :=
    match o with
    | OpSample t => snd (sample t w)
    | OpDump p f e s => snd (dump p f e s w)
    | OpAdd k v => snd (add_sample k v w)
    | OpGet => snd (get_samples w)
    end.
  Definition run (h : list op) (w : world) : world := fold_left (fun w o => run1 o w) h w.
End Sampler.
Arguments SamplerObj {key val time user}. Arguments sp_sample {key val time user}. Arguments sp_dump {key val time user}.
Arguments World {key val time user}. Arguments w_user {key val time user}. Arguments w_heap {key val time user}.
Arguments w_log {key val time user}. Arguments w_dirs {key val time user}. Arguments w_files {key val time user}.
Arguments w_samples {key val time user}. Arguments Sampled {time}. Arguments Dumped {time}.
Arguments hset {key val}. Arguments positions {key val time user}. Arguments sample {key val time user}.
Arguments dump {key val time user}. Arguments add_sample {key val time user}. Arguments get_samples {key val time user}.
Arguments OpSample {key val time}. Arguments OpDump {key val time}. Arguments OpAdd {key val time}. Arguments OpGet {key val time}.
Arguments run1 {key val time user}. Arguments run {key val time user}. Arguments in_sampler {key val time user A}.
Arguments record_event {key val time user}. Arguments set_samples {key val time user}. Arguments set_heap {key val time user}.
Arguments makedirs {key val time user}. Arguments np_save {key val time user}.
