(** Model of SavableDataset.config(): "Return a config dict that can be used to check if datasets have the same settings"
    (flavors/base_dataset.py:330-344), of its implementations in the webdataset loader and in every wrapper, of WorkerConfig.config
    (worker.py:225-233) and of the data loaders' config() (savable_loader.py:1021-1031, 1173-1183).

    A pipeline is here what its constructors were called with ([pipe]); [denote] is the dataset that they build.
    Simplifications: Python's == on basic values is taken to be structural (1, True and 1.0 are different here); a dict is the list of
    its items in the order in which they are written (the same for every object of a class).  All datasets of a pipeline have the same
    worker config (wrappers/base.py:67-72 asserts that rank, world_size and num_workers agree).  type(self).__qualname__ is that of the
    class itself (no subclasses of the user). *)
From Coq Require Import String QArith.
From Verif Require Import Base Dataset Wrap WrapSpec Rng Sharder SampleLoader Wrappers MapModel Batch GroupBatch Packing IterMap
  ShuffleBuffer Blend Concat TaskEncoder.
Local Close Scope Q_scope.
Local Close Scope Z_scope.
Local Open Scope string_scope.
Local Open Scope list_scope.
Local Open Scope nat_scope.

(** ** values of a config dict *)
Inductive conf :=
| CNone
| CBool (b : bool)
| CInt (z : Z)
| CFloat (q : Q)
| CStr (s : string)
| CList (l : list conf)
| CDict (l : list (string * conf)).

Definition cnat (n : nat) : conf := CInt (Z.of_nat n).
Definition copt (o : option conf) : conf := match o with Some c => c | None => CNone end.

(** bool(value) *)
Definition truthy (c : conf) : bool :=
  match c with
  | CNone => false
  | CBool b => b
  | CInt z => negb (z =? 0)%Z
  | CFloat q => negb (Qeq_bool q 0)
  | CStr s => negb (String.eqb s "")
  | CList l => match l with [] => false | _ => true end
  | CDict l => match l with [] => false | _ => true end
  end.

(** ** the arguments of the constructors *)

(** a Python callable: inspect.getmodule(fn).__name__ or fn.__module__; fn.__qualname__ or fn.__name__ (functools.partial objects and
    instances with __call__ have neither); and which code it runs with which captured values *)
Record callable := mkCallable { c_mod : option string; c_qual : option string; c_code : nat }.

(** base_dataset.py:330-337 _function_config *)
Definition shown (o : option string) : string := match o with Some s => s | None => "<unknown>" end.
Definition fname (f : callable) : string := (shown (c_mod f) ++ "." ++ shown (c_qual f))%string.

(** map_fn_config, batcher_config, ...: None, a value, or a function that returns one *)
Inductive cfgarg := NoConfig | ConfigValue (c : conf) | ConfigFn (c : conf).

(** the entry of the config dict: "... if self.map_fn_config else {}" (map_dataset.py:271-279 and the same in the other wrappers) *)
Definition cfg_entry (key : string) (a : cfgarg) : list (string * conf) :=
  match a with
  | NoConfig => []
  | ConfigValue c => if truthy c then [(key, c)] else []
  | ConfigFn c => [(key, c)]
  end.

(** worker.py:20-60.  The process group as its identity and its size *)
Record wconf := mkWconf {
  wc_rank : nat; wc_world : nat; wc_workers : nat; wc_group : option (nat * nat); wc_seed : nat }.

(** structs.py:22-36, with the file's path and the two caches *)
Record cshard := mkCshard { cs_info : ShardInfo; cs_path : string; cs_boff : option Z; cs_bsize : option Z }.

(** The constructor calls.  [pf], [h] in PLoad: part_filter and handler (as numbers); [h]: error_handler *)
Inductive pipe :=
| PLoad (shards : list (list (cshard * list cshard))) (exclude : list string) (loop : bool) (shuffle : shuffling) (par : nat) (pf h : nat)
| PMap (f : callable) (fc : cfgarg) (stateless : bool) (h : callable) (d : pipe)
| PIterMap (f : callable) (fc : cfgarg) (lenf : callable) (stateless : bool) (h : callable) (d : pipe)
| PFilter (f : callable) (fc : cfgarg) (d : pipe)
| PShuffle (size : nat) (d : pipe)
| PBatch (size : nat) (f : callable) (fc : cfgarg) (stateless drop_last : bool) (h : callable) (d : pipe)
| PGroup (fixed : option nat) (key f : callable) (fc : cfgarg) (stateless drop_last : bool) (h : callable) (d : pipe)
| PPack (size : nat) (pre final : callable) (fc : cfgarg) (stateless : bool) (h : callable) (d : pipe)
| PRepeat (repeats : option nat) (d : pipe)
| PEpochize (len : nat) (d : pipe)
| PLimit (len : nat) (reset : bool) (d : pipe)
| PBlend (ds : list (pipe * Q))
| PConcat (ds : list pipe)
| PGc (every_n : nat) (d : pipe)
| PLog (mode : nat) (d : pipe).

(** ** config() *)
Section WithWorkerConfig.
  Variable wc : wconf.

  (** worker.py:225-233 *)
  Definition worker_config : conf :=
    CDict [("rank", cnat (wc_rank wc)); ("world_size", cnat (wc_world wc)); ("num_workers", cnat (wc_workers wc));
           ("data_parallel_group", copt (option_map (fun g => cnat (snd g)) (wc_group wc)))].

  (** sample_loader.py:759-774 *)
  Definition shard_config (s : cshard) : conf :=
    CDict [("name", cnat (sh_name (cs_info s))); ("path", CStr (cs_path s)); ("offset", CInt (sh_offset (cs_info s)));
           ("count", CInt (sh_count (cs_info s))); ("byte_offset", copt (option_map CInt (cs_boff s)));
           ("byte_size", copt (option_map CInt (cs_bsize s)))].
  Definition subshards_config (s : cshard * list cshard) : conf := CList (map shard_config (fst s :: snd s)).

  (** shuffle_over_epochs: None, -1, k >= 1 *)
  Definition shuffle_config (s : shuffling) : conf :=
    match s with NoShuffle => CNone | Replace => CInt (-1) | Over k => cnat k end.

  Fixpoint config (p : pipe) : conf :=
    match p with
    | PLoad shards exclude loop shuffle par _ _ =>                              (* sample_loader.py:756-781 *)
        CDict [("type", CStr "WebdatasetSampleLoaderDataset");
               ("shards", CList (map (fun ws => CList (map subshards_config ws)) shards));
               ("worker_config", worker_config); ("exclude", CList (map CStr exclude)); ("loop", CBool loop);
               ("shuffle_over_epochs", shuffle_config shuffle); ("parallel_shard_iters", cnat par)]
    | PMap f fc stateless _ d =>                                                (* map_dataset.py:266-281 *)
        CDict ([("type", CStr "MapDataset"); ("dataset", config d); ("map_fn", CStr (fname f))]
               ++ cfg_entry "map_fn_config" fc ++ [("map_fn_stateless", CBool stateless)])
    | PIterMap f fc lenf _ h d =>                                               (* iter_map_dataset.py:212-230 *)
        CDict ([("type", CStr "IterMapDataset"); ("dataset", config d); ("iter_map_fn", CStr (fname f))]
               ++ cfg_entry "iter_map_fn_config" fc ++ [("len_map_fn", CStr (fname lenf)); ("error_handler", CStr (fname h))])
    | PFilter f fc d =>                                                         (* filter_dataset.py:96-112 *)
        CDict ([("type", CStr "FilterDataset"); ("dataset", config d); ("filter_fn", CStr (fname f))]
               ++ cfg_entry "filter_fn_config" fc)
    | PShuffle size d =>                                                        (* shuffle_buffer_dataset.py:106-112 *)
        CDict [("type", CStr "ShuffleBufferDataset"); ("dataset", config d); ("size", cnat size); ("worker_config", worker_config)]
    | PBatch size f fc stateless drop_last h d =>                               (* batch_dataset.py:307-328 *)
        CDict ([("type", CStr "BatchDataset"); ("batch_size", cnat size); ("batcher", CStr (fname f))]
               ++ cfg_entry "batcher_config" fc
               ++ [("batcher_stateless", CBool stateless); ("drop_last", CBool drop_last); ("error_handler", CStr (fname h));
                   ("worker_config", worker_config); ("dataset", config d)])
    | PGroup _ key f fc stateless drop_last h d =>                              (* group_batch_dataset.py:305-326 *)
        CDict ([("type", CStr "GroupBatchDataset"); ("bucket", CStr (fname key)); ("batcher", CStr (fname f))]
               ++ cfg_entry "batcher_config" fc
               ++ [("batcher_stateless", CBool stateless); ("drop_last", CBool drop_last); ("error_handler", CStr (fname h));
                   ("worker_config", worker_config); ("dataset", config d)])
    | PPack size pre final fc stateless h d =>                                  (* packing_dataset.py:365-384 *)
        CDict ([("type", CStr "PackingDataset"); ("buffer_size", cnat size); ("pre_packer", CStr (fname pre));
                ("final_packer", CStr (fname final)); ("final_packer_stateless", CBool stateless)]
               ++ cfg_entry "packer_config" fc
               ++ [("error_handler", CStr (fname h)); ("worker_config", worker_config); ("dataset", config d)])
    | PRepeat repeats d =>                                                      (* repeat_dataset.py:111-117 *)
        CDict [("type", CStr "RepeatDataset"); ("dataset", config d); ("repeats", copt (option_map cnat repeats));
               ("worker_config", worker_config)]
    | PEpochize len d =>                                                        (* epochize_dataset.py:133-139 *)
        CDict [("type", CStr "EpochizeDataset"); ("dataset", config d); ("length", cnat len); ("worker_config", worker_config)]
    | PLimit len reset d =>                                                     (* limit_dataset.py:138-145 *)
        CDict [("type", CStr "LimitDataset"); ("dataset", config d); ("length", cnat len); ("reset_after_epoch", CBool reset);
               ("worker_config", worker_config)]
    | PBlend ds =>                                                              (* blend_dataset.py:149-156; the tuples as lists *)
        CDict [("type", CStr "BlendDataset");
               ("dataset_weights", CList (map (fun dw => CList [config (fst dw); CFloat (snd dw)]) ds));
               ("worker_config", worker_config)]
    | PConcat ds =>                                                             (* concat_dataset.py:110-114 *)
        CDict [("type", CStr "ConcatDataset"); ("datasets", CList (map config ds))]
    | PGc _ d => config d                                                       (* gc_dataset.py:119-121 *)
    | PLog _ d => config d                                                      (* log_sample_dataset.py:135-137 *)
    end.
End WithWorkerConfig.

(** savable_loader.py:1021-1031 (SavableDataLoader) and 1173-1183 (BasicDataLoader); the dataset wrapper's config is the dataset's
    (142-143, 593-594) *)
Record lconf := mkLconf { lc_savable : bool; lc_persistent : bool; lc_pin : bool; lc_prefetch : nat }.
Definition loader_config (l : lconf) (wc : wconf) (p : pipe) : conf :=
  CDict [("type", CStr (if lc_savable l then "SavableDataLoader" else "BasicDataLoader"));
         ("num_workers", cnat (wc_workers wc)); ("persistent_workers", CBool (lc_persistent l)); ("pin_memory", CBool (lc_pin l));
         ("prefetch_factor", if wc_workers wc =? 0 then CNone else cnat (lc_prefetch l)); ("dataset", config wc p)].

(** ** the datasets that the constructors build *)
Section Denote.
  Context {V K : Type} (keq : K -> K -> bool).

  (** What the callables do (given the error handler they run under), what the files contain (given exclude, part_filter, handler and
      the paths), and the generators that WorkerRng seeds (worker.py:204-223: from rank, num_workers and seed_offset) *)
  Record env := mkEnv {
    e_map : nat -> nat -> ufn V V;
    e_iter : nat -> nat -> iterfn V V;
    e_filter : nat -> nat -> nat -> V -> result bool;
    e_batch : nat -> nat -> ufn (list V) V;
    e_key : nat -> nat -> nat -> nat -> V -> ures (K * option nat);
    e_group : nat -> nat -> nat -> nat -> list V -> ures V;
    e_pre : nat -> nat -> nat -> nat -> list (sample V) -> ures (list (list (sample V)));
    e_final : nat -> nat -> ufn (list V) V;
    e_content : list string -> nat -> nat -> list (list (list string)) -> shseq -> list (sample V);
    e_restore : list string -> nat -> nat -> list (list (list string)) -> nat -> rkey -> result (sample V);
    e_rng : nat -> nat -> nat -> rng_ops }.

  Definition infos (shards : list (list (cshard * list cshard))) : list (list shseq) :=
    map (map (fun s => (cs_info (fst s), map cs_info (snd s)))) shards.
  Definition paths (shards : list (list (cshard * list cshard))) : list (list (list string)) :=
    map (map (fun s => map cs_path (fst s :: snd s))) shards.

  Variables (E : env) (wc : wconf).

  (** max(num_workers, 1) *)
  Definition nworkers : nat := Nat.max (wc_workers wc) 1.
  Definition gen : rng_ops := e_rng E (wc_rank wc) (wc_workers wc) (wc_seed wc).

  (** worker_has_samples(): sample_loader.py:510-511, base.py:122-123, limit_dataset.py:114-115, blend_dataset.py:97-98,
      concat_dataset.py:62-63 *)
  Fixpoint has_samples (p : pipe) (w : nat) : bool :=
    match p with
    | PLoad shards _ _ _ _ _ _ => 0 <? length (nth w shards [])
    | PMap _ _ _ _ d | PIterMap _ _ _ _ _ d | PFilter _ _ d | PShuffle _ d | PBatch _ _ _ _ _ _ d | PGroup _ _ _ _ _ _ _ d
    | PPack _ _ _ _ _ _ d | PRepeat _ d | PEpochize _ d | PGc _ d | PLog _ d => has_samples d w
    | PLimit len _ d => has_samples d w && (0 <? len)
    | PBlend ds => existsb (fun h => h w) (map (fun dw => has_samples (fst dw)) ds)
    | PConcat ds => existsb (fun h => h w) (map has_samples ds)
    end.

  Fixpoint denote (p : pipe) : dataset V :=
    match p with
    | PLoad shards exclude loop shuffle par pf h =>
        loader_ds gen (infos shards) (e_content E exclude pf h (paths shards)) par shuffle loop (e_restore E exclude pf h (paths shards))
    | PMap f _ _ h d =>
        match e_map E (c_code f) (c_code h) with
        | Fn m => wrap (map_ds nworkers m) (denote d)
        | GenFn m => wrap (mapgen_ds nworkers m) (denote d)
        end
    | PIterMap f _ _ stateless h d => wrap (itermap_ds nworkers (e_iter E (c_code f) (c_code h)) stateless) (denote d)
    | PFilter f _ d => wrap (filter_ds nworkers (e_filter E (c_code f))) (denote d)
    | PShuffle size d => wrap (shuffle_buffer gen nworkers size) (denote d)
    | PBatch size f _ _ drop_last h d =>
        match e_batch E (c_code f) (c_code h) with
        | Fn m => wrap (batch_ds nworkers size drop_last m) (denote d)
        | GenFn m => wrap (batchgen_ds nworkers size drop_last m) (denote d)
        end
    | PGroup fixed key f _ _ drop_last h d =>
        wrap (groupbatch_ds keq nworkers fixed drop_last false (e_key E (c_code key) (c_code h)) (e_group E (c_code f) (c_code h))) (denote d)
    | PPack size pre final _ _ h d =>
        match e_final E (c_code final) (c_code h) with
        | Fn m => wrap (pack_ds nworkers size (e_pre E (c_code pre) (c_code h)) m) (denote d)
        | GenFn m => wrap (packgen_ds nworkers size (e_pre E (c_code pre) (c_code h)) m) (denote d)
        end
    | PRepeat repeats d => wrap (repeat_ds nworkers repeats (has_samples d)) (denote d)
    | PEpochize len d => wrap (epochize_ds nworkers len) (denote d)
    | PLimit len _ d => wrap (limit_ds nworkers len) (denote d)
    | PBlend ds =>
        let Ds := map (fun dw => denote (fst dw)) ds in
        blend_ds gen (length ds) (fun i => nth i Ds (list_ds [])) (fun i => nth i (map snd ds) 0%Q)
          (fun i => nth i (map (fun dw => has_samples (fst dw)) ds) (fun _ => false))
    | PConcat ds => let Ds := map denote ds in concat_ds (length ds) (fun i => nth i Ds (list_ds []))
    | PGc n d => wrap (gc_ds true n) (denote d)
    | PLog _ d => wrap (log_ds nworkers) (denote d)
    end.
End Denote.

(** single_shard_reader.py:65-71: a reader fills in the byte range of the shard it opens, in the ShardInfo object itself, which is the
    one in the dataset's [shards] ([offset_of path n]: the file offset of sample [n]); sample_loader.py:682-685 does the same on restore *)
Definition opened (offset_of : string -> Z -> Z) (s : cshard) : cshard :=
  let bo := match cs_boff s with Some b => b | None => offset_of (cs_path s) (sh_offset (cs_info s)) end in
  let bs := match cs_bsize s with
            | Some b => b
            | None => (offset_of (cs_path s) (sh_offset (cs_info s) + sh_count (cs_info s)) - bo)%Z
            end in
  mkCshard (cs_info s) (cs_path s) (Some bo) (Some bs).

(** all shards of worker [w] opened *)
Definition open_worker (offset_of : string -> Z -> Z) (w : nat) (shards : list (list (cshard * list cshard))) : list (list (cshard * list cshard)) :=
  upd shards w (map (fun s => (opened offset_of (fst s), map (opened offset_of) (snd s))) (nth w shards [])).
