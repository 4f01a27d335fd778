(** Specification for C65: what it means that two pipelines "have the same settings", independently of how config() records them. *)
From Coq Require Import String QArith.
From Verif Require Import Base Sharder SampleLoader Config.
Local Close Scope Q_scope.
Local Close Scope Z_scope.
Local Open Scope nat_scope.

(** the value that the user attached to a function to describe its settings; an empty value counts as none *)
Definition described (a : cfgarg) : option conf :=
  match a with
  | NoConfig => None
  | ConfigValue c => if truthy c then Some c else None
  | ConfigFn c => Some c
  end.

(** [same_settings p q]: built by the same constructors, with the same sizes, lengths, flags, weights and shards, and with functions of
    the same name and description; GcDataset and LogSampleDataset may be added or left out anywhere. *)
Inductive same_settings : pipe -> pipe -> Prop :=
| ss_load shards exclude loop shuffle par pf h pf' h' :
    same_settings (PLoad shards exclude loop shuffle par pf h) (PLoad shards exclude loop shuffle par pf' h')
| ss_map f f' fc fc' st h h' d d' : fname f = fname f' -> described fc = described fc' -> same_settings d d' ->
    same_settings (PMap f fc st h d) (PMap f' fc' st h' d')
| ss_itermap f f' fc fc' l l' st st' h h' d d' :
    fname f = fname f' -> described fc = described fc' -> fname l = fname l' -> fname h = fname h' -> same_settings d d' ->
    same_settings (PIterMap f fc l st h d) (PIterMap f' fc' l' st' h' d')
| ss_filter f f' fc fc' d d' : fname f = fname f' -> described fc = described fc' -> same_settings d d' ->
    same_settings (PFilter f fc d) (PFilter f' fc' d')
| ss_shuffle size d d' : same_settings d d' -> same_settings (PShuffle size d) (PShuffle size d')
| ss_batch size f f' fc fc' st drop h h' d d' :
    fname f = fname f' -> described fc = described fc' -> fname h = fname h' -> same_settings d d' ->
    same_settings (PBatch size f fc st drop h d) (PBatch size f' fc' st drop h' d')
| ss_group fixed fixed' k k' f f' fc fc' st drop h h' d d' :
    fname k = fname k' -> fname f = fname f' -> described fc = described fc' -> fname h = fname h' -> same_settings d d' ->
    same_settings (PGroup fixed k f fc st drop h d) (PGroup fixed' k' f' fc' st drop h' d')
| ss_pack size pre pre' f f' fc fc' st h h' d d' :
    fname pre = fname pre' -> fname f = fname f' -> described fc = described fc' -> fname h = fname h' -> same_settings d d' ->
    same_settings (PPack size pre f fc st h d) (PPack size pre' f' fc' st h' d')
| ss_repeat r d d' : same_settings d d' -> same_settings (PRepeat r d) (PRepeat r d')
| ss_epochize len d d' : same_settings d d' -> same_settings (PEpochize len d) (PEpochize len d')
| ss_limit len r d d' : same_settings d d' -> same_settings (PLimit len r d) (PLimit len r d')
| ss_blend ds ds' : same_weighted ds ds' -> same_settings (PBlend ds) (PBlend ds')
| ss_concat ds ds' : same_all ds ds' -> same_settings (PConcat ds) (PConcat ds')
| ss_gc_l n d q : same_settings d q -> same_settings (PGc n d) q
| ss_gc_r n p d : same_settings p d -> same_settings p (PGc n d)
| ss_log_l n d q : same_settings d q -> same_settings (PLog n d) q
| ss_log_r n p d : same_settings p d -> same_settings p (PLog n d)
with same_all : list pipe -> list pipe -> Prop :=
| sa_nil : same_all [] []
| sa_cons d d' ds ds' : same_settings d d' -> same_all ds ds' -> same_all (d :: ds) (d' :: ds')
with same_weighted : list (pipe * Q) -> list (pipe * Q) -> Prop :=
| sw_nil : same_weighted [] []
| sw_cons d d' x ds ds' : same_settings d d' -> same_weighted ds ds' -> same_weighted ((d, x) :: ds) ((d', x) :: ds').

(** the same rank of the same world, with the same number of workers, and groups of the same size *)
Definition same_workers (a b : wconf) : Prop :=
  wc_rank a = wc_rank b /\ wc_world a = wc_world b /\ wc_workers a = wc_workers b /\
  option_map snd (wc_group a) = option_map snd (wc_group b).

(** the same settings of the data loader; without workers there is no prefetching *)
Definition same_loader (a b : lconf) (workers : nat) : Prop :=
  lc_savable a = lc_savable b /\ lc_persistent a = lc_persistent b /\ lc_pin a = lc_pin b /\
  (workers = 0 \/ lc_prefetch a = lc_prefetch b).

(** the pipeline reads something: no ConcatDataset of nothing at the bottom of it *)
Fixpoint reads (p : pipe) : Prop :=
  match p with
  | PLoad _ _ _ _ _ _ _ | PBlend _ => True
  | PMap _ _ _ _ d | PIterMap _ _ _ _ _ d | PFilter _ _ d | PShuffle _ d | PBatch _ _ _ _ _ _ d | PGroup _ _ _ _ _ _ _ d
  | PPack _ _ _ _ _ _ d | PRepeat _ d | PEpochize _ d | PLimit _ _ d | PGc _ d | PLog _ d => reads d
  | PConcat ds => match ds with [] => False | d :: _ => reads d end
  end.

(** ** what a user needs beyond equal configs *)

(** settings that say something about the samples: constructor arguments that are not part of "the same settings" above *)
Inductive hid := Hid (own : list (option nat)) (inner : list hid).
Fixpoint hidden (p : pipe) : hid :=
  match p with
  | PLoad _ _ _ _ _ pf h => Hid [Some pf; Some h] []                       (* part_filter, handler *)
  | PMap _ _ _ h d => Hid [Some (c_code h)] [hidden d]                     (* error_handler *)
  | PIterMap _ _ _ st _ d => Hid [Some (if st then 1 else 0)] [hidden d]   (* stateless_iter_fn *)
  | PGroup fixed _ _ _ _ _ _ d => Hid [fixed] [hidden d]                   (* fixed_batch_size *)
  | PFilter _ _ d | PShuffle _ d | PBatch _ _ _ _ _ _ d | PPack _ _ _ _ _ _ d | PRepeat _ d | PEpochize _ d | PLimit _ _ d
  | PGc _ d | PLog _ d => Hid [] [hidden d]
  | PBlend ds => Hid [] (map (fun dw => hidden (fst dw)) ds)
  | PConcat ds => Hid [] (map hidden ds)
  end.

(** the functions that are identified by name and description *)
Definition used : Type := (string * option conf * nat)%type.
Fixpoint functions (p : pipe) : list used :=
  match p with
  | PLoad _ _ _ _ _ _ _ => []
  | PMap f fc _ _ d => (fname f, described fc, c_code f) :: functions d
  | PIterMap f fc _ _ h d => (fname f, described fc, c_code f) :: (fname h, None, c_code h) :: functions d
  | PFilter f fc d => (fname f, described fc, c_code f) :: functions d
  | PBatch _ f fc _ _ h d => (fname f, described fc, c_code f) :: (fname h, None, c_code h) :: functions d
  | PGroup _ k f fc _ _ h d =>
      (fname k, None, c_code k) :: (fname f, described fc, c_code f) :: (fname h, None, c_code h) :: functions d
  | PPack _ pre f fc _ h d =>
      (fname pre, described fc, c_code pre) :: (fname f, described fc, c_code f) :: (fname h, None, c_code h) :: functions d
  | PShuffle _ d | PRepeat _ d | PEpochize _ d | PLimit _ _ d | PGc _ d | PLog _ d => functions d
  | PBlend ds => flat_map (fun dw => functions (fst dw)) ds
  | PConcat ds => flat_map functions ds
  end.

(** a name and a description stand for one function only *)
Definition honest (p q : pipe) : Prop :=
  forall n c k k', In (n, c, k) (functions p) -> In (n, c, k') (functions q) -> k = k'.

(** no GcDataset, no LogSampleDataset *)
Fixpoint bare (p : pipe) : Prop :=
  match p with
  | PLoad _ _ _ _ _ _ _ => True
  | PMap _ _ _ _ d | PIterMap _ _ _ _ _ d | PFilter _ _ d | PShuffle _ d | PBatch _ _ _ _ _ _ d | PGroup _ _ _ _ _ _ _ d
  | PPack _ _ _ _ _ _ d | PRepeat _ d | PEpochize _ d | PLimit _ _ d => bare d
  | PBlend ds => fold_right (fun dw P => bare (fst dw) /\ P) True ds
  | PConcat ds => fold_right (fun d P => bare d /\ P) True ds
  | PGc _ _ | PLog _ _ => False
  end.

(** the pipeline without the GcDatasets and LogSampleDatasets around it (the task encoder and the data loader put them on top:
    task_encoder/base.py:554, 600, savable_loader.py:712, 1063) *)
Fixpoint core (p : pipe) : pipe :=
  match p with
  | PGc _ d | PLog _ d => core d
  | _ => p
  end.
