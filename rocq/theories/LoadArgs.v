(** Model of how arguments and file names reach the datasets (C61): task_encoder/loader.py:16-36 (_split_kwargs), 85-93, 149-152 and
    208-211 (get_train_dataset, get_val_dataset(s)), metadataset/loader.py, metadataset/dataset_loader.py, join_dataset_loader.py,
    metadataset.py, metadataset_v2.py (prepare and get_datasets) and dataset_config.py:21-54, 90-104; loader.py:43-58 and worker.py:126-136.

    Simplifications: a path in a file is replaced by what it refers to (a tree, so a metadataset that refers to itself is left out).
    Weights, multipliers and subflavors are in Meta.v (C41, C42); their arguments are left out here.  A class named in dataset.yaml is the names of its parameters; that the
    required ones are given and that the values have the annotated types is left out (C54). *)
From Coq Require Import String.
From Verif Require Import Base.
Local Open Scope string_scope.
Local Open Scope list_scope.
Local Open Scope nat_scope.

(** [VOther]: a value that is not looked at here *)
Inductive val := VNone | VStr (s : string) | VNum (n : nat) | VBool (b : bool) | VOther.
(** keyword arguments; the first entry for a name counts *)
Definition kw := list (string * val).
Fixpoint kget (k : string) (d : kw) : option val :=
  match d with [] => None | (k', v) :: d' => if String.eqb k' k then Some v else kget k d' end.
Definition has (k : string) (d : kw) : bool := match kget k d with Some _ => true | None => false end.
(** new = a.copy(); new.update(b) *)
Definition updated (a b : kw) : kw := b ++ filter (fun p => negb (has (fst p) b)) a.
Definition one_of (names : list string) (k : string) : bool := existsb (String.eqb k) names.

(** a configuration file in .nv-meta: what it sets, and the parameters of the class it names *)
Record dsfile := mkFile { fl_sets : kw; fl_params : list string }.
(** a prepared dataset: its path and its configuration files by name *)
Record dir := mkDir { d_path : string; d_file : string -> option dsfile }.

(** what a reference in a metadataset sets: metadataset.py:17-28, metadataset_v2.py:17-26, 100-110 *)
Record refset := mkRef { r_split : option string; r_subflavor : option string; r_dataset_config : string; r_split_config : string }.
Definition dataset_yaml := "dataset.yaml".
Definition split_yaml := "split.yaml".

(** what a path refers to *)
Inductive node :=
| NMissing
| NDir (d : dir)
| NFile (splits : list (string * node))          (* Metadataset, MetadatasetV2 *)
| NBlend (l : list node)                         (* MetadatasetBlender, MetadatasetBlend *)
| NRef (r : refset) (n : node)                   (* DatasetReference *)
| NJoin (r : refset) (l : list (refset * node)). (* MetadatasetJoin of JoinDatasetReference *)

(** ** prepare: for all splits, also those that are not asked for *)
(** metadataset_v2.py:82-98 *)
Definition prepare_joined (rn : refset * node) : result unit :=
  match snd rn with NDir _ => Ok tt | _ => Err OtherError end.     (* FileNotFoundError *)

(** metadataset.py:30-53, 85-88, 130-134; metadataset_v2.py:28-51, 113-140, 181-184, 217-222 *)
Fixpoint prepare (n : node) : result unit :=
  match n with
  | NMissing => Err OtherError
  | NDir _ => Ok tt
  | NFile l => (fix all (l : list (string * node)) : result unit :=
                  match l with [] => Ok tt | (_, n') :: l' => bind (prepare n') (fun _ => all l') end) l
  | NBlend l => (fix all (l : list node) : result unit :=
                   match l with [] => Ok tt | n' :: l' => bind (prepare n') (fun _ => all l') end) l
  | NRef r n' =>
      match n' with
      | NFile _ => if String.eqb (r_dataset_config r) dataset_yaml && String.eqb (r_split_config r) split_yaml then prepare n' else Err AssertionError
      | _ => prepare n'
      end
  | NJoin r l => if String.eqb (r_dataset_config r) dataset_yaml
                 then bind (sequence (map prepare_joined l)) (fun _ => Ok tt) else Err AssertionError
  end.

(** ** get_datasets *)
(** the arguments that are passed down *)
Record args := mkArgs { a_training : bool; a_split : string; a_subflavor : option string; a_kw : kw }.

Record leaf := mkLeaf { lf_path : string; lf_args : kw }.
Inductive core := CSingle (l : leaf) | CJoin (ls : list leaf) (jargs : kw).

Definition vopt (x : option string) : val := match x with Some s => VStr s | None => VNone end.

(** dataset_config.py:60-104: the file's settings override the given ones; strict.  sample_type is a parameter of its own there, for a check *)
Definition from_config (d : dir) (dataset_config : string) (given : kw) : result leaf :=
  match d_file d dataset_config with
  | None => Err OtherError                                          (* FileNotFoundError *)
  | Some f =>
      let data := updated (filter (fun p => negb (String.eqb (fst p) "sample_type")) given) (fl_sets f) in
      if forallb (one_of (fl_params f)) (map fst data) then Ok (mkLeaf (d_path d) data) else Err ValueError
  end.

(** dataset_loader.py:52-83 (get_dataset of the DatasetLoader with the settings [r]); [sc]: the argument split_config *)
Definition get_dataset (r : refset) (d : dir) (a : args) (sc : option string) : result leaf :=
  let split := match r_split r with Some x => x | None => a_split a end in
  let sub := match a_subflavor a with Some x => Some x | None => r_subflavor r end in
  let split_config := match sc with Some x => x | None => r_split_config r end in
  from_config d (r_dataset_config r)
    ([("path", VStr (d_path d)); ("split_config", VStr split_config); ("split_part", VStr split); ("training", VBool (a_training a));
      ("subflavor", vopt sub); ("worker_config", VOther); ("shuffle_over_epochs", VOther)] ++ a_kw a).

Definition s_or (x y : option string) : option string := match x with Some EmptyString | None => y | _ => x end.
(** metadataset.py:66-80 *)
Definition ref_args (r : refset) (a : args) : args :=
  mkArgs (a_training a) (match s_or (r_split r) None with Some x => x | None => a_split a end) (s_or (a_subflavor a) (r_subflavor r)) (a_kw a).
(** join_dataset_loader.py:59-68 *)
Definition join_args (r : refset) (a : args) : args :=
  mkArgs (a_training a) (match r_split r with Some x => x | None => a_split a end)
    (match a_subflavor a with Some x => Some x | None => r_subflavor r end) (a_kw a).

(** joined_webdataset.py:61-73: the arguments of a join that can be passed through *)
Definition join_params : list string := ["parallel_shard_iters"; "max_samples_per_sequence"; "part_filter"; "handler"].

Fixpoint get_datasets (n : node) (a : args) : result (list core) :=
  match n with
  | NMissing | NDir _ => Err OtherError                              (* not after prepare *)
  | NFile l =>
      (fix find (l : list (string * node)) : result (list core) :=
         match l with
         | [] => Err KeyError
         | (k, n') :: l' => if String.eqb (a_split a) k then get_datasets n' a else find l'
         end) l
  | NBlend l =>
      (fix go (l : list node) : result (list core) :=
         match l with
         | [] => Ok []
         | n' :: l' => bind (get_datasets n' a) (fun ds => bind (go l') (fun r => Ok (ds ++ r)))
         end) l
  | NRef r n' =>
      match n' with
      | NDir d => bind (get_dataset r d (ref_args r a) None) (fun lf => Ok [CSingle lf])
      | _ => get_datasets n' (ref_args r a)
      end
  | NJoin r l =>
      let a' := join_args r a in
      bind (sequence (map (fun rn => match snd rn with
                                     | NDir d => get_dataset (fst rn) d a' (Some (r_split_config r))
                                     | _ => Err OtherError
                                     end) l))
        (fun lfs => if forallb (one_of join_params) (map fst (a_kw a)) then Ok [CJoin lfs (a_kw a)] else Err TypeError)
  end.

(** ** get_train_dataset, get_val_dataset(s) *)
(** loader.py:16-34: the arguments for the loader, and the others *)
Definition loader_names : list string := ["split_part"; "subflavor"; "dataset_config"; "split_config"].
Definition split_kwargs (k : kw) : kw * kw :=
  (filter (fun p => one_of loader_names (fst p)) k, filter (fun p => negb (one_of loader_names (fst p))) k).

Definition str_arg (k : string) (d : kw) : option string := match kget k d with Some (VStr s) => Some s | _ => None end.

(** loader.py:85-93, 149-152; metadataset/loader.py.  [extra]: what the function itself passes on besides split part and worker config
    (max_samples_per_sequence and, not modelled here, the multiplier); a name given twice is a TypeError.  shuffle_over_epochs is
    passed on by every loader already. *)
Definition load (n : node) (training : bool) (split_part : string) (extra user : kw) : result (list core) :=
  let (lk, rest) := split_kwargs user in
  if existsb (one_of (["training"; "worker_config"; "shuffle_over_epochs"] ++ map fst extra)) (map fst rest) then Err TypeError
  else
    let a := mkArgs training split_part None (extra ++ rest) in
    match n with
    | NMissing => Err ValueError                                      (* no .info.yaml *)
    | NDir d =>                                                       (* DatasetLoader(path, double-star lk) *)
        bind (get_dataset (mkRef None (str_arg "subflavor" lk)
                (match str_arg "dataset_config" lk with Some x => x | None => dataset_yaml end)
                (match str_arg "split_config" lk with Some x => x | None => split_yaml end)) d a None) (fun lf => Ok [CSingle lf])
    | _ => match lk with
           | [] => bind (prepare n) (fun _ => get_datasets n a)
           | _ => Err ValueError                                       (* strict: Metadataset has no such parameter *)
           end
    end.

(** ** loader.py:43-58, 80-95 *)
(** worker.py:126-136; an object of another class is "equal": the result is an exception object, which counts as true *)
Record wcfg := mkW { w_rank : nat; w_world : nat; w_workers : nat; w_seed_offset : Z }.
Inductive pyobject := OConfig (w : wcfg) | OOther.
Definition wcfg_eq (w : wcfg) (x : pyobject) : bool :=
  match x with
  | OConfig w' => (w_rank w =? w_rank w') && (w_world w =? w_world w') && (w_workers w =? w_workers w')
  | OOther => true
  end.
(** the configuration the loader uses, or the exception; None: no worker_config given *)
Definition get_loader_config (ds : wcfg) (given : option pyobject) : result wcfg :=
  match given with
  | None => Ok ds
  | Some x => if wcfg_eq ds x then Ok ds else Err AssertionError
  end.
