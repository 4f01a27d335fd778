(** Models of metadataset/metadataset.py, metadataset_v2.py, dataset_loader.py,
    join_dataset_loader.py and dataset_config.py:55-115: how nested metadatasets resolve to leaf
    datasets with weights and settings.

    Simplifications: weights are rationals instead of floats; subflavors values are numbers; the
    files are already parsed into the tree [meta]; keyword arguments that are only passed through
    (training, worker_config, ...) are left out. *)
From Coq Require Import String QArith.
From Verif Require Import Base.
Local Close Scope Q_scope.
Local Open Scope nat_scope.

Definition dict := list (string * nat).

Fixpoint d_get (k : string) (d : dict) : option nat :=
  match d with [] => None | (k', v) :: d' => if String.eqb k k' then Some v else d_get k d' end.

(** {**a, **b}: looking up finds b's entry first *)
Definition d_merge (a b : dict) : dict := b ++ filter (fun kv => match d_get (fst kv) b with None => true | _ => false end) a.

(** x or y, for strings that may be None *)
Definition s_or (x y : option string) : option string :=
  match x with Some EmptyString | None => y | _ => x end.

(** {**a, **(b or {})} if a is not None else b *)
Definition sf_merge (a b : option dict) : option dict :=
  match a with
  | None => b
  | Some d => Some (d_merge d (match b with Some e => e | None => [] end))
  end.

(** what one level of nesting can set *)
Record settings := mkSet {
  s_split : option string;
  s_subflavor : option string;
  s_subflavors : option dict;
  s_mult : Z                      (* shuffle_over_epochs_multiplier *)
}.

(** the arguments of get_datasets *)
Record args := mkArgs {
  a_split : string;
  a_subflavor : option string;
  a_subflavors : option dict;
  a_mult : Z
}.

(** a prepared dataset directory: what its dataset.yaml says *)
Record dsconfig := mkCfg {
  c_path : string;
  c_split : option string;
  c_subflavor : option string;
  c_subflavors : option dict;
  c_shuffle : option Z            (* shuffle_over_epochs *)
}.

(** DatasetLoader (dataset_loader.py:14-24) on a directory *)
Record loader := mkLoader { l_set : settings; l_cfg : dsconfig }.

(** an instantiated dataset factory *)
Record leaf := mkLeaf {
  f_path : string;
  f_split : string;
  f_subflavor : option string;
  f_subflavors : option dict;
  f_shuffle : Z
}.

Inductive core := CSingle (l : leaf) | CJoin (ls : list leaf) (shuffle : Z).

Inductive meta :=
| MLoader (l : loader)                         (* DatasetLoader *)
| MRef (s : settings) (m : meta)               (* DatasetReference with its _dataset *)
| MBlend (l : list (Q * meta))                 (* MetadatasetBlender / MetadatasetBlend *)
| MSplits (l : list (string * meta))           (* Metadataset / MetadatasetV2 *)
| MJoin (s : settings) (ls : list loader).     (* MetadatasetJoin with its JoinDatasetLoader *)

(** dataset_config.py:93-110: default_kwargs are overridden by the file; subflavors the other way *)
Definition from_config (c : dsconfig) (split : string) (sf : option string) (sfs : option dict) (shuffle : Z) : leaf :=
  mkLeaf (c_path c)
    (match c_split c with Some x => x | None => split end)
    (match c_subflavor c with Some x => Some x | None => sf end)
    (match c_subflavors c with
     | None => sfs
     | Some d => match sfs with Some e => Some (d_merge d e) | None => Some d end
     end)
    (match c_shuffle c with Some z => z | None => shuffle end).

(** dataset_loader.py:52-76 get_dataset *)
Definition get_dataset (l : loader) (a : args) : leaf :=
  let s := l_set l in
  from_config (l_cfg l)
    (match s_split s with Some x => x | None => a_split a end)
    (match a_subflavor a with Some x => Some x | None => s_subflavor s end)
    (sf_merge (s_subflavors s) (a_subflavors a))
    (a_mult a).

(** metadataset.py:66-80 DatasetReference.get_datasets: the arguments passed on *)
Definition ref_args (s : settings) (a : args) : args :=
  mkArgs (match s_or (s_split s) None with Some x => x | None => a_split a end)
         (s_or (a_subflavor a) (s_subflavor s))
         (sf_merge (s_subflavors s) (a_subflavors a))
         (a_mult a * s_mult s).

(** join_dataset_loader.py:59-115: the joined datasets; the join's own multiplier is not used *)
Definition join_args (s : settings) (a : args) : args :=
  mkArgs (match s_split s with Some x => x | None => a_split a end)
         (match a_subflavor a with Some x => Some x | None => s_subflavor s end)
         (sf_merge (s_subflavors s) (a_subflavors a))
         (a_mult a).

Definition qsum (l : list Q) : Q := fold_right Qplus 0%Q l.

(** metadataset.py:104-118: scaling the weights of one blended dataset *)
Definition scale (dw total : Q) (ds : list (core * Q)) : result (list (core * Q)) :=
  match ds with
  | [] => Ok []
  | _ => if Qeq_bool total 0 then Err ZeroDivisionError
         else Ok (map (fun cw => (fst cw, (snd cw * dw / total)%Q)) ds)
  end.

Fixpoint get_datasets (m : meta) (a : args) : result (list (core * Q)) :=
  match m with
  | MLoader l => Ok [(CSingle (get_dataset l a), 1%Q)]
  | MRef s m' => get_datasets m' (ref_args s a)
  | MBlend l =>
      let total := qsum (map fst l) in
      (fix go (l : list (Q * meta)) : result (list (core * Q)) :=
         match l with
         | [] => Ok []
         | (dw, m') :: l' =>
             bind (get_datasets m' a) (fun ds => bind (scale dw total ds) (fun ds' =>
             bind (go l') (fun r => Ok (ds' ++ r))))
         end) l
  | MSplits l =>
      (fix find (l : list (string * meta)) : result (list (core * Q)) :=
         match l with
         | [] => Err KeyError
         | (k, m') :: l' => if String.eqb (a_split a) k then get_datasets m' a else find l'
         end) l
  | MJoin s ls => Ok [(CJoin (map (fun l => get_dataset l (join_args s a)) ls) (a_mult a), 1%Q)]
  end.
