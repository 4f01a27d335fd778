(** What arguments and file names a dataset is loaded with, independently of the loading code (C61). *)
From Coq Require Import String.
From Verif Require Import Base LoadArgs.
Local Open Scope string_scope.
Local Open Scope list_scope.
Local Open Scope nat_scope.

(** set, and not to the empty string *)
Definition set_str (x : option string) : option string := match x with Some EmptyString => None | _ => x end.
Definition or_else {A} (x : option A) (y : A) : A := match x with Some v => v | None => y end.
Fixpoint first_set {A} (l : list (option A)) : option A :=
  match l with [] => None | Some x :: _ => Some x | None :: l' => first_set l' end.

(** a dataset named in a metadataset: the split part and subflavor that hold where it is named, and how it is named *)
Inductive place :=
| PDir (split : string) (sub : option string) (r : refset) (d : dir)
| PJoin (split : string) (sub : option string) (r : refset) (l : list (refset * dir)).

(** [places split sub n ps]: asked for part [split] and subflavor [sub], [n] consists of the datasets [ps], in this order *)
Inductive places : string -> option string -> node -> list place -> Prop :=
| pl_file sp sub l n ps : find (fun kn => String.eqb sp (fst kn)) l = Some (sp, n) -> places sp sub n ps -> places sp sub (NFile l) ps
| pl_blend sp sub l ps : all_places sp sub l ps -> places sp sub (NBlend l) ps
| pl_dir sp sub r d :
    places sp sub (NRef r (NDir d)) [PDir (or_else (set_str (r_split r)) sp) (first_set [set_str sub; r_subflavor r]) r d]
| pl_ref sp sub r n ps : (forall d, n <> NDir d) ->
    places (or_else (set_str (r_split r)) sp) (first_set [set_str sub; r_subflavor r]) n ps -> places sp sub (NRef r n) ps
| pl_join sp sub r l : places sp sub (NJoin r (map (fun rd => (fst rd, NDir (snd rd))) l)) [PJoin sp sub r l]
with all_places : string -> option string -> list node -> list place -> Prop :=
| al_nil sp sub : all_places sp sub [] []
| al_cons sp sub n l ps qs : places sp sub n ps -> all_places sp sub l qs -> all_places sp sub (n :: l) (ps ++ qs).

(** [made d file values extra lf]: [lf] is made by the class named in [file] of [d], with the file's settings, where the file sets nothing
    with [values], where these say nothing with [extra], and with nothing else *)
Definition made (d : dir) (file : string) (values : list (string * val)) (extra : kw) (lf : leaf) : Prop :=
  exists f, d_file d file = Some f /\ lf_path lf = d_path d /\
    (forall k, kget k (lf_args lf) = first_set [kget k (fl_sets f); kget k values; if String.eqb k "sample_type" then None else kget k extra]) /\
    (forall k, kget k (lf_args lf) <> None -> In k (fl_params f)).

(** what the loader itself gives *)
Definition standard (d : dir) (training : bool) (split split_config : string) (sub : option string) : list (string * val) :=
  [("path", VStr (d_path d)); ("split_config", VStr split_config); ("split_part", VStr split); ("training", VBool training);
   ("subflavor", match sub with Some s => VStr s | None => VNone end); ("worker_config", VOther); ("shuffle_over_epochs", VOther)].

Definition built (training : bool) (extra : kw) (p : place) (c : core) : Prop :=
  match p, c with
  | PDir sp sub r d, CSingle lf =>
      made d (r_dataset_config r) (standard d training (or_else (r_split r) sp) (r_split_config r) (first_set [sub; r_subflavor r])) extra lf
  | PJoin sp sub r l, CJoin lfs jargs =>
      Forall2 (fun rd lf =>
        made (snd rd) (r_dataset_config (fst rd))
          (standard (snd rd) training (or_else (r_split (fst rd)) (or_else (r_split r) sp)) (r_split_config r)
             (first_set [sub; r_subflavor r; r_subflavor (fst rd)])) extra lf) l lfs /\
      jargs = extra
  | _, _ => False
  end.

(** the file is there and the class it names has all the parameters *)
Definition makeable (d : dir) (file : string) (extra : kw) : Prop :=
  exists f, d_file d file = Some f /\
    (forall k, In k (map fst (fl_sets f)) -> In k (fl_params f)) /\
    (forall k, In k ["path"; "split_config"; "split_part"; "training"; "subflavor"; "worker_config"; "shuffle_over_epochs"] -> In k (fl_params f)) /\
    (forall k, In k (map fst extra) -> k <> "sample_type" -> In k (fl_params f)).
Definition loadable (extra : kw) (p : place) : Prop :=
  match p with
  | PDir _ _ r d => makeable d (r_dataset_config r) extra
  | PJoin _ _ r l => (forall rd, In rd l -> makeable (snd rd) (r_dataset_config (fst rd)) extra) /\
      forall k, In k (map fst extra) -> In k ["parallel_shard_iters"; "max_samples_per_sequence"; "part_filter"; "handler"]
  end.

(** everything a metadataset file refers to, in whatever split, is there *)
Inductive complete : node -> Prop :=
| co_dir d : complete (NDir d)
| co_file l : (forall k n, In (k, n) l -> complete n) -> complete (NFile l)
| co_blend l : (forall n, In n l -> complete n) -> complete (NBlend l)
| co_ref r n : complete n ->
    (forall l, n = NFile l -> r_dataset_config r = "dataset.yaml" /\ r_split_config r = "split.yaml") -> complete (NRef r n)
| co_join r l : r_dataset_config r = "dataset.yaml" -> (forall r' n, In (r', n) l -> exists d, n = NDir d) -> complete (NJoin r l).
