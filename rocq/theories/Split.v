(** Model of flavors/webdataset/metadata.py:19-71 (which shards and samples a split part contains), of
    base_webdataset.py:113-114 (__len__) and of the checks of joined_webdataset.py:118-141.

    [braceexpand] (third-party) is an arbitrary function: the names a pattern stands for, or an exception.  The YAML files are the
    dictionaries read from them (Typed.v: that they read back what preparation wrote, C53).  path / name is left out (Epath.v). *)
From Coq Require Import String Ascii.
From Verif Require Import Base Files Tar.
Local Open Scope string_scope.
Local Open Scope list_scope.
Local Open Scope nat_scope.

(** d[k] *)
Fixpoint lookup {V} (k : string) (d : list (string * V)) : option V :=
  match d with [] => None | (k', v) :: d' => if seqb k' k then Some v else lookup k d' end.
(** x in l *)
Definition mem (x : string) (l : list string) : bool := existsb (seqb x) l.

(** structs.py:16-21 WebdatasetSplits *)
Record splits := mkSplits { sp_parts : list (string * list string); sp_exclude : list string }.
(** metadata.py:18-23 WebdatasetMeta; a ShardInfo is (name, offset, count) *)
Record meta := mkMeta { mt_excludes : list string; mt_shards : list shard }.

Inductive meta_result := MOk (m : meta) | MEmpty (* EmptyDatasetError *) | MErr (e : exn).

Section FromConfig.
  Variable braceexpand : string -> result (list string).

  (** [x for p in l for x in braceexpand(p)] *)
  Definition expand (l : list string) : result (list string) :=
    bind (sequence (map braceexpand l)) (fun ll => Ok (concat ll)).

  (** metadata.py:60-70: the ShardInfo of a name; KeyError if .info.yaml has no count for it *)
  Definition shard_info (counts : list (string * nat)) (name : string) : result shard :=
    match lookup name counts with Some c => Ok (mkShard name 0 c) | None => Err KeyError end.

  (** metadata.py:25-71; [counts] = info.shard_counts *)
  Definition from_config (counts : list (string * nat)) (sp : splits) (part : string) : meta_result :=
    match lookup part (sp_parts sp) with
    | None => MErr AssertionError
    | Some patterns =>
        match expand (sp_exclude sp) with
        | Err e => MErr e
        | Ok excluded =>
            match expand patterns with
            | Err e => MErr e
            | Ok names =>
                let files := filter (fun n => negb (mem n excluded)) names in
                if List.length files =? 0 then MEmpty
                else match sequence (map (shard_info counts) files) with
                     | Err e => MErr e
                     | Ok shards => MOk (mkMeta (filter (has_char slash) excluded) shards)
                     end
            end
        end
    end.
End FromConfig.

(** base_webdataset.py:113-114 __len__; joined_webdataset.py:154-155 (of the first column) *)
Definition ds_len (m : meta) : nat := list_sum (map sh_count (mt_shards m)).

(** base_webdataset.py:159, single_shard_reader.py:140-141: whether the reader leaves out a sample *)
Definition reader_excludes (m : meta) (key : string) : bool := mem key (mt_excludes m).

(** sets of strings: equality of sample_excludes *)
Definition same_set (a b : list string) : bool := forallb (fun x => mem x b) a && forallb (fun x => mem x a) b.

(** joined_webdataset.py:118-141: the checks, and the rows of shards *)
Definition join_rows (first : meta) (rest : list meta) : result (list (list shard)) :=
  let n := List.length (mt_shards first) in
  if negb (forallb (fun m => List.length (mt_shards m) =? n) rest) then Err AssertionError
  else if negb (forallb (fun m => same_set (mt_excludes first) (mt_excludes m)) rest) then Err AssertionError
  else if negb (forallb (fun m => forallb (fun p => sh_count (fst p) =? sh_count (snd p))
                                     (combine (mt_shards m) (mt_shards first))) rest) then Err AssertionError
  else Ok (map (fun i => flat_map (fun m => match nth_error (mt_shards m) i with Some s => [s] | None => [] end) (first :: rest)) (seq 0 n)).
