(** Model of len(): what SavableDataset.__len__ returns for the webdataset loader and each of the wrappers, of __len__ of the dataset
    factories and of the data loaders.  Pipelines are those of Config.v.
    Simplifications: shard counts are not negative; the weights of a blend are exact (not rounded) and their sum is not 0. *)
From Coq Require Import String QArith Qround.
From Verif Require Import Base Dataset Sharder Batch Config.
Local Close Scope Q_scope.
Local Close Scope Z_scope.
Local Open Scope list_scope.
Local Open Scope nat_scope.

Definition qsum (l : list Q) : Q := fold_right Qplus 0%Q l.

Section Len.
  (** len_map_fn of an IterMapDataset, and worker_config.num_workers *)
  Variables (len_map : nat -> nat -> nat) (wc : wconf).

  Fixpoint pipe_len (p : pipe) : nat :=
    match p with
    | PLoad shards _ _ _ _ _ _ =>                                   (* sample_loader.py:510-513 *)
        list_sum (map (fun ws => list_sum (map (fun s => Z.to_nat (sh_count (cs_info (fst s)))) ws)) shards)
    | PMap _ _ _ _ d => pipe_len d                                  (* map_dataset.py:106-107 *)
    | PIterMap _ _ lenf _ _ d => len_map (c_code lenf) (pipe_len d) (* iter_map_dataset.py:102-103 *)
    | PFilter _ _ d => pipe_len d                                   (* filter_dataset.py:60-61 *)
    | PShuffle _ d => pipe_len d                                    (* shuffle_buffer_dataset.py:57-58 *)
    | PBatch size _ _ _ drop_last _ d =>                            (* batch_dataset.py:111-127, see Batch.v *)
        batch_len (nworkers wc) size drop_last (pipe_len d)
    | PGroup _ _ _ _ _ _ _ d => pipe_len d                          (* group_batch_dataset.py:141-143 *)
    | PPack _ _ _ _ _ _ d => pipe_len d                             (* packing_dataset.py:140-144 *)
    | PRepeat None d => pipe_len d                                  (* repeat_dataset.py:52-55 *)
    | PRepeat (Some n) d => pipe_len d * n
    | PEpochize len _ => len                                        (* epochize_dataset.py:110-111 *)
    | PLimit len _ d => Nat.min len (pipe_len d)                    (* limit_dataset.py:58-59 *)
    | PBlend ds =>                                                  (* blend_dataset.py:67-73 *)
        let total := qsum (map snd ds) in
        Z.to_nat (Qfloor (qsum (map (fun dw => inject_Z (Z.of_nat (pipe_len (fst dw))) * snd dw / total)%Q ds))) * length ds
    | PConcat ds => list_sum (map pipe_len ds)                      (* concat_dataset.py:50-51 *)
    | PGc _ d => pipe_len d                                         (* gc_dataset.py:94-95 *)
    | PLog _ d => pipe_len d                                        (* log_sample_dataset.py:89-90 *)
    end.

  (** savable_loader.py:81-82, 341-342: the dataset that a data loader iterates; torch's DataLoader.__len__ asks it (batch_size=None) *)
  Definition loader_len (p : pipe) : nat := pipe_len p.
End Len.

(** base_webdataset.py:115-116 and joined_webdataset.py:147-148: "the length of the dataset across all ranks" (base_dataset.py:380-383) *)
Definition factory_len (shards : list shseq) : nat := list_sum (map (fun s => Z.to_nat (count0 s)) shards).
