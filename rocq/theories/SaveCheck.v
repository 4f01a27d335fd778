(** Model of can_restore_sample(), assert_can_restore() and of the assertion in save_state(), over the constructor calls of
    Config.v. *)
From Verif Require Import Base Dataset Config.

(** can_restore_sample(): sample_loader.py:548-549, map_dataset.py:228-229, iter_map_dataset.py:169-170, batch_dataset.py:260-263,
    group_batch_dataset.py:286-287, packing_dataset.py:323-326, blend_dataset.py:131-132, concat_dataset.py:92-93, all others
    base.py:113-114 *)
Fixpoint can_restore (p : pipe) : bool :=
  match p with
  | PLoad _ _ _ _ _ _ _ => true
  | PMap _ _ stateless _ d | PIterMap _ _ _ stateless _ d | PBatch _ _ _ stateless _ _ d | PGroup _ _ _ _ stateless _ _ d
  | PPack _ _ _ _ stateless _ d => stateless && can_restore d
  | PFilter _ _ d | PShuffle _ d | PRepeat _ d | PEpochize _ d | PLimit _ _ d | PGc _ d | PLog _ d => can_restore d
  | PBlend ds => forallb (fun b => b) (map (fun dw => can_restore (fst dw)) ds)
  | PConcat ds => forallb (fun b => b) (map can_restore ds)
  end.

(** assert_can_restore(): sample_loader.py:551-552, map_dataset.py:231-235, iter_map_dataset.py:172-176, batch_dataset.py:265-269,
    group_batch_dataset.py:289-293, packing_dataset.py:328-332, blend_dataset.py:134-136, concat_dataset.py:95-97, all others
    base.py:116-117 *)
Fixpoint assert_can_restore (p : pipe) : result unit :=
  match p with
  | PLoad _ _ _ _ _ _ _ => Ok tt
  | PMap _ _ stateless _ d | PIterMap _ _ _ stateless _ d | PBatch _ _ _ stateless _ _ d | PGroup _ _ _ _ stateless _ _ d
  | PPack _ _ _ _ stateless _ d => if stateless then assert_can_restore d else Err AssertionError
  | PFilter _ _ d | PShuffle _ d | PRepeat _ d | PEpochize _ d | PLimit _ _ d | PGc _ d | PLog _ d => assert_can_restore d
  | PBlend ds => fold_left (fun r x => bind r (fun _ => x)) (map (fun dw => assert_can_restore (fst dw)) ds) (Ok tt)
  | PConcat ds => fold_left (fun r x => bind r (fun _ => x)) (map assert_can_restore ds) (Ok tt)
  end.

(** save_state(): whether it raises.  Every dataset saves its inner dataset first (base.py:81-85); a SavableSampleBuffer then
    calls assert_can_restore() of the dataset it buffers (buffer.py:121-125): ShuffleBufferDataset (shuffle_buffer_dataset.py:76-81)
    and PackingDataset (packing_dataset.py:276-286) have one or two, GroupBatchDataset one per group seen so far
    (group_batch_dataset.py:216-234).  [seen]: whether the grouping datasets of the worker have seen a sample since their last
    epoch end. *)
Fixpoint save_check (seen : bool) (p : pipe) : result unit :=
  match p with
  | PLoad _ _ _ _ _ _ _ => Ok tt
  | PMap _ _ _ _ d | PIterMap _ _ _ _ _ d | PFilter _ _ d | PBatch _ _ _ _ _ _ d | PRepeat _ d | PEpochize _ d | PLimit _ _ d
  | PGc _ d | PLog _ d => save_check seen d
  | PShuffle _ d | PPack _ _ _ _ _ _ d => bind (save_check seen d) (fun _ => assert_can_restore d)
  | PGroup _ _ _ _ _ _ _ d => bind (save_check seen d) (fun _ => if seen then assert_can_restore d else Ok tt)
  | PBlend ds => fold_left (fun r x => bind r (fun _ => x)) (map (fun dw => save_check seen (fst dw)) ds) (Ok tt)
  | PConcat ds => fold_left (fun r x => bind r (fun _ => x)) (map (save_check seen) ds) (Ok tt)
  end.
