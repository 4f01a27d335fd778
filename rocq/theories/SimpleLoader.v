(** Model of SimpleSavableDatasetWrapper, savable_loader.py:63-140: the outermost dataset of a SavableDataLoader without worker
    processes (num_workers = 0) and of every BasicDataLoader (validation loaders).  It numbers the samples it passes on and
    puts ("SimpleSavableDatasetWrapper", global worker id, number) in front of their restore keys; its save_state, merge_states
    and restore_state (113-121) are those of the inner dataset: the numbers are not part of the state.

    [gid w]: global_worker_id of worker w in this rank (worker.py:184-200).
    Simplification: restore_state on a wrapper that is being iterated (119-121, 100-102: break and start over) is the restore of
    the framework, which always continues with a new iterator; worker_activate/deactivate are modelled in WorkerConfig.v. *)
From Coq Require Import String.
From Verif Require Import Base Dataset Wrap Wrappers.

Definition simple_ds {A} (nw : nat) (gid : nat -> nat) : trans A A :=
  {| t_obj := list nat; t_gen := unit; t_wst := unit; t_mst := unit; t_keep := false;
     t_init := repeat 0 nw;
     t_iter := tt;
     t_act := fun rs w o g =>
       Pull (fun r =>
         match r with
         | None => (o, tt, Done)
         | Some a => let i := nth w o 0 in
             (upd o w (S i), tt, Yield (mkS (pl a) (AStr "SimpleSavableDatasetWrapper" :: AInt (gid w) :: AInt i :: rk a)))
         end);
     t_save := fun w o => tt;
     t_merge := fun _ => tt;
     t_restore := fun m o => o;
     t_restore_sample := fun rs w key =>
       match key with
       | AStr id :: AInt g :: AInt i :: inner =>
           if String.eqb id "SimpleSavableDatasetWrapper"
           then bind (rs inner) (fun a => Ok (mkS (pl a) (AStr "SimpleSavableDatasetWrapper" :: AInt g :: AInt i :: rk a)))
           else Err AssertionError
       | _ => Err ValueError
       end |}.
