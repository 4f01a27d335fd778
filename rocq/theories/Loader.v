(** Model of savable_loader.py: SavableDatasetWrapper (230-600), the worker side of the data loader.

    A worker process runs the wrapper's generator; between two yields the command thread may execute
    get_checkpoint (the lock is held while the generator runs).  [clk] is the outcome of the wall
    clock comparison in _store_checkpoint: any outcome is possible at any time.

    Simplifications: the saved global random states (torch, numpy, random) are not represented: the
    modelled datasets use the wrapped SystemRng only; logging; an exception escaping from the
    dataset ends the worker's generator ([Fail]; the final checkpoint is stored then, too). *)
From Coq Require Import String.
From Verif Require Import Base Dataset.
Local Open Scope nat_scope.

Section Worker.
  Context {P : Type} (D : dataset P).
  (** w: rank_worker_id; gid: global_worker_id; savable_loader.py:262-300 *)
  Variables (w gid : nat) (min_n n_cp : nat).

  (** savable_loader.py:190-205 SavableCheckpoint; cp_state = None only for the one made in __init__ *)
  Record checkpoint := mkCp { cp_state : option (ds_wst D); cp_index : nat }.

  (** k_in: the inner dataset and its running iterator; k_index: _sample_index; k_cps:
      _last_checkpoints; k_skip: _skip_samples[worker_id]; k_has: dataset_has_samples;
      k_lskip: last_was_skip *)
  Record wstate := mkWk {
    k_in : st D; k_index : nat; k_cps : list checkpoint; k_skip : nat; k_has : bool; k_lskip : bool }.

  Inductive wevent := Emit (i : nat) (a : sample P) | End | Fail (e : exn).

  (** savable_loader.py:428-457 _store_checkpoint; [o], [i]: dataset object and _sample_index now *)
  Definition last_index (cps : list checkpoint) : nat := cp_index (last cps (mkCp None 0)).
  Definition store_checkpoint (force clk : bool) (o : ds_obj D) (i : nat) (cps : list checkpoint) : list checkpoint :=
    if force || (clk && (last_index cps + min_n <=? i)) || (i <=? 1) then
      let cps' := cps ++ [mkCp (Some (ds_save D w o)) i] in
      if n_cp <? length cps' then tl cps' else cps'
    else cps.

  Definition add_key (i : nat) (a : sample P) : sample P :=
    mkS (pl a) (AStr "SavableDatasetWrapper" :: AInt gid :: AInt i :: rk a).

  (** savable_loader.py:353-426 __iter__: one request for a sample. [wnext s e s']: the generator runs
      from [s] to its next yield / its end *)
  Inductive wnext : wstate -> wevent -> wstate -> Prop :=
  | wn_skip s a in' e s' :
      next w (k_in s) (Yield a) in' -> 0 < k_skip s ->
      wnext (mkWk in' (S (k_index s)) (k_cps s) (k_skip s - 1) true true) e s' -> wnext s e s'
  | wn_emit s a in' clk :
      next w (k_in s) (Yield a) in' -> k_skip s = 0 ->
      wnext s (Emit (k_index s) (add_key (k_index s) a))
        (mkWk in' (S (k_index s)) (store_checkpoint false clk (fst in') (S (k_index s)) (k_cps s)) 0 true false)
  | wn_again s in' e s' :
      next w (k_in s) Done in' -> k_has s = true -> k_lskip s = true ->
      wnext (mkWk (fst in', ds_iter D) (k_index s) (k_cps s) (k_skip s) false true) e s' -> wnext s e s'
  | wn_end s in' clk :
      next w (k_in s) Done in' -> k_has s && k_lskip s = false ->
      wnext s End (mkWk (fst in', ds_iter D) (k_index s) (store_checkpoint true clk (fst in') (k_index s) (k_cps s)) (k_skip s) false true)
  | wn_fail s x in' clk :
      next w (k_in s) (Raise x) in' ->
      wnext s (Fail x) (mkWk in' (k_index s) (store_checkpoint true clk (fst in') (k_index s) (k_cps s)) (k_skip s) false true).

  Inductive wruns : wstate -> list wevent -> wstate -> Prop :=
  | wr_nil s : wruns s [] s
  | wr_cons s e s1 l s2 : wnext s e s1 -> (forall x, e <> Fail x) -> wruns s1 l s2 -> wruns s (e :: l) s2
  | wr_fail s x s1 : wnext s (Fail x) s1 -> wruns s [Fail x] s1.

  (** savable_loader.py:262-300 __init__ *)
  Definition w_fresh : wstate := mkWk (ds_init D, ds_iter D) 0 [mkCp None 0] 0 false true.

  (** savable_loader.py:515-534 get_checkpoint; [k]: index of the last sample the main process received.
      Result: the checkpoint and the offset *)
  Fixpoint find_cp (r : nat) (l : list checkpoint) : option checkpoint :=
    match l with [] => None | c :: l' => if cp_index c <=? r then Some c else find_cp r l' end.
  Definition get_checkpoint (s : wstate) (k : nat) : result (checkpoint * nat) :=
    match find_cp (k + 1) (rev (k_cps s)) with
    | Some c => Ok (c, k + 1 - cp_index c)
    | None => Err ValueError
    end.

  (** savable_loader.py:536-573 merge_checkpoints, restore_checkpoint, and 353-376, 485-513: the worker
      that starts with the restored state.  [cks]: the checkpoints of all workers (the merged sample
      index is 0 for a checkpoint without state; the restored _sample_index comes from it) *)
  Definition ck_index (c : checkpoint) : nat := match cp_state c with None => 0 | Some _ => cp_index c end.
  Definition w_restored (cks : list (checkpoint * nat)) : wstate :=
    let o := ds_restore D (Some (ds_merge D (map (fun ck => cp_state (fst ck)) cks))) (ds_init D) in
    let i := nth w (map (fun ck => ck_index (fst ck)) cks) 0 in
    mkWk (o, ds_iter D) i [mkCp (Some (ds_save D w o)) i] (nth w (map snd cks) 0) false true.
End Worker.
