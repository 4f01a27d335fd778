(** Models of the small wrappers: FilterDataset, GcDataset, LogSampleDataset, RepeatDataset,
    EpochizeDataset, LimitDataset.  Log output is not modelled.  [nw] is max(num_workers, 1); lists
    have one entry per worker. *)
From Verif Require Import Base Dataset Wrap.

(** [0 if state is None else state.x for state in states] *)
Definition merge_nat (sts : list (option nat)) : list nat :=
  map (fun s => match s with None => 0 | Some n => n end) sts.

(** restore_state of a per-worker counter list: reset to zeros, or take the merged list *)
Definition restore_nat (nw : nat) (m : option (list nat)) : list nat :=
  match m with None => repeat 0 nw | Some l => l end.

(** what a user function run on a sample can do *)
Inductive ures (X : Type) : Type :=
| UOk (x : X)
| USkip               (* raise SkipSample *)
| UErr                (* another Exception: passed to error_handler, which by default only logs *)
| UFatal.             (* one of SYSTEM_EXCEPTIONS: re-raised as FatalSampleError *)
Arguments UOk {X} x.
Arguments USkip {X}.
Arguments UErr {X}.
Arguments UFatal {X}.

(** The loop shared by FilterDataset, LogSampleDataset and MapDataset:
      for sample in self.dataset:
          index = self._sample_index.get_next()
          ... at most one sample is yielded, or an exception escapes ...
    together with the saving of the per-worker index (SampleIndex, base.py:126-201).
    [h w i a] is what happens for inner sample [a] at index [i] in worker [w]. *)
Definition idx_ds {A B} (nw : nat) (h : nat -> nat -> sample A -> event (sample B))
    (rsample : (rkey -> result (sample A)) -> nat -> rkey -> result (sample B)) : trans A B :=
  {| t_obj := list nat; t_gen := unit; t_wst := nat; t_mst := list nat; t_keep := false;
     t_init := repeat 0 nw;
     t_iter := tt;
     t_act := fun rs w o g =>
       Pull (fun r =>
         match r with
         | None => (o, tt, Done)
         | Some a => let i := nth w o 0 in (upd o w (S i), tt, h w i a)
         end);
     t_save := fun w o => nth w o 0;
     t_merge := merge_nat;
     t_restore := fun m o => restore_nat nw m;
     t_restore_sample := rsample |}.

Section Simple.
  Context {A : Type} (nw : nat).

  (** filter_dataset.py:58-65 (iter), 67-92 (state): [p w i x] is the filter function's answer in
      worker [w] for sample index [i] and sample content [x]; an exception escapes. *)
  Definition filter_ds (p : nat -> nat -> A -> result bool) : trans A A :=
    idx_ds nw (fun w i a => match p w i (pl a) with
                            | Ok true => Yield a
                            | Ok false => Tau
                            | Err e => Raise e
                            end)
           (fun rs w key => rs key).

  (** gc_dataset.py:95-121.  [ready]: not in a worker process, or gc_init_worker() was called.  The
      generator state is the local [iter] counter (None before the loop); garbage collection itself
      has no effect in the model. *)
  Definition gc_ds (ready : bool) (every_n : nat) : trans A A :=
    {| t_obj := unit; t_gen := option nat; t_wst := unit; t_mst := unit; t_keep := false;
       t_init := tt;
       t_iter := None;
       t_act := fun rs w o g =>
         match g with
         | None => if ready then Local o (Some 0) Tau else Local o None (Raise RuntimeError)
         | Some n =>
             let n' := if every_n <=? n then 0 else n in
             Pull (fun r =>
               match r with
               | None => (o, Some n', Done)
               | Some a => (o, Some (S n'), Yield a)
               end)
         end;
       t_save := fun w o => tt;
       t_merge := fun _ => tt;
       t_restore := fun m o => tt;
       t_restore_sample := fun rs w key => rs key |}.

  (** log_sample_dataset.py:105-139; only the step counter is modelled *)
  Definition log_ds : trans A A := idx_ds nw (fun w i a => Yield a) (fun rs w key => rs key).

  (** repeat_dataset.py:55-88.  [repeats = None] is infinite; [has] is dataset.worker_has_samples().
      Program points: not started; about to test the for/while loop head for repeat number [k];
      inside [for sample in self.dataset]. *)
  Inductive rp_gen := RpStart | RpHead (k : nat) | RpIn (k : nat).

  Definition repeat_ds (repeats : option nat) (has : nat -> bool) : trans A A :=
    {| t_obj := list nat; t_gen := rp_gen; t_wst := nat; t_mst := list nat; t_keep := false;
       t_init := repeat 0 nw;
       t_iter := RpStart;
       t_act := fun rs w o g =>
         match g with
         | RpStart =>
             match repeats with
             | None => if has w then Local o (RpHead (nth w o 0)) Tau
                       else Local o RpStart (Raise AssertionError)
             | Some _ => Local o (RpHead (nth w o 0)) Tau
             end
         | RpHead k =>
             match repeats with
             | Some n => if k <? n then Local (upd o w (S k)) (RpIn k) Tau else Local o g Done
             | None => Local (upd o w (S (nth w o 0))) (RpIn k) Tau
             end
         | RpIn k =>
             Pull (fun r => match r with
                            | Some a => (o, RpIn k, Yield a)
                            | None => (o, RpHead (S k), Tau)
                            end)
         end;
       t_save := fun w o => nth w o 0;
       t_merge := merge_nat;
       t_restore := fun m o => restore_nat nw m;
       t_restore_sample := fun rs w key => rs key |}.

  (** epochize_dataset.py:68-75 = limit_dataset.py:64-70: this worker's share of [length] *)
  Definition local_share (length w : nat) : nat :=
    if nw <=? 1 then length
    else length / nw + (if w <? length mod nw then 1 else 0).

  (** epochize_dataset.py:60-107.  The inner iterator survives the end of an epoch ([t_keep]), and
      [_infinite] starts the inner dataset again when it ends. *)
  Inductive ep_gen := EpStart | EpHead (idx : nat) | EpNext (idx : nat).

  Definition epochize_ds (length : nat) : trans A A :=
    {| t_obj := list nat; t_gen := ep_gen; t_wst := nat; t_mst := list nat; t_keep := true;
       t_init := repeat 0 nw;
       t_iter := EpStart;
       t_act := fun rs w o g =>
         let L := local_share length w in
         match g with
         | EpStart => Local o (EpHead (nth w o 0)) Tau
         | EpHead idx =>
             if idx <? L then Local (upd o w ((idx + 1) mod L)) (EpNext idx) Tau
             else Local o g Done
         | EpNext idx =>
             Pull (fun r => match r with
                            | Some a => (o, EpHead (S idx), Yield a)
                            | None => (o, EpNext idx, Tau)
                            end)
         end;
       t_save := fun w o => nth w o 0;
       t_merge := merge_nat;
       t_restore := fun m o => restore_nat nw m;
       t_restore_sample := fun rs w key => rs key |}.

  (** limit_dataset.py:61-113.  zip(self.dataset, offset_range) asks the dataset first, so after the
      last allowed sample one more is taken and thrown away ([LmNext idx] with idx = limit). *)
  Inductive lm_gen := LmStart | LmNext (idx : nat) | LmReset | LmEnd.

  Definition limit_ds (length : nat) : trans A A :=
    {| t_obj := list nat; t_gen := lm_gen; t_wst := nat; t_mst := list nat; t_keep := false;
       t_init := repeat 0 nw;
       t_iter := LmStart;
       t_act := fun rs w o g =>
         let L := local_share length w in
         match g with
         | LmStart => Local o (if nth w o 0 <? L then LmNext (nth w o 0) else LmReset) Tau
         | LmNext idx =>
             Pull (fun r => match r with
                            | Some a => if idx <? L then (upd o w (S idx), LmNext (S idx), Yield a)
                                        else (o, LmReset, Tau)
                            | None => (o, LmReset, Tau)
                            end)
         | LmReset => Reset (repeat 0 nw) LmEnd
         | LmEnd => Local o LmEnd Done
         end;
       t_save := fun w o => nth w o 0;
       t_merge := merge_nat;
       t_restore := fun m o => restore_nat nw m;
       t_restore_sample := fun rs w key => rs key |}.
End Simple.
