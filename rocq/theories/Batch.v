(** Model of wrappers/batch_dataset.py (BatchDataset).

    The batcher is deterministic in (worker, sample index, contents of the samples). Two models: a
    plain batcher ([batch_ds]) and a generator batcher ([batchgen_ds]).
    Simplification: the lists stored in a saved state are copied at saving time (the code stores a
    reference to the live list [sample_restore_keys], which is harmless when the state is pickled
    at once, as it is when it is sent from a worker process). *)
From Coq Require Import String.
From Verif Require Import Base Dataset Wrap Wrappers MapModel.

Definition batch_name : atom := AStr "BatchDataset".

(** set_sample_restore_key(batch, idx, *keys, src=self): base_dataset.py:406-423 *)
Definition batch_key (i : nat) (keys : list rkey) : rkey := batch_name :: AInt i :: map ATup keys.

(** [self.dataset.restore_sample(inner_idx) for inner_idx in samples_restore_keys] *)
Definition restore_all {A} (rs : rkey -> result (sample A)) (keys : list atom) : result (list (sample A)) :=
  sequence (map (fun k => match k with ATup k' => rs k' | _ => Err TypeError end) keys).

Section Batch.
  Context {A B : Type} (nw size : nat) (drop_last : bool).

  (** *** plain batcher *)
  Variable f : nat -> nat -> list A -> ures B.

  (** program points of __iter__ (129-205): in the loop, with the local lists [batch] and
      [sample_restore_keys]; after the flush of the last, incomplete batch *)
  Inductive bt_gen := BLoop (batch : list (sample A)) (keys : list rkey) | BEnd.

  (** flush() (163-194): [next keys] is the program point after it; [keys] is only cleared when
      a batch was yielded *)
  Definition bt_flush (w : nat) (o : list nat) (batch : list (sample A)) (keys : list rkey)
      (next : list rkey -> bt_gen) : list nat * bt_gen * event (sample B) :=
    let i := nth w o 0 in
    let o' := upd o w (S i) in
    match f w i (map pl batch) with
    | UOk b => (o', next [], Yield (mkS b (batch_key i keys)))
    | USkip | UErr => (o', next keys, Tau)
    | UFatal => (o', next keys, Raise OtherError)
    end.

  Definition batch_ds : trans A B :=
    {| t_obj := list nat; t_gen := bt_gen; t_wst := nat; t_mst := list nat; t_keep := false;
       t_init := repeat 0 nw;
       t_iter := BLoop [] [];
       t_act := fun rs w o g =>
         match g with
         | BEnd => Local o BEnd Done
         | BLoop batch keys =>
             Pull (fun r =>
               match r with
               | Some a =>                                        (* 196-201 *)
                   let batch' := batch ++ [a] in
                   let keys' := keys ++ [rk a] in
                   if length batch' =? size then bt_flush w o batch' keys' (fun k => BLoop [] k)
                   else (o, BLoop batch' keys', Tau)
               | None =>                                          (* 202-203 *)
                   if (0 <? length batch) && negb drop_last then bt_flush w o batch keys (fun _ => BEnd)
                   else (o, BEnd, Done)
               end)
         end;
       t_save := fun w o => nth w o 0;                            (* 205-209 *)
       t_merge := merge_nat;                                      (* 221-228 *)
       t_restore := fun m o => restore_nat nw m;                  (* 242-250 *)
       t_restore_sample := fun rs w key =>                        (* 271-303 *)
         match key with
         | AStr n :: AInt i :: keys =>
             if String.eqb n "BatchDataset" then
               bind (restore_all rs keys) (fun batch =>
                 match f w i (map pl batch) with
                 | UOk b => Ok (mkS b (AStr n :: AInt i :: keys))
                 | _ => Err OtherError
                 end)
             else Err AssertionError
         | _ => Err ValueError
         end |}.

  (** batch_dataset.py:111-127 __len__; [n]: len(self.dataset) *)
  Definition batch_len (n : nat) : nat :=
    let per := n / nw in
    let remaining := n mod nw in
    let nfloor := per / size + (if negb (per mod size =? 0) && negb drop_last then 1 else 0) in
    let c := (per + 1) / size in
    let nceil := c + (if negb (c mod size =? 0) && negb drop_last then 1 else 0) in
    nfloor * (nw - remaining) + nceil * remaining.
End Batch.

Section BatchGen.
  Context {A B : Type} (nw size : nat) (drop_last : bool).

  (** *** generator batcher: the samples it yields and how it ends *)
  Variable f : nat -> nat -> list A -> list B * gend.

  Definition batchgen_key (i j : nat) (keys : list rkey) : rkey :=
    batch_name :: AInt i :: AInt j :: map ATup keys.

  (** SampleIndex, _generator_sample_keys, _generator_offsets *)
  Record bg_obj := mkBg { bg_idx : list nat; bg_key : list (option (list rkey)); bg_off : list (option nat) }.

  Inductive bg_gen :=
  | BgStart
  | BgResume (batch : list (sample A)) (keys : list rkey) (i j target : nat)
  | BgLoop (batch : list (sample A)) (keys : list rkey)
  | BgGen (last : bool) (batch : list (sample A)) (keys : list rkey) (i j : nat)
  | BgEnd.

  Definition bg_clear (w : nat) (o : bg_obj) : bg_obj :=
    mkBg (bg_idx o) (upd (bg_key o) w None) (upd (bg_off o) w None).
  Definition bg_set_off (w j : nat) (o : bg_obj) : bg_obj :=
    mkBg (bg_idx o) (bg_key o) (upd (bg_off o) w (Some j)).

  (** the beginning of flush() (164-173) *)
  Definition bg_flush (w : nat) (o : bg_obj) (last : bool) (batch : list (sample A)) (keys : list rkey) :
      bg_obj * bg_gen * event (sample B) :=
    let i := nth w (bg_idx o) 0 in
    (mkBg (upd (bg_idx o) w (S i)) (upd (bg_key o) w (Some keys)) (upd (bg_off o) w (Some 0)),
     BgGen last batch keys i 0, Tau).

  Definition bg_next (last : bool) (keys : list rkey) : bg_gen := if last then BgEnd else BgLoop [] keys.

  Definition batchgen_ds : trans A B :=
    {| t_obj := bg_obj; t_gen := bg_gen; t_wst := nat * option (option (list rkey) * nat);
       t_mst := list nat * list (option (list rkey)) * list (option nat); t_keep := false;
       t_init := mkBg (repeat 0 nw) (repeat None nw) (repeat None nw);
       t_iter := BgStart;
       t_act := fun rs w o g =>
         match g with
         | BgStart =>                                             (* 131-147 *)
             match nth w (bg_key o) None with
             | None => Local o (BgLoop [] []) Tau
             | Some keys =>
                 match nth w (bg_off o) None with
                 | None => Local o g (Raise AssertionError)
                 | Some t =>
                     match sequence (map rs keys) with
                     | Err e => Local o g (Raise e)
                     | Ok batch => Local (bg_set_off w 0 o) (BgResume batch keys (nth w (bg_idx o) 0) 0 t) Tau
                     end
                 end
             end
         | BgResume batch keys i j t =>                           (* 148-161 *)
             let '(ys, e) := f w i (map pl batch) in
             match nth_error ys j with
             | Some y =>
                 if t <=? j then Local (bg_set_off w (S j) o) (BgResume batch keys i (S j) t) (Yield (mkS y (batchgen_key i j keys)))
                 else Local o (BgResume batch keys i (S j) t) Tau
             | None =>
                 match e with
                 | GEnd => Local (bg_clear w o) (BgLoop [] []) Tau
                 | _ => Local o g (Raise OtherError)              (* not inside a try block *)
                 end
             end
         | BgLoop batch keys =>                                   (* 196-203 *)
             Pull (fun r =>
               match r with
               | Some a =>
                   if length (batch ++ [a]) =? size then bg_flush w o false (batch ++ [a]) (keys ++ [rk a])
                   else (o, BgLoop (batch ++ [a]) (keys ++ [rk a]), Tau)
               | None =>
                   if (0 <? length batch) && negb drop_last then bg_flush w o true batch keys
                   else (o, BgEnd, Done)
               end)
         | BgGen last batch keys i j =>                           (* 174-194 *)
             let '(ys, e) := f w i (map pl batch) in
             match nth_error ys j with
             | Some y => Local (bg_set_off w (S j) o) (BgGen last batch keys i (S j)) (Yield (mkS y (batchgen_key i j keys)))
             | None =>
                 match e with
                 | GEnd => Local (bg_clear w o) (bg_next last []) Tau
                 | GSkip | GErr => Local o (bg_next last keys) Tau   (* keys, key and offset stay *)
                 | GFatal => Local o g (Raise OtherError)
                 end
             end
         | BgEnd => Local o BgEnd Done
         end;
       t_save := fun w o =>                                       (* 205-219 *)
         (nth w (bg_idx o) 0,
          match nth w (bg_off o) None with
          | None => None
          | Some j => Some (nth w (bg_key o) None, j)
          end);
       t_merge := fun sts =>                                      (* 221-240 *)
         (merge_nat (map (option_map fst) sts),
          map (fun s => match s with Some (_, Some (k, _)) => k | _ => None end) sts,
          map (fun s => match s with Some (_, Some (_, j)) => Some j | _ => None end) sts);
       t_restore := fun m o =>                                    (* 242-258 *)
         match m with
         | None => mkBg (repeat 0 nw) (repeat None nw) (repeat None nw)
         | Some (is, ks, js) => mkBg is ks js
         end;
       t_restore_sample := fun rs w key =>                        (* 271-311 *)
         match key with
         | AStr n :: AInt i :: AInt j :: keys =>
             if String.eqb n "BatchDataset" then
               bind (restore_all rs keys) (fun batch =>
                 match nth_error (fst (f w i (map pl batch))) j with
                 | Some y => Ok (mkS y (AStr n :: AInt i :: AInt j :: keys))
                 | None => match snd (f w i (map pl batch)) with GEnd => Err AssertionError | _ => Err OtherError end
                 end)
             else Err AssertionError
         | _ => Err ValueError
         end |}.
End BatchGen.
