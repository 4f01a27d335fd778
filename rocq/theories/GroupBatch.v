(** Model of wrappers/group_batch_dataset.py (GroupBatchDataset).

    Group keys are an arbitrary type [K] with an equality test (Python: hashable objects). The group
    key function and the batcher are deterministic in (worker, sample index, contents).
    [repaired] is not part of the code: [false] is the code as it is; [true] swaps the two branches of
    the conditional expression in restore_state (269-276), see C32_resume_refuted. *)
From Coq Require Import String.
From Verif Require Import Base Dataset Wrap Wrappers Buffer Batch.

Definition group_name : atom := AStr "GroupBatchDataset".

(** set_sample_restore_key(batch_sample, sample_idx, *sample_restore_keys, src=self) *)
Definition group_key (i : nat) (keys : list rkey) : rkey := group_name :: AInt i :: map ATup keys.

Section GroupBatch.
  Context {A B K : Type} (keq : K -> K -> bool) (nw : nat) (fixed : option nat) (drop_last repaired : bool).
  (** sample_group_key: the key and the batch size (or None) *)
  Variable kf : nat -> nat -> A -> ures (K * option nat).
  Variable f : nat -> nat -> list A -> ures B.

  (** Bucket (72-77) under its key: the entries of the dict, in insertion order *)
  Definition bucket : Type := (K * (nat * buffer A))%type.
  (** _group_key_sample_index, _batch_sample_index, _buckets *)
  Record gb_obj := mkGb { gb_kidx : list nat; gb_bidx : list nat; gb_bks : list (list bucket) }.

  Inductive gb_gen := GStart | GLoop | GFlush (j : nat).

  Definition gb_at (w : nat) (o : gb_obj) : list bucket := nth w (gb_bks o) [].
  Definition gb_put (w : nat) (bks : list bucket) (o : gb_obj) : gb_obj :=
    mkGb (gb_kidx o) (gb_bidx o) (upd (gb_bks o) w bks).

  (** position of key [k] in the dict *)
  Fixpoint kpos {V} (k : K) (l : list (K * V)) : option nat :=
    match l with
    | [] => None
    | (k', _) :: l' => if keq k' k then Some 0 else option_map S (kpos k l')
    end.

  (** 155-157 worker_start of every bucket *)
  Definition gb_start (rs : rkey -> result (sample A)) (w : nat) (bks : list bucket) : result (list bucket) :=
    sequence (map (fun p => bind (buf_start rs w (snd (snd p))) (fun b => Ok (fst p, (fst (snd p), b)))) bks).

  (** flush(bucket) (159-174) of the bucket at position [j] *)
  Definition gb_flush (w j : nat) (bks : list bucket) (o : gb_obj) (g : gb_gen) : gb_obj * gb_gen * event (sample B) :=
    match nth_error bks j with
    | None => (o, g, Raise IndexError)                            (* not reached *)
    | Some (k, (bs, b)) =>
        let '(items, keys, b') := buf_flush w b in
        let i := nth w (gb_bidx o) 0 in
        let o' := mkGb (gb_kidx o) (upd (gb_bidx o) w (S i)) (upd (gb_bks o) w (upd bks j (k, (bs, b')))) in
        match f w i (map pl items) with
        | UOk y => (o', g, Yield (mkS y (group_key i keys)))
        | USkip | UErr => (o', g, Tau)
        | UFatal => (o', g, Raise OtherError)
        end
    end.

  (** 180-186: the batch size, None if the assertion fails *)
  Definition gb_size (bs : option nat) : option nat :=
    match bs, fixed with
    | Some n, None => Some n
    | None, Some n => Some n
    | _, _ => None
    end.

  (** 193-204: put the sample into its bucket, making one if there is none; also its position *)
  Definition gb_add (w : nat) (k : K) (bs : nat) (a : sample A) (bks : list bucket) : result (list bucket * nat) :=
    match kpos k bks with
    | None => Ok (bks ++ [(k, (bs, buf_append w a (buf_init nw)))], length bks)
    | Some j =>
        match nth_error bks j with
        | Some (k', (bs', b)) =>
            if bs' =? bs then Ok (upd bks j (k', (bs', buf_append w a b)), j) else Err AssertionError
        | None => Err IndexError                                  (* not reached *)
        end
    end.
  (** len(bucket.samples) *)
  Definition gb_len (w j : nat) (bks : list bucket) : nat :=
    match nth_error bks j with Some (_, (_, b)) => buf_len w b | None => 0 end.

  (** the body of the loop (178-206) for one sample *)
  Definition gb_sample (w : nat) (o : gb_obj) (a : sample A) : gb_obj * gb_gen * event (sample B) :=
    let i := nth w (gb_kidx o) 0 in
    let o1 := mkGb (upd (gb_kidx o) w (S i)) (gb_bidx o) (gb_bks o) in
    match kf w i (pl a) with
    | USkip | UErr => (o1, GLoop, Tau)
    | UFatal => (o1, GLoop, Raise OtherError)
    | UOk (k, mbs) =>
        match gb_size mbs with
        | None => (o1, GLoop, Tau)                                (* AssertionError, passed to error_handler *)
        | Some bs =>
            match gb_add w k bs a (gb_at w o) with
            | Err e => (o1, GLoop, Raise e)
            | Ok (bks, j) =>
                if bs <=? gb_len w j bks then gb_flush w j bks o1 GLoop
                else (gb_put w bks o1, GLoop, Tau)
            end
        end
    end.

  Definition groupbatch_ds : trans A B :=
    {| t_obj := gb_obj; t_gen := gb_gen;
       t_wst := nat * nat * list (K * (nat * list rkey));
       t_mst := list nat * list nat * list (list (K * (nat * list rkey)));
       t_keep := false;
       t_init := mkGb (repeat 0 nw) (repeat 0 nw) (repeat [] nw);
       t_iter := GStart;
       t_act := fun rs w o g =>
         match g with
         | GStart =>                                              (* 145-157 *)
             match gb_start rs w (gb_at w o) with
             | Ok bks => Local (mkGb (gb_kidx o) (gb_bidx o) (upd (clear_others w (gb_bks o)) w bks)) GLoop Tau
             | Err e => Local o g (Raise e)
             end
         | GLoop =>                                               (* 177-206 *)
             Pull (fun r =>
               match r with
               | Some a => gb_sample w o a
               | None => if drop_last then (gb_put w [] o, GLoop, Done) else (o, GFlush 0, Tau)
               end)
         | GFlush j =>                                            (* 208-213 *)
             match nth_error (gb_at w o) j with
             | None => Local (gb_put w [] o) g Done
             | Some (k, (bs, b)) =>
                 if 0 <? buf_len w b then let '(o', g', e) := gb_flush w j (gb_at w o) o (GFlush (S j)) in Local o' g' e
                 else Local o (GFlush (S j)) Tau
             end
         end;
       t_save := fun w o =>                                       (* 215-234 *)
         (nth w (gb_kidx o) 0, nth w (gb_bidx o) 0,
          map (fun p => (fst p, (fst (snd p), buf_save w (snd (snd p))))) (gb_at w o));
       t_merge := fun sts =>                                      (* 236-247 *)
         (merge_nat (map (option_map (fun s => fst (fst s))) sts),
          merge_nat (map (option_map (fun s => snd (fst s))) sts),
          map (fun s => match s with None => [] | Some (_, l) => l end) sts);
       t_restore := fun m o =>                                    (* 249-281 *)
         match m with
         | None => mkGb (gb_kidx o) (gb_bidx o) (repeat [] nw)
         | Some (ks, bs, bst) =>
             mkGb ks bs
               (map (fun p =>
                  map (fun q => (fst q, (fst (snd q),
                         buf_restore nw (Some (map (fun j => if xorb repaired (j =? fst p) then [] else snd (snd q)) (seq 0 nw))))))
                      (snd p))
                  (combine (seq 0 nw) bst) ++ skipn (length bst) (gb_bks o))
         end;
       t_restore_sample := fun rs w key =>                        (* 292-301 *)
         match key with
         | AStr n :: AInt i :: keys =>
             if String.eqb n "GroupBatchDataset" then
               bind (Batch.restore_all rs keys) (fun batch =>
                 match f w i (map pl batch) with
                 | UOk b => Ok (mkS b (AStr n :: AInt i :: keys))
                 | _ => Err OtherError
                 end)
             else Err AssertionError
         | _ => Err ValueError
         end |}.
End GroupBatch.
