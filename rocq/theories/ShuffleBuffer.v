(** Model of wrappers/shuffle_buffer_dataset.py (lines 35-116). *)
From Verif Require Import Base Dataset Wrap Rng Buffer.

Section Shuffle.
  Context {A : Type} (R : rng_ops) (nw size : nat).

  Record sb_obj := mkSb { sb_buf : buffer A; sb_rng : wrng R }.

  (** program points of __iter__ (60-74): before worker_start, in the first loop, in the second *)
  Inductive sb_gen := SbStart | SbLoop | SbDrain.

  (** pop_idx = randbelow(len); yield pop(pop_idx): lines 65-66 and 73-74 *)
  Definition sb_yield (w : nat) (o : sb_obj) (g : sb_gen) : action sb_obj sb_gen A A :=
    let '(i, r) := wrng_below w (buf_len w (sb_buf o)) (sb_rng o) in
    match buf_pop w i (sb_buf o) with
    | Some (a, b) => Local (mkSb b r) g (Yield a)
    | None => Local (mkSb (sb_buf o) r) g (Raise IndexError)
    end.

  Definition sb_act (rs : rkey -> result (sample A)) (w : nat) (o : sb_obj) (g : sb_gen) : action sb_obj sb_gen A A :=
    match g with
    | SbStart =>
        match buf_start rs w (sb_buf o) with
        | Ok b => Local (mkSb b (sb_rng o)) SbLoop Tau
        | Err e => Local o g (Raise e)
        end
    | SbLoop =>
        if size <=? buf_len w (sb_buf o) then sb_yield w o SbLoop
        else Pull (fun r => match r with
                            | Some a => (mkSb (buf_append w a (sb_buf o)) (sb_rng o), SbLoop, Tau)
                            | None => (o, SbDrain, Tau)
                            end)
    | SbDrain =>
        if 0 <? buf_len w (sb_buf o) then sb_yield w o SbDrain
        else Local o SbDrain Done
    end.

  Definition shuffle_buffer : trans A A :=
    {| t_obj := sb_obj;
       t_gen := sb_gen;
       t_wst := option (rng_t R) * list rkey;
       t_mst := list (option (rng_t R)) * list (list rkey);
       t_keep := false;
       t_init := mkSb (buf_init nw) (wrng_init R);
       t_iter := SbStart;
       t_act := sb_act;
       (* 76-81 *)
       t_save := fun w o => (wrng_save w (sb_rng o), buf_save w (sb_buf o));
       (* 83-91 *)
       t_merge := fun sts => (wrng_merge (map (option_map fst) sts), buf_merge (map (option_map snd) sts));
       (* 93-101 *)
       t_restore := fun m o =>
         mkSb (buf_restore nw (option_map snd m)) (wrng_restore (option_map fst m) (sb_rng o));
       (* 103-104 *)
       t_restore_sample := fun rs w key => rs key |}.
End Shuffle.
