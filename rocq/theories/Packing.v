(** Model of wrappers/packing_dataset.py (PackingDataset) with a final packer that returns one sample
    ([pack_ds]) or is a generator function ([packgen_ds]).

    The pre packer is deterministic in (worker, its sample index, the buffered samples), the final packer
    in (worker, its sample index, the contents of the pack). [ures]: what a user function does (returns,
    raises SkipSample, raises an exception that is logged, raises a system exception). *)
From Coq Require Import String.
From Verif Require Import Base Dataset Wrap Wrappers MapModel Buffer Batch.
Local Open Scope list_scope.
Local Open Scope nat_scope.

Definition pack_name : atom := AStr "PackingDataset".

(** set_sample_restore_key(final_packed_sample, pack_idx, *pack_restore_keys, src=self): 229-235 *)
Definition pack_key (i : nat) (keys : list rkey) : rkey := pack_name :: AInt i :: map ATup keys.

Section Packing.
  Context {A B : Type} (nw size : nat).
  Variable pre : nat -> nat -> list (sample A) -> ures (list (list (sample A))).

  (** 133-138: _reading_buffer, _pre_packing_buffer, _pre_packing_lengths and the two SampleIndex *)
  Record pk_obj := mkPk {
    pk_read : buffer A; pk_pre : buffer A; pk_len : list (list nat); pk_pidx : list nat; pk_fidx : list nat }.

  Definition pk_init : pk_obj := mkPk (buf_init nw) (buf_init nw) (repeat [] nw) (repeat 0 nw) (repeat 0 nw).

  (** 171-172: the two worker_start calls *)
  Definition pk_start (rs : rkey -> result (sample A)) (w : nat) (o : pk_obj) : result pk_obj :=
    bind (buf_start rs w (pk_pre o)) (fun bp =>
    bind (buf_start rs w (pk_read o)) (fun br => Ok (mkPk br bp (pk_len o) (pk_pidx o) (pk_fidx o)))).

  (** buffer.py:81-89 extend, once per group (201-203), and the lengths appended *)
  Definition pk_fill (w : nat) (o : pk_obj) (gs : list (list (sample A))) : pk_obj :=
    mkPk (pk_read o)
         (fold_left (fun b g => buf_extend w g (map rk g) b) gs (pk_pre o))
         (upd (pk_len o) w (nth w (pk_len o) [] ++ map (@length _) gs))
         (pk_pidx o) (pk_fidx o).

  (** next_pre_pack (174-203) when the reading buffer is not empty; None: a system exception *)
  Definition pk_prepack (w : nat) (o : pk_obj) : option pk_obj :=
    let samples := buf_at w (pk_read o) in
    let i := nth w (pk_pidx o) 0 in
    let o1 := mkPk (buf_set w [] [] (pk_read o)) (pk_pre o) (upd (pk_len o) w []) (upd (pk_pidx o) w (S i)) (pk_fidx o) in
    match pre w i samples with
    | UOk gs => Some (pk_fill w o1 gs)
    | USkip | UErr => Some o1
    | UFatal => None
    end.

  (** the beginning of next_final_pack (208-210): the first group and the rest *)
  Definition pk_take (w : nat) (o : pk_obj) (k : nat) (rest : list nat) : list (sample A) * pk_obj :=
    let p := buf_at w (pk_pre o) in
    (firstn k p,
     mkPk (pk_read o) (buf_set w (skipn k p) (skipn k (keys_at w (pk_pre o))) (pk_pre o))
          (upd (pk_len o) w rest) (pk_pidx o)
          (upd (pk_fidx o) w (S (nth w (pk_fidx o) 0)))).

  (** the main loop's step when there is no group left (247-265), round [r]; [loop] and [drain] are the
      program points to go on with *)
  Definition pk_read_step {G} (rs : rkey -> result (sample A)) (w : nat) (o : pk_obj) (r : nat) (loop : nat -> G) (drain : G) :
      action pk_obj G A B :=
    if buf_len w (pk_read o) + buf_len w (pk_pre o) <? size then      (* 157-163 _fill_reading_buffer *)
      Pull (fun x =>
        match x with
        | Some a => (mkPk (buf_append w a (pk_read o)) (pk_pre o) (pk_len o) (pk_pidx o) (pk_fidx o), loop r, Tau)
        | None =>                                                     (* 250-256 *)
            if 0 <? buf_len w (pk_read o) then
              if buf_len w (pk_pre o) =? 0 then                       (* assert, 178 *)
                match pk_prepack w o with
                | Some o' => (o', drain, Tau)
                | None => (o, drain, Raise OtherError)
                end
              else (o, drain, Raise AssertionError)
            else (o, drain, Tau)
        end)
    else if negb ((buf_len w (pk_pre o) =? 0) && (buf_len w (pk_read o) =? size)) then
      Local o drain (Raise AssertionError)                            (* 258-259 *)
    else
      match (if 0 <? buf_len w (pk_read o) then pk_prepack w o else Some o) with
      | None => Local o drain (Raise OtherError)
      | Some o' =>                                                    (* 261-265 *)
          if 10 <? S r then Local o' drain (Raise OtherError)
          else Local o' (loop (S r)) Tau
      end.

  (** 276-286 *)
  Definition pk_wst : Type := (list rkey * list rkey * list nat * nat * nat)%type.
  Definition pk_mst : Type := (list (list rkey) * list (list rkey) * list (list nat) * list nat * list nat)%type.
  Definition pk_save (w : nat) (o : pk_obj) : pk_wst :=
    (buf_save w (pk_read o), buf_save w (pk_pre o), nth w (pk_len o) [], nth w (pk_pidx o) 0, nth w (pk_fidx o) 0).
  (** 288-305 *)
  Definition pk_merge (sts : list (option pk_wst)) : pk_mst :=
    (buf_merge (map (option_map (fun s => fst (fst (fst (fst s))))) sts),
     buf_merge (map (option_map (fun s => snd (fst (fst (fst s))))) sts),
     map (fun s => match s with None => [0; 0] | Some s => snd (fst (fst s)) end) sts,
     merge_nat (map (option_map (fun s => snd (fst s))) sts),
     merge_nat (map (option_map snd) sts)).
  (** 307-321 *)
  Definition pk_restore (m : option pk_mst) : pk_obj :=
    match m with
    | None => mkPk (buf_restore nw None) (buf_restore nw None) (repeat [] nw) (restore_nat nw None) (restore_nat nw None)
    | Some (r, p, l, pi, fi) =>
        mkPk (buf_restore nw (Some r)) (buf_restore nw (Some p)) l (restore_nat nw (Some pi)) (restore_nat nw (Some fi))
    end.

  (** *** a final packer that returns one sample *)
  Section Plain.
    Variable f : nat -> nat -> list A -> ures B.

    (** program points of __iter__ (165-274): before worker_start; in the main loop, with pre_pack_round;
        yielding the remaining packs (272-274) *)
    Inductive pk_gen := PkStart | PkLoop (r : nat) | PkDrain.

    (** next_final_pack (205-241), then on to program point [next] *)
    Definition pk_final (w : nat) (o : pk_obj) (k : nat) (rest : list nat) (next : pk_gen) : action pk_obj pk_gen A B :=
      let i := nth w (pk_fidx o) 0 in
      let '(pack, o') := pk_take w o k rest in
      match f w i (map pl pack) with
      | UOk b => Local o' next (Yield (mkS b (pack_key i (map rk pack))))
      | USkip | UErr => Local o' next Tau
      | UFatal => Local o' next (Raise OtherError)
      end.

    Definition pack_ds : trans A B :=
      {| t_obj := pk_obj; t_gen := pk_gen; t_wst := pk_wst; t_mst := pk_mst; t_keep := false;
         t_init := pk_init;
         t_iter := PkStart;
         t_act := fun rs w o g =>
           match g with
           | PkStart => match pk_start rs w o with
                        | Ok o' => Local o' (PkLoop 0) Tau
                        | Err e => Local o g (Raise e)
                        end
           | PkLoop r => match nth w (pk_len o) [] with
                         | [] => pk_read_step rs w o r PkLoop PkDrain
                         | k :: rest => pk_final w o k rest (PkLoop 0)  (* 267-268 *)
                         end
           | PkDrain => match nth w (pk_len o) [] with
                        | [] => Local o PkDrain Done
                        | k :: rest => pk_final w o k rest PkDrain
                        end
           end;
         t_save := pk_save;
         t_merge := pk_merge;
         t_restore := fun m o => pk_restore m;
         t_restore_sample := fun rs w key =>                          (* 334-363 *)
           match key with
           | AStr n :: AInt i :: keys =>
               if String.eqb n "PackingDataset" then
                 bind (Batch.restore_all rs keys) (fun batch =>
                   match f w i (map pl batch) with
                   | UOk b => Ok (mkS b (AStr n :: AInt i :: keys))
                   | _ => Err OtherError
                   end)
               else Err AssertionError
           | _ => Err ValueError
           end |}.
  End Plain.

  (** *** a final packer that is a generator function: the samples it yields and how it ends *)
  Section Gen.
    Variable f : nat -> nat -> list A -> list B * gend.

    Definition packgen_key (i j : nat) (keys : list rkey) : rkey := pack_name :: AInt i :: AInt j :: map ATup keys.

    (** ... ; inside the generator: the pack, its index, the next sub-index *)
    Inductive pg_gen := PgStart | PgLoop (r : nat) | PgDrain | PgGen (pack : list (sample A)) (i j : nat) (drain : bool).

    Definition packgen_ds : trans A B :=
      {| t_obj := pk_obj; t_gen := pg_gen; t_wst := pk_wst; t_mst := pk_mst; t_keep := false;
         t_init := pk_init;
         t_iter := PgStart;
         t_act := fun rs w o g =>
           match g with
           | PgStart => match pk_start rs w o with
                        | Ok o' => Local o' (PgLoop 0) Tau
                        | Err e => Local o g (Raise e)
                        end
           | PgLoop r => match nth w (pk_len o) [] with
                         | [] => pk_read_step rs w o r PgLoop PgDrain
                         | k :: rest =>
                             Local (snd (pk_take w o k rest)) (PgGen (fst (pk_take w o k rest)) (nth w (pk_fidx o) 0) 0 false) Tau
                         end
           | PgDrain => match nth w (pk_len o) [] with
                        | [] => Local o PgDrain Done
                        | k :: rest =>
                            Local (snd (pk_take w o k rest)) (PgGen (fst (pk_take w o k rest)) (nth w (pk_fidx o) 0) 0 true) Tau
                        end
           | PgGen pack i j d =>                                      (* 215-241 *)
               let '(ys, e) := f w i (map pl pack) in
               match nth_error ys j with
               | Some y => Local o (PgGen pack i (S j) d) (Yield (mkS y (packgen_key i j (map rk pack))))
               | None =>
                   match e with
                   | GFatal => Local o g (Raise OtherError)
                   | _ => Local o (if d then PgDrain else PgLoop 0) Tau
                   end
               end
           end;
         t_save := pk_save;
         t_merge := pk_merge;
         t_restore := fun m o => pk_restore m;
         t_restore_sample := fun rs w key =>                          (* 334-361 *)
           match key with
           | AStr n :: AInt i :: AInt j :: keys =>
               if String.eqb n "PackingDataset" then
                 bind (Batch.restore_all rs keys) (fun batch =>
                   match nth_error (fst (f w i (map pl batch))) j with
                   | Some y => Ok (mkS y (AStr n :: AInt i :: AInt j :: keys))
                   | None => match snd (f w i (map pl batch)) with GEnd => Err AssertionError | _ => Err OtherError end
                   end)
               else Err AssertionError
           | _ => Err ValueError
           end |}.
  End Gen.
End Packing.
