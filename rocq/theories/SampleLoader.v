(** Model of flavors/webdataset/sample_loader.py: WebdatasetSampleLoaderDataset.

    Reading a sub-shard is abstracted to [content]: the rows (tuples with one entry per column, with
    the restore key) that _read_multicolumn_shard (198-265) yields for it; see Tar.v for a single
    column's reader and Joined.v for the columns.  The reader advances the ShardState it was given,
    so a sub-shard in progress is its descriptor and the number of rows read.
    Simplifications: the parallel lists indexed by worker are one list of records; the pending list is
    kept in the order in which pop() takes its elements; probabilities are exact (float32 in the
    code); an exception raised in restore_state for some worker's entry is raised when that worker
    starts; exceptions from reading are not modelled here; logging. *)
From Coq Require Import QArith.
From Verif Require Import Base Dataset Rng Sharder.
Local Close Scope Q_scope.
Local Close Scope Z_scope.
Local Open Scope nat_scope.

(** shuffle_over_epochs: None, -1, k >= 1 *)
Inductive shuffling := NoShuffle | Replace | Over (k : nat).

(** ShardInfo equality (structs.py:22-36, byte_offset and byte_size do not take part) *)
Definition shard_eqb (a b : ShardInfo) : bool :=
  (sh_name a =? sh_name b) && (sh_offset a =? sh_offset b)%Z && (sh_count a =? sh_count b)%Z.
(** shards_by_key: (subshards[0].name, subshards[0].offset) *)
Definition key_eqb (a b : shseq) : bool :=
  (sh_name (fst a) =? sh_name (fst b)) && (sh_offset (fst a) =? sh_offset (fst b))%Z.

(** sample_loader.py:669-686 _restore_find_shard; the last entry with the key is in the dict.  zip()
    stops at the shorter tuple. *)
Fixpoint zip_eqb (a b : list ShardInfo) : bool :=
  match a, b with
  | x :: a', y :: b' => shard_eqb x y && zip_eqb a' b'
  | _, _ => true
  end.
Definition find_by_key (ws : list shseq) (s : shseq) : result shseq :=
  match find (fun t => key_eqb t s) (rev ws) with
  | None => Err KeyError
  | Some t => if zip_eqb (columns s) (columns t) then Ok t else Err ValueError
  end.

Section Loader.
  Context {X : Type} (R : rng_ops).
  Variables (shards : list (list shseq)) (content : shseq -> list (sample X))
            (par : nat) (shuffle : shuffling) (loop : bool)
            (rsample : nat -> rkey -> result (sample X)).

  (** a sub-shard in progress (ShardState of its columns) *)
  Definition progress : Type := (shseq * nat)%type.

  (** _pending_shards, _active_shards_state, _sample_count, _epoch_count, _epoch_sample_count *)
  Record slot := mkSlot {
    sl_pend : list shseq; sl_act : list (option progress); sl_cnt : nat; sl_ep : nat; sl_epc : nat;
    sl_bad : option exn }.
  (** sample_loader.py:173-177 *)
  Definition empty_slot : slot := mkSlot [] (repeat None par) 0 0 0 None.

  Record sl_obj := mkSl { so_rng : wrng R; so_slots : list slot }.

  (** program points: not started; head of the epoch loop (302); head of the sample loop (405) with
      the local tensor shards_probs *)
  Inductive sl_gen := SgStart | SgHead | SgLoop (probs : list Q).

  Definition worker_shards (w : nat) : list shseq := nth w shards [].

  (** shards_probs[i] = count, or 0 *)
  Definition prob (p : option progress) : Q :=
    match p with None => 0%Q | Some (s, _) => inject_Z (count0 s) end.

  Definition draw (w : nat) (ws : list shseq) (r : wrng R) : result shseq * wrng R :=
    let '(i, r') := wrng_below w (length ws) r in
    (match nth_error ws i with Some s => Ok s | None => Err IndexError end, r').
  Fixpoint draws (n w : nat) (ws : list shseq) (r : wrng R) : result (list shseq) * wrng R :=
    match n with
    | O => (Ok [], r)
    | S n' =>
        let '(s, r1) := draw w ws r in
        let '(l, r2) := draws n' w ws r1 in
        (bind s (fun s => bind l (fun l => Ok (s :: l))), r2)
    end.

  (** sample_loader.py:267-284 _shards_once *)
  Definition shards_once (w : nat) (ws : list shseq) (r : wrng R) : result (list shseq) * wrng R :=
    match shuffle with
    | NoShuffle => (Ok ws, r)
    | Replace => draws par w ws r
    | Over k => let '(l, r') := wrng_shuffle w (concat (repeat ws k)) r in (Ok l, r')
    end.

  Definition is_some {T} (o : option T) : bool := match o with Some _ => true | None => false end.

  (** 302-398: start or resume an epoch *)
  Definition sl_head (w : nat) (r : wrng R) (s : slot) : wrng R * slot * sl_gen * event (sample X) :=
    if existsb is_some (sl_act s) || (0 <? length (sl_pend s)) then
      if length (sl_act s) =? par then (r, s, SgLoop (map prob (sl_act s)), Tau)
      else (r, s, SgHead, Raise AssertionError)
    else
      match shards_once w (worker_shards w) r with
      | (Err e, r') => (r', s, SgHead, Raise e)
      | (Ok order, r') =>
          let act := map (fun t => Some (t, 0)) (firstn par order) in
          let act' := act ++ repeat None (par - length act) in
          (r', mkSlot (skipn par order) act' (sl_cnt s) (sl_ep s) (sl_epc s) (sl_bad s), SgLoop (map prob act'), Tau)
      end.

  Definition set_act (s : slot) (pend : list shseq) (i : nat) (p : option progress) : slot :=
    mkSlot pend (upd (sl_act s) i p) (sl_cnt s) (sl_ep s) (sl_epc s) (sl_bad s).

  (** 405-500: one round of the sample loop *)
  Definition sl_loop (w : nat) (r : wrng R) (s : slot) (probs : list Q) : wrng R * slot * sl_gen * event (sample X) :=
    if forallb (fun p => Qeq_bool p 0) probs then               (* 406-408, 498-508 *)
      (r, mkSlot (sl_pend s) (sl_act s) (sl_cnt s) (S (sl_ep s)) 0 (sl_bad s), SgHead, if loop then Tau else Done)
    else
      let '(i, r1) := match shuffle with NoShuffle => (0, r) | _ => wrng_choice_idx w probs r end in
      if match shuffle with NoShuffle => negb (par =? 1) | _ => false end then (r, s, SgLoop probs, Raise AssertionError)
      else
        match nth_error (sl_act s) i with
        | Some (Some (sh, k)) =>
            match nth_error (content sh) k with
            | Some row =>                                        (* 473-491 *)
                (r1, mkSlot (sl_pend s) (upd (sl_act s) i (Some (sh, S k))) (S (sl_cnt s)) (sl_ep s) (S (sl_epc s)) (sl_bad s),
                 SgLoop probs, Yield row)
            | None =>                                            (* 419-457 *)
                match sl_pend s with
                | t :: pend => (r1, set_act s pend i (Some (t, 0)), SgLoop (upd probs i (inject_Z (count0 t))), Tau)
                | [] =>
                    match shuffle with
                    | Replace =>
                        match draw w (worker_shards w) r1 with
                        | (Ok t, r2) => (r2, set_act s [] i (Some (t, 0)), SgLoop (upd probs i (inject_Z (count0 t))), Tau)
                        | (Err e, r2) => (r2, s, SgLoop probs, Raise e)
                        end
                    | _ => (r1, set_act s [] i None, SgLoop (upd probs i 0%Q), Tau)
                    end
                end
            end
        | _ => (r1, s, SgLoop probs, Raise TypeError)            (* next(None) *)
        end.

  (** 290-297: the other workers' states are dropped *)
  Definition clear_other_slots (w : nat) (l : list slot) : list slot :=
    map (fun p => if fst p =? w then snd p
                  else mkSlot [] (repeat None par) (sl_cnt (snd p)) (sl_ep (snd p)) (sl_epc (snd p)) (sl_bad (snd p)))
        (combine (seq 0 (length l)) l).

  Definition slot_at (w : nat) (o : sl_obj) : slot := nth w (so_slots o) empty_slot.

  Definition restore_slot (w : nat) (st : slot) : slot :=
    let ws := worker_shards w in
    match sequence (map (find_by_key ws) (sl_pend st)),
          sequence (map (fun p => match p with
                                  | None => Ok None
                                  | Some (s, k) => bind (find_by_key ws s) (fun t => Ok (Some (t, k)))
                                  end) (sl_act st)) with
    | Ok pend, Ok act => mkSlot pend act (sl_cnt st) (sl_ep st) (sl_epc st) None
    | Err e, _ => mkSlot [] (repeat None par) 0 0 0 (Some e)
    | _, Err e => mkSlot [] (repeat None par) 0 0 0 (Some e)
    end.

  Definition loader_ds : dataset X :=
    {| ds_obj := sl_obj; ds_gen := sl_gen;
       ds_wst := option (rng_t R) * slot;
       ds_mst := list (option (rng_t R)) * list slot;
       ds_init := mkSl (wrng_init R) (repeat empty_slot (length shards));
       ds_iter := SgStart;
       ds_step := fun w o g =>
         let s := slot_at w o in
         match g with
         | SgStart =>                                            (* 520-546, 290-297 *)
             match sl_bad s with
             | Some e => (o, g, Raise e)
             | None =>
                 match worker_shards w with
                 | [] => (o, g, Done)
                 | _ => (mkSl (so_rng o) (clear_other_slots w (so_slots o)), SgHead, Tau)
                 end
             end
         | SgHead => let '(r, s', g', e) := sl_head w (so_rng o) s in (mkSl r (upd (so_slots o) w s'), g', e)
         | SgLoop probs => let '(r, s', g', e) := sl_loop w (so_rng o) s probs in (mkSl r (upd (so_slots o) w s'), g', e)
         end;
       ds_save := fun w o => (wrng_save w (so_rng o), slot_at w o);               (* 586-653 *)
       ds_merge := fun sts =>                                                     (* 655-667 *)
         (wrng_merge (map (option_map fst) sts),
          map (fun s => match s with None => empty_slot | Some (_, s) => s end) sts);
       ds_restore := fun m o =>                                                   (* 688-754 *)
         match m with
         | None => mkSl (wrng_restore None (so_rng o)) (repeat empty_slot (length shards))
         | Some (rs, slots) =>
             mkSl (wrng_restore (Some rs) (so_rng o)) (map (fun p => restore_slot (fst p) (snd p)) (combine (seq 0 (length slots)) slots))
         end;
       ds_restore_sample := rsample |}.

  (** 515-518 worker_has_samples; 510-513 __len__ *)
  Definition has_samples (w : nat) : bool := existsb (fun s => (0 <? count0 s)%Z) (worker_shards w).
  Definition loader_len : Z := zsum (map count0 (concat shards)).
End Loader.
