(** Model of src/megatron/energon/flavors/webdataset/sharder.py (class Sharder). *)
From Verif Require Import Base PyFloat.
Local Open Scope Z_scope.

(** structs.py:22-36 ShardInfo.  [path] is determined by [name]; [byte_offset]/[byte_size] are caches
    that the sharder resets to None and are not modelled here. Names are numbered. *)
Record ShardInfo := mkShard { sh_name : nat; sh_offset : Z; sh_count : Z }.

(** A [Sequence[ShardInfo]]: the (non-empty) tuple of columns of a joined shard.
    base_webdataset.py:129 builds 1-tuples, joined_webdataset.py:139 zips the columns. *)
Definition shseq : Type := (ShardInfo * list ShardInfo)%type.
Definition columns (s : shseq) : list ShardInfo := fst s :: snd s.
Definition count0 (s : shseq) : Z := sh_count (fst s).   (* subshards[0].count *)
Definition offset0 (s : shseq) : Z := sh_offset (fst s). (* subshards[0].offset *)

(** dataclasses.replace(shard, offset=o, count=c, ...) for all columns: sharder.py:35-44, 48-56 *)
Definition reshard (s : shseq) (o c : Z) : shseq :=
  let f sh := mkShard (sh_name sh) o c in (f (fst s), map f (snd s)).

(** sharder.py:31-33: offsets[i] = start + int(i * samples_per_sequence) *)
Definition slice_offset (start : Z) (sps : pyfloat) (i : nat) : Z :=
  start + py_int (py_mul (Z.of_nat i) sps).

(** sharder.py:15-58 _split_shard *)
Definition split_shard (s : shseq) (start_offset end_offset : Z) (maxs : option Z) : list shseq :=
  let n := end_offset - start_offset in
  match maxs with
  | Some m =>
      if py_int_gt n (rnd (3 * m) 2) (* n > m * 1.5 *) then
        let slice_count := Z.max (py_round (py_div n m)) 1 in
        let sps := py_div n slice_count in
        map (fun i => reshard s (slice_offset start_offset sps i)
                        (slice_offset start_offset sps (S i) - slice_offset start_offset sps i))
            (seq 0 (Z.to_nat slice_count))
      else [reshard s start_offset n]
  | None => [reshard s start_offset n]
  end.

(** The linear search for the shard containing [target]: sharder.py:88-98 and 103-112.
    Instead of an index the remaining suffix [shards[start_index:]] is carried.
    Result: (shards skipped, shard found, suffix starting at the found shard, cum_count). *)
Fixpoint find_shard (shards : list shseq) (cum target : Z)
  : option (list shseq * shseq * list shseq * Z) :=
  match shards with
  | [] => None
  | s :: rest =>
      if cum + count0 s <? target then
        match find_shard rest (cum + count0 s) target with
        | Some (sk, f, sfx, c) => Some (s :: sk, f, sfx, c)
        | None => None
        end
      else Some ([], s, s :: rest, cum)
  end.

(** sharder.py:101-152, the loop over offsets[1:].
    [suffix] = shards[start_index:], whose head is [start] = start_subshards. *)
Fixpoint split_loop (suffix : list shseq) (start : shseq) (cum start_offset : Z)
    (offsets : list Z) (maxs : option Z) : result (list (list shseq)) :=
  match offsets with
  | [] => Ok []
  | off :: offs =>
      match find_shard suffix cum off with
      | None => Err ValueError                       (* "Invalid shard distribution" *)
      | Some (skipped, endsh, suffix', cum') =>
          let end_offset := off - cum' in
          let here :=
            match skipped with
            | [] => split_shard start start_offset end_offset maxs  (* start_index == end_index *)
            | _ :: middle =>
                (if start_offset <? count0 start
                 then split_shard start start_offset (count0 start) maxs else [])
                ++ flat_map (fun s => split_shard s (offset0 s) (count0 s) maxs) middle
                ++ split_shard endsh (offset0 endsh) end_offset maxs
            end in
          bind (split_loop suffix' endsh cum' end_offset offs maxs)
               (fun r => Ok (here :: r))
      end
  end.

(** sharder.py:61-152 _split_shards (as the list of everything the generator yields) *)
Definition split_shards (shards : list shseq) (offsets : list Z) (maxs : option Z)
  : result (list (list shseq)) :=
  match offsets with
  | [] => Err IndexError
  | o0 :: offs =>
      match find_shard shards 0 o0 with
      | None => Err ValueError
      | Some (_, start, suffix, cum) => split_loop suffix start cum (o0 - cum) offs maxs
      end
  end.

(** sharder.py:200-203: interleave via zip_longest, dropping the None fill values *)
Fixpoint interleave {A} (l r : list A) : list A :=
  match l with
  | [] => r
  | x :: l' => match r with
               | [] => x :: l'
               | y :: r' => x :: y :: interleave l' r'
               end
  end.

(** sharder.py:155-203 _generalized_bit_reversal on a list; [fuel] bounds the recursion depth,
    [None] = fuel exhausted (never happens with fuel = length, lemma bitrev_total). *)
Fixpoint bitrev_fuel (fuel : nat) (l : list nat) : option (list nat) :=
  match fuel with
  | O => None
  | S fuel' =>
      if (length l <=? 2)%nat then Some l
      else
        let mid := (length l / 2)%nat in
        match bitrev_fuel fuel' (firstn mid l), bitrev_fuel fuel' (skipn mid l) with
        | Some a, Some b => Some (interleave a b)
        | _, _ => None
        end
  end.

Definition bitrev (n : nat) : option (list nat) := bitrev_fuel (S n) (seq 0 n).

(** sharder.py:251-261 step 1 *)
Definition counts_linear (total G rot : Z) : list Z :=
  let base := py_int (py_div total G) in
  let extra := total mod G in
  map (fun g => if (Z.of_nat g - rot + G) mod G <? extra then base + 1 else base)
      (seq 0 (Z.to_nat G)).

(** sharder.py:272-278 step 2: new[bitrev[i]] = old[i] *)
Definition permute_counts (perm : list nat) (old : list Z) : list Z :=
  fold_left (fun acc p => upd acc (fst p) (snd p)) (combine perm old)
            (repeat (-1) (length old)).

(** sharder.py:280-285 step 3: [0] and the running sums *)
Fixpoint prefix_sums (cur : Z) (l : list Z) : list Z :=
  match l with
  | [] => [cur]
  | x :: l' => cur :: prefix_sums (cur + x) l'
  end.

(** WorkerConfig fields used by the sharder (worker.py:38-46). *)
Record wcfg := mkWcfg { w_rank : nat; w_world : nat; w_nworkers : nat }.

Definition eff_workers (w : wcfg) : nat := Nat.max 1 (w_nworkers w).

(** sharder.py:234-285: the global split offsets *)
Definition global_offsets (shards : list shseq) (world nw : nat) (rot : Z) : option (list Z) :=
  let G := (nw * world)%nat in
  let total := zsum (map count0 shards) in
  match bitrev G with
  | Some p => Some (prefix_sums 0 (permute_counts p (counts_linear total (Z.of_nat G) rot)))
  | None => None
  end.

(** sharder.py:206-304 shard_workers.  world_size = 0 divides by zero. *)
Definition shard_workers (shards : list shseq) (w : wcfg) (maxs : option Z) (rot : Z)
  : result (list (list shseq)) :=
  let nw := eff_workers w in
  if (nw * w_world w =? 0)%nat then Err ZeroDivisionError
  else
    match global_offsets shards (w_world w) nw rot with
    | None => Err OtherError
    | Some goffs =>
        let loc := slice (w_rank w * nw) ((w_rank w + 1) * nw + 1) goffs in
        if (length loc =? nw + 1)%nat then
          bind (split_shards shards loc maxs)
               (fun ll => Ok (map (filter (fun s => 0 <? count0 s)) ll))
        else Err AssertionError
    end.

(** Everything the [world] ranks compute, rank after rank (each rank runs shard_workers itself). *)
Definition shard_all_ranks (shards : list shseq) (world nworkers : nat) (maxs : option Z) (rot : Z)
  : result (list (list shseq)) :=
  bind (sequence (map (fun r => shard_workers shards (mkWcfg r world nworkers) maxs rot) (seq 0 world)))
       (fun l => Ok (concat l)).

(** task_encoder/base.py:508-510: rotation offset of each dataset = cumulative length mod G *)
Fixpoint worker_offsets (cum : Z) (lens : list Z) (G : Z) : list Z :=
  match lens with
  | [] => []
  | n :: lens' => cum mod G :: worker_offsets (cum + n) lens' G
  end.
