(** Model of the debug logs and of the analyze-debug tool: worker.py:238-261 (WorkerConfig.worker_log),
    savable_loader.py:756-855 and 1089-1170 (the log lines of the two loaders), tools/analyze_debug.py.

    Simplifications: a colour has one channel instead of three (the three channels of the numpy array are treated alike), values
    do not overflow (int32 in the code), no key is longer than memory, and reading a log file does not fail (OSError and lines
    that are not JSON are skipped by the tool).  save() (analyze_debug.py:183-204) is modelled up to the crop of the array; the
    scaling with the gain and the PNG file are not modelled. *)
From Coq Require Import String.
From Verif Require Import Base.
Local Open Scope string_scope.
Local Open Scope list_scope.
Local Open Scope nat_scope.

(* ------------------------------------------------------------------------------------------------------------------ *)
(** * The heatmap, AutosizingHeatmapWriter *)

(** analyze_debug.py:142-153.  [hm_cell r c]: heatmap[r, c] for r < rows and c < cols; [hm_rtop] is heatmap_sample_max + 1 and
    [hm_ctop] is heatmap_step_max + 1 (the code starts with -1 and uses the values only with + 1 and in max). *)
Record heatmap := mkH
  { hm_rows : nat; hm_cols : nat; hm_cell : nat -> nat -> nat; hm_fs : nat; hm_fc : nat; hm_rtop : nat; hm_ctop : nat }.

(** __init__, analyze_debug.py:145-153 *)
Definition hm_new (rows cols : nat) : heatmap := mkH rows cols (fun _ _ => 0) 1 1 0 0.

(** One turn of the loop analyze_debug.py:164-168.
    heatmap[: n // 2] = heatmap[::2] + heatmap[1::2]; heatmap[n // 2 :] = 0; factor *= 2; max = 0.
    numpy: heatmap[::2] has (n + 1) / 2 rows and heatmap[1::2] has n / 2 rows.  For odd n >= 3 the sum, if it can be formed by
    broadcasting at all, has (n + 1) / 2 rows and does not fit into n / 2 rows: ValueError.  For n = 1 the sum of 1 and 0 rows
    is broadcast to 0 rows, nothing is stored, and then heatmap[0:] = 0. *)
Definition halve_rows (h : heatmap) : result heatmap :=
  let n := hm_rows h in
  if Nat.even n then
    Ok (mkH n (hm_cols h) (fun r c => if r <? n / 2 then hm_cell h (2 * r) c + hm_cell h (2 * r + 1) c else 0)
            (hm_fs h * 2) (hm_fc h) 1 (hm_ctop h))
  else if n =? 1 then Ok (mkH n (hm_cols h) (fun _ _ => 0) (hm_fs h * 2) (hm_fc h) 1 (hm_ctop h))
  else Err ValueError.

(** One turn of the loop analyze_debug.py:169-175 *)
Definition halve_cols (h : heatmap) : result heatmap :=
  let n := hm_cols h in
  if Nat.even n then
    Ok (mkH (hm_rows h) n (fun r c => if c <? n / 2 then hm_cell h r (2 * c) + hm_cell h r (2 * c + 1) else 0)
            (hm_fs h) (hm_fc h * 2) (hm_rtop h) 1)
  else if n =? 1 then Ok (mkH (hm_rows h) n (fun _ _ => 0) (hm_fs h) (hm_fc h * 2) (hm_rtop h) 1)
  else Err ValueError.

(** while heatmap.shape[0] * factor <= sample_id, analyze_debug.py:164-168; None: still in the loop after [fuel] turns *)
Fixpoint grow_rows (fuel id : nat) (h : heatmap) : option (result heatmap) :=
  if hm_rows h * hm_fs h <=? id then
    match fuel with
    | O => None
    | S k => match halve_rows h with Ok h' => grow_rows k id h' | Err e => Some (Err e) end
    end
  else Some (Ok h).

(** while heatmap.shape[1] * factor <= step, analyze_debug.py:169-175 *)
Fixpoint grow_cols (fuel step : nat) (h : heatmap) : option (result heatmap) :=
  if hm_cols h * hm_fc h <=? step then
    match fuel with
    | O => None
    | S k => match halve_cols h with Ok h' => grow_cols k step h' | Err e => Some (Err e) end
    end
  else Some (Ok h).

Section Heat.
(** [pal]: the palette cpal (one channel); [csize]: colors_size, analyze_debug.py:153 *)
Variable pal : list nat.
Variable csize : nat.

(** cpal[src % colors_size], analyze_debug.py:179 *)
Definition colour (src : nat) : nat := nth (src mod csize) pal 0.

(** analyze_debug.py:176-181 *)
Definition hm_put (id step src : nat) (h : heatmap) : heatmap :=
  let c := step / hm_fc h in
  let r := id / hm_fs h in
  mkH (hm_rows h) (hm_cols h)
      (fun r' c' => if (r' =? r) && (c' =? c) then hm_cell h r' c' + colour src else hm_cell h r' c')
      (hm_fs h) (hm_fc h) (Nat.max (hm_rtop h) (S r)) (Nat.max (hm_ctop h) (S c)).

(** add, analyze_debug.py:155-181.  None: the call does not return. *)
Definition hm_add (fuel : nat) (p : nat * nat * nat) (h : heatmap) : option (result heatmap) :=
  let '(id, step, src) := p in
  match grow_rows fuel id h with
  | Some (Ok h1) =>
      match grow_cols fuel step h1 with
      | Some (Ok h2) => Some (Ok (hm_put id step src h2))
      | r => r
      end
  | r => r
  end.

(** the add calls of the tool, one after the other *)
Fixpoint hm_adds (fuel : nat) (ps : list (nat * nat * nat)) (h : heatmap) : option (result heatmap) :=
  match ps with
  | [] => Some (Ok h)
  | p :: ps' => match hm_add fuel p h with Some (Ok h') => hm_adds fuel ps' h' | r => r end
  end.
End Heat.

(** save, analyze_debug.py:194: the image is heatmap[: sample_max + 1, : step_max + 1] *)
Definition hm_image (h : heatmap) : list (list nat) :=
  map (fun r => map (fun c => hm_cell h r c) (seq 0 (Nat.min (hm_ctop h) (hm_cols h)))) (seq 0 (Nat.min (hm_rtop h) (hm_rows h))).

(* ------------------------------------------------------------------------------------------------------------------ *)
(** * The log lines *)

(** The lines of type "SavableDataLoader.yield" / "BasicDataLoader.yield", savable_loader.py:817-835, 1137-1153, as far as the
    tool reads them: id, global_idx, keys (missing if default_get_keys finds none). *)
Record line := mkL { l_id : nat; l_g : nat; l_keys : option (list string) }.

(** The lines one loader writes: at every sample it yields, the current counter, then the counter is increased
    (savable_loader.py:836-838, 1154-1155; the counter starts with 0 at 682, 1043 and is not part of a checkpoint). *)
Fixpoint loader_lines (id g : nat) (batches : list (option (list string))) : list line :=
  match batches with
  | [] => []
  | b :: bs => mkL id g b :: loader_lines id (S g) bs
  end.

(* ------------------------------------------------------------------------------------------------------------------ *)
(** * Reading the logs *)

(** What a log iterator gives at one next(): the keys of a line, None (next step), or an exception.  The end of the list is
    StopIteration. *)
Inductive item := Keys (ks : list string) | NextStep | Fail (e : exn).

(** LoaderLogIter.log_entries, analyze_debug.py:567-581 *)
Fixpoint log_entries (sel idx : nat) (lines : list line) : list item :=
  match lines with
  | [] => []
  | l :: ls =>
      if l_id l =? sel then
        if l_g l <? idx then [Fail AssertionError]
        else repeat NextStep (l_g l - idx)
             ++ match l_keys l with Some ks => [Keys ks] | None => [] end
             ++ log_entries sel (l_g l) ls
      else log_entries sel idx ls
  end.

(** The inner loop analyze_debug.py:355-371: keys until None or the end.  The rest is None if the iterator is removed. *)
Fixpoint drain (its : list item) : result (list string * option (list item)) :=
  match its with
  | [] => Ok ([], None)
  | NextStep :: rest => Ok ([], Some rest)
  | Fail e :: _ => Err e
  | Keys ks :: rest => match drain rest with Ok (ks', r) => Ok (ks ++ ks', r) | Err e => Err e end
  end.

(** key_index.setdefault(key, len(key_index)), analyze_debug.py:369: the dict maps its i-th inserted key to i *)
Fixpoint position (k : string) (idx : list string) : option nat :=
  match idx with
  | [] => None
  | k' :: idx' => if String.eqb k k' then Some 0 else option_map S (position k idx')
  end.

Definition setdefault (k : string) (idx : list string) : nat * list string :=
  match position k idx with
  | Some i => (i, idx)
  | None => (List.length idx, idx ++ [k])
  end.

(** analyze_debug.py:368-371: the arguments of heatmap.add for the keys of one step of one iterator *)
Fixpoint place (step src : nat) (ks : list string) (idx : list string) : list (nat * nat * nat) * list string :=
  match ks with
  | [] => ([], idx)
  | k :: ks' =>
      let '(i, idx1) := setdefault k idx in
      let '(ps, idx2) := place step src ks' idx1 in
      ((i, step, src) :: ps, idx2)
  end.

(** for src_idx, log_iter in tuple(log_iters), analyze_debug.py:353-371 *)
Fixpoint one_step (step : nat) (iters : list (nat * list item)) (idx : list string)
  : result (list (nat * nat * nat) * list (nat * list item) * list string) :=
  match iters with
  | [] => Ok ([], [], idx)
  | (src, its) :: more =>
      bind (drain its) (fun '(ks, rest) =>
        let '(ps, idx1) := place step src ks idx in
        bind (one_step step more idx1) (fun '(ps', more', idx2) =>
          Ok (ps ++ ps', match rest with Some r => (src, r) :: more' | None => more' end, idx2)))
  end.

(** while len(log_iters) > 0, analyze_debug.py:350-375.  Result: the add calls in order, the key index and the step count.
    [fuel]: number of turns (None: more are needed).
    Simplification: the add calls are collected and carried out afterwards; the code calls add at once (if both an add call
    and a later line raise, the model may report the exception of the line where the code reports that of the call). *)
Fixpoint all_steps (fuel step : nat) (iters : list (nat * list item)) (idx : list string)
  : option (result (list (nat * nat * nat) * list string * nat)) :=
  match iters with
  | [] => Some (Ok ([], idx, step))
  | _ :: _ =>
      match fuel with
      | O => None
      | S k =>
          match one_step step iters idx with
          | Err e => Some (Err e)
          | Ok (ps, iters', idx') =>
              match all_steps k (S step) iters' idx' with
              | Some (Ok (ps', idx'', n)) => Some (Ok (ps ++ ps', idx'', n))
              | r => r
              end
          end
      end
  end.

Fixpoint number {A} (i : nat) (l : list A) : list (nat * A) :=
  match l with [] => [] | x :: l' => (i, x) :: number (S i) l' end.

(** The batch part of the command, analyze_debug.py:345-375: the files that contain the selected loader, read from step
    [skip] on (--skip). *)
Definition read_logs (fuel skip sel : nat) (files : list (list line)) : option (result (list (nat * nat * nat) * list string * nat)) :=
  all_steps fuel 0 (number 0 (map (log_entries sel skip) files)) [].

(** The whole tool for one selected loader: read, draw (analyze_debug.py:288, 350-375, 429). *)
Definition analyze (pal : list nat) (csize fuel skip rows cols sel : nat) (files : list (list line)) : option (result (list (list nat))) :=
  match read_logs fuel skip sel files with
  | Some (Ok (ps, _, _)) =>
      match hm_adds pal csize fuel ps (hm_new rows cols) with
      | Some (Ok h) => Some (Ok (hm_image h))
      | Some (Err e) => Some (Err e)
      | None => None
      end
  | Some (Err e) => Some (Err e)
  | None => None
  end.

(* ------------------------------------------------------------------------------------------------------------------ *)
(** * The loading order *)

(** _iter_sl_log_line_keys, analyze_debug.py:591-603; a line of the sample loader has a count and a key (sample_loader.py:474-490) *)
Fixpoint sl_entries (start count : nat) (lines : list (nat * string)) : list item :=
  match lines with
  | [] => []
  | (n, k) :: ls =>
      if n <? start then sl_entries start count ls
      else if n <? count then [Fail AssertionError]
      else repeat NextStep (n - count) ++ Keys [k] :: sl_entries start n ls
  end.

(** The fallback of the command, analyze_debug.py:377-420.  heatmap.add(key_id, count) at line 413 lacks the required third
    argument: TypeError at the first key. *)
Fixpoint sl_step (iters : list (nat * list item)) : result (list (nat * list item)) :=
  match iters with
  | [] => Ok []
  | (src, its) :: more =>
      bind (drain its) (fun '(ks, rest) =>
        match ks with
        | _ :: _ => Err TypeError
        | [] => bind (sl_step more) (fun more' => Ok (match rest with Some r => (src, r) :: more' | None => more' end))
        end)
  end.

Fixpoint sl_steps (fuel : nat) (iters : list (nat * list item)) : option (result unit) :=
  match iters with
  | [] => Some (Ok tt)
  | _ :: _ => match fuel with
      | O => None
      | S k => match sl_step iters with Err e => Some (Err e) | Ok iters' => sl_steps k iters' end
      end
  end.

Definition loading_order (fuel skip : nat) (files : list (list (nat * string))) : option (result unit) :=
  sl_steps fuel (number 0 (map (sl_entries skip skip) files)).

(* ------------------------------------------------------------------------------------------------------------------ *)
(** * Finding the modality and the path in a configuration *)

(** dataset.config(), as far as the tool looks at it: map_fn_config (its training, path and paths), dataset, dataset_weights,
    datasets.  What each dataset puts there is cited at the constructors of [pipeline] below. *)
Record mapcfg := mkM { mc_training : option bool; mc_path : option string; mc_paths : option (list string) }.
Inductive cfg := Cfg (m : option mapcfg) (inner : option cfg) (weights : option (list cfg)) (datasets : option (list cfg)).

(** _find_config_modality, analyze_debug.py:519-529 *)
Fixpoint find_modality (c : cfg) : result bool :=
  match c with
  | Cfg (Some (mkM (Some t) _ _)) _ _ _ => Ok t
  | Cfg _ (Some d) _ _ => find_modality d
  | Cfg _ None (Some l) _ => match l with d :: _ => find_modality d | [] => Err IndexError end
  | Cfg _ None None (Some l) => match l with d :: _ => find_modality d | [] => Err IndexError end
  | Cfg _ None None None => Err AssertionError
  end.

(** _find_config_path, analyze_debug.py:532-544 *)
Fixpoint find_path (c : cfg) : result string :=
  match c with
  | Cfg (Some (mkM _ (Some p) _)) _ _ _ => Ok p
  | Cfg (Some (mkM _ None (Some ps))) _ _ _ => match ps with p :: _ => Ok p | [] => Err IndexError end
  | Cfg _ (Some d) _ _ => find_path d
  | Cfg _ None (Some l) _ => match l with d :: _ => find_path d | [] => Err IndexError end
  | Cfg _ None None (Some l) => match l with d :: _ => find_path d | [] => Err IndexError end
  | Cfg _ None None None => Err AssertionError
  end.

(** A dataset as the loader sees it, as far as its configuration goes. *)
Inductive pipeline :=
| Web (training : bool) (path : string)      (* base_webdataset.py:166-192: MapDataset with map_fn_config = self.config: training, path *)
| Joined (training : bool) (paths : list string) (* joined_webdataset.py:210-252: map_fn_config with training and joined_datasets, no path *)
| Wrapped (d : pipeline)                     (* every wrapper with "dataset": config(), e.g. batch_dataset.py:307-328 *)
| Cooked (conditions : bool) (d : pipeline)  (* MapDataset with another map_fn_config, task_encoder/base.py:448-466: the cookers;
                                                conditions: one of them has a condition function *)
| Logged (d : pipeline)                      (* transparent: gc_dataset.py:119-121, log_sample_dataset.py:135-137 *)
| Blended (ds : list pipeline)               (* blend_dataset.py:149-156 *)
| Concatenated (ds : list pipeline).         (* concat_dataset.py:110-114 *)

(** the sample loader at the bottom: sample_loader.py:756-781 has none of the four entries *)
Definition bottom : cfg := Cfg None None None None.

(** config(), as cited at the constructors *)
Fixpoint config (p : pipeline) : cfg :=
  match p with
  | Web t q => Cfg (Some (mkM (Some t) (Some q) None)) (Some bottom) None None
  | Joined t qs => Cfg (Some (mkM (Some t) None None)) (Some bottom) None None
  | Wrapped d => Cfg None (Some (config d)) None None
  | Cooked _ d => Cfg (Some (mkM None None None)) (Some (config d)) None None
  | Logged d => config d
  | Blended ds => Cfg None None (Some (map config ds)) None
  | Concatenated ds => Cfg None None None (Some (map config ds))
  end.

(** worker_log calls json.dumps on the line (worker.py:241, 260), which raises TypeError if the configuration contains a function:
    condition=cooker.condition, task_encoder/base.py:460 *)
Fixpoint has_function (p : pipeline) : bool :=
  match p with
  | Web _ _ => false
  | Joined _ _ => false
  | Wrapped d => has_function d
  | Cooked cond d => cond || has_function d
  | Logged d => has_function d
  | Blended ds => existsb has_function ds
  | Concatenated ds => existsb has_function ds
  end.

(** The end of SavableDataLoader.__init__ / BasicDataLoader.__init__, savable_loader.py:756-765, 1089-1098: with
    worker_log_level >= 1 the configuration is logged. *)
Definition loader_init (log_level : nat) (p : pipeline) : result unit :=
  if 1 <=? log_level then (if has_function p then Err TypeError else Ok tt) else Ok tt.

(** LoaderLogIter.loaders for one loader: its __init__ line must yield both (analyze_debug.py:546-565) *)
Definition loader_info (p : pipeline) : result (bool * string) :=
  bind (find_modality (config p)) (fun t => bind (find_path (config p)) (fun q => Ok (t, q))).

(* ------------------------------------------------------------------------------------------------------------------ *)
(** * Writing the logs *)

(** worker_log, worker.py:243-248: the number of the log file.  [worker]: None in the main process, Some i in the worker process
    with rank_worker_id() = i (worker.py:157-168; in the main process rank_worker_id() is worker_id_offset = 0). *)
Definition log_number (num_workers rank : nat) (worker : option nat) : nat :=
  match worker with
  | None => rank * (num_workers + 1) + 0
  | Some i => rank * (num_workers + 1) + i + 1
  end.

(** One call of worker_log with file number n and text t in a process whose WorkerConfig has the open file [cur]
    (worker.py:249-261): a new number opens its file with "w", which empties it; then the line is appended and flushed. *)
Definition write_log (cur : option nat) (files : nat -> list string) (n : nat) (t : string) : option nat * (nat -> list string) :=
  let same := match cur with Some m => m =? n | None => false end in
  let old := if same then files n else [] in
  (Some n, fun k => if k =? n then old ++ [t] else files k).

(** The calls of several processes: (process, file number, text); every process has its own WorkerConfig.
    Simplification: if two processes have the same file open at the same time, their writes go to their own offsets; the model
    appends.  The theorems only use histories in which this does not happen. *)
Fixpoint write_logs (curs : nat -> option nat) (files : nat -> list string) (calls : list (nat * nat * string)) : nat -> list string :=
  match calls with
  | [] => files
  | (p, n, t) :: cs =>
      let '(c, files') := write_log (curs p) files n t in
      write_logs (fun q => if q =? p then c else curs q) files' cs
  end.
