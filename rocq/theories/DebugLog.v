(** Model of the debug logs: worker.py:236-262 (should_log, worker_log: which file a process writes to), wrappers/log_sample_dataset.py:18-52
    (default_get_keys: the keys of a logged batch) and 92-112 (LogSampleDataset: one entry for every yielded batch). *)
From Coq Require Import String ZArith.
From Verif Require Import Base Dataset Wrap Wrappers WorkerConfig.
Local Open Scope string_scope.
Local Open Scope list_scope.
Local Open Scope nat_scope.

(* ---------------- the files ---------------- *)
Section Files.
  (** worker_debug_path.format(worker_id=, pid=), worker.py:253-256 *)
  Variable fmt : Z -> Z -> string.

  Definition bytes := list nat.
  (** the files of the (shared) file system *)
  Definition fs := string -> option bytes.
  Definition put (p : string) (b : bytes) (f : fs) : fs := fun q => if String.eqb q p then Some b else f q.

  (** write(2) at a file position: a hole is filled with zeros *)
  Definition write_at (off : nat) (d content : bytes) : bytes :=
    firstn off (content ++ repeat 0 (off - length content)) ++ d ++ skipn (off + length d) content.

  (** the number of the process in the logs, worker.py:245-249: the main process of a rank and then its workers *)
  Definition log_id (c : wcfg) (e : wenv) : result Z :=
    bind (rank_worker_id c e) (fun i =>
    Ok (rank c * (num_workers c + 1) + i + match winfo e with Some _ => 1 | None => 0 end)%Z).

  (** a process: its pid, its configuration, and _worker_debug_file with its _worker_debug_file_worker_id: number, path and position *)
  Record proc := mkProc { p_pid : Z; p_cfg : wcfg; p_file : option (Z * (string * nat)) }.

  (** worker_log, worker.py:239-262, with worker_debug_path set.  path.open("w") creates or empties the file; every entry is flushed
      at once.  Not modelled: path.parent.mkdir, failing writes, and files removed meanwhile. *)
  Definition worker_log (e : wenv) (d : bytes) (p : proc) (f : fs) : result (proc * fs) :=
    bind (log_id (p_cfg p) e) (fun i =>
    let '(path, off, f1) :=
      match p_file p with
      | Some (j, (path, off)) => if (j =? i)%Z then (path, off, f) else (fmt i (p_pid p), 0, put (fmt i (p_pid p)) [] f)
      | None => (fmt i (p_pid p), 0, put (fmt i (p_pid p)) [] f)
      end in
    Ok (mkProc (p_pid p) (p_cfg p) (Some (i, (path, off + length d))),
        put path (write_at off d (match f1 path with Some b => b | None => [] end)) f1)).

  (** processes that log one after the other, in some order: (which one, its environment then, the entry) *)
  Definition logev : Type := nat * wenv * bytes.
  Fixpoint run_logs (evs : list logev) (ps : list proc) (f : fs) : result (list proc * fs) :=
    match evs with
    | [] => Ok (ps, f)
    | (k, e, d) :: evs' =>
        match nth_error ps k with
        | None => Err IndexError
        | Some p => bind (worker_log e d p f) (fun '(p', f') => run_logs evs' (upd ps k p') f')
        end
    end.
End Files.

(* ---------------- the keys of a batch ---------------- *)
(** what default_get_keys looks at: strings, lists, dicts, objects with attributes, and things that cannot be iterated *)
Inductive pyv :=
| KStr (s : string)
| KList (l : list pyv)
| KDict (d : list (string * pyv))
| KObj (attrs : list (string * pyv))
| KOther (n : nat).

Fixpoint kfind (k : string) (l : list (string * pyv)) : option pyv :=
  match l with [] => None | (k', v) :: l' => if String.eqb k k' then Some v else kfind k l' end.
Definition is_str (v : pyv) : bool := match v with KStr _ => true | _ => false end.

(** all(isinstance(k, str) for k in v): a string yields its characters, a dict its keys *)
Definition all_strs (v : pyv) : result bool :=
  match v with
  | KStr _ | KDict _ => Ok true
  | KList l => Ok (forallb is_str l)
  | KObj _ | KOther _ => Err TypeError
  end.

(** hasattr(batch, name) and isinstance(batch.name, list) and all(...), lines 22-33 *)
Definition attr_keys (name : string) (b : pyv) : option pyv :=
  match b with
  | KObj a => match kfind name a with Some (KList l) => if forallb is_str l then Some (KList l) else None | _ => None end
  | _ => None
  end.
(** isinstance(batch, dict) and name in batch and all(...), lines 34-51 *)
Definition item_keys (name : string) (b : pyv) : result (option pyv) :=
  match b with
  | KDict d => match kfind name d with Some v => bind (all_strs v) (fun ok => Ok (if ok then Some v else None)) | None => Ok None end
  | _ => Ok None
  end.

(** default_get_keys, log_sample_dataset.py:18-52 *)
Definition first_of (batch : pyv) : result pyv :=
  match batch with KList [] => Err IndexError | KList (b :: _) => Ok b | b => Ok b end.
Definition default_get_keys (batch : pyv) : result (option pyv) :=
  bind (first_of batch) (fun b =>
  match attr_keys "__key__" b with
  | Some k => Ok (Some k)
  | None =>
      match attr_keys "__keys__" b with
      | Some k => Ok (Some k)
      | None =>
          bind (item_keys "__key__" b) (fun r => match r with Some k => Ok (Some k) | None =>
          bind (item_keys "__keys__" b) (fun r => match r with Some k => Ok (Some k) | None =>
          item_keys "keys" b end) end)
      end
  end).

(* ---------------- the entries ---------------- *)
(** log_sample_dataset.py:92-112: the number ("idx") that the entry of the next batch gets in worker [w]; should_log(level=1) holds,
    otherwise there is no LogSampleDataset (task_encoder/base.py:553) *)
Definition log_number {A} (nw : nat) (w : nat) (o : t_obj (log_ds (A := A) nw)) : nat := nth w o 0.
