(** Model of a whole preparation as effects on the dataset's directory (C63): flavors/webdataset/prepare.py:43-104 (one archive),
    199-212 (the pool of processes), 213-220 and 255-258 (the files in .nv-meta), itar.py:40-63, tools/prepare.py:137-215 and 384-386
    (dataset.yaml); and of what opening a split part reads (metadata.py:40-47, dataset_config.py:13-18).

    Simplifications: an archive is its members or unreadable.  The YAML files are written by [enc_*] and read by [dec_*], arbitrary
    functions here (C53).  rename is atomic.  The interactive questions only decide whether dataset.yaml is written and with what. *)
From Coq Require Import String Ascii.
From Verif Require Import Base Files Tar Split.
From Verif Require Prepare.
Local Open Scope string_scope.
Local Open Scope list_scope.
Local Open Scope nat_scope.

(** ** The name of the index file: epath.py:284-287 with_suffix(".tar.idx"), pathlib's with_suffix: the last suffix of the last component
    is replaced, if it has one.  [start]: at the first character of a component *)
Fixpoint cut_suffix (start : bool) (s : string) : option string :=
  match s with
  | EmptyString => None
  | String c s' =>
      match cut_suffix (Ascii.eqb c "/") s' with
      | Some p => Some (String c p)
      | None => if Ascii.eqb c "." && negb start && negb (String.eqb s' "") && negb (has_char "/" s') && negb (has_char "." s')
                then Some EmptyString else None
      end
  end.
(** a name without suffix; the index file is stem ++ ".tar.idx", the temporary one stem ++ ".tar.idx.tmp" *)
Definition stem (name : string) : string := match cut_suffix true name with Some p => p | None => name end.

(** ** The directory *)
Inductive mfile := FInfo | FSplit | FDataset.      (* .info.yaml, split.yaml, dataset.yaml *)
Definition mfile_eqb (a b : mfile) : bool := match a, b with FInfo, FInfo | FSplit, FSplit | FDataset, FDataset => true | _, _ => false end.
Record disk := mkDisk { d_idx : string -> fs; d_file : mfile -> option bytes }.   (* index files by stem *)

Inductive op :=
| OIdx (st : string) (o : fsop)            (* one of Files.v's effects on an index file *)
| OOpen (m : mfile)                        (* open("w"): creates or truncates *)
| OWrite (m : mfile) (b : bytes).
Definition step (d : disk) (o : op) : disk :=
  match o with
  | OIdx s x => mkDisk (fun t => if String.eqb t s then fs_do x (d_idx d s) else d_idx d t) (d_file d)
  | OOpen m => mkDisk (d_idx d) (fun n => if mfile_eqb n m then Some [] else d_file d n)
  | OWrite m b => mkDisk (d_idx d) (fun n => if mfile_eqb n m then option_map (fun c => c ++ b) (d_file d m) else d_file d n)
  end.
Definition effects (l : list op) (d : disk) : disk := fold_left step l d.

(** ** One archive: prepare.py:43-104.  Effects and the number of samples reported.  [late]: whether the exceptions after line 94 (the
    count is set already) may happen: writing the last entry, closing (which writes the buffer) and renaming *)
Inductive shard_run {Dat} (late : bool) : option (list (member Dat)) -> list fsop -> nat -> Prop :=
| sr_ok ms ops : writer_run (map Z.of_nat (index_of ms)) None ops -> shard_run late (Some ms) ops (count_of ms)
| sr_unopened a : shard_run late a [] 0                                              (* not found, not a tar file, no tmp file *)
| sr_failed a offs k ops : writer_run offs (Some k) ops -> shard_run late a ops 0    (* while reading or writing *)
| sr_failed_close a b ops : writes_of b ops -> shard_run late a (CreateTmp :: ops) 0 (* ... and closing fails as well *)
| sr_late ms b ops : late = true -> writes_of b ops -> shard_run late (Some ms) (CreateTmp :: ops) (count_of ms)
| sr_late_unlink ms b ops : late = true -> writes_of b ops -> shard_run late (Some ms) (CreateTmp :: ops ++ [UnlinkTmp]) (count_of ms).

(** ** The pool: the processes' effects in any order *)
Inductive interleaved : list (list op) -> list op -> Prop :=
| il_done ls : Forall (eq []) ls -> interleaved ls []
| il_step a x l b t : interleaved (a ++ l :: b) t -> interleaved (a ++ (x :: l) :: b) (x :: t).

Definition write_file (m : mfile) (pieces : list bytes) : list op := OOpen m :: map (OWrite m) pieces.

Section Run.
  Context {Dat : Type}.
  Variable enc_info : list (string * nat) -> bytes.
  Variable enc_split : splits -> bytes.

  (** prepare.py:213-216, of the shards that did not fail *)
  Definition counts_of (infos : list Prepare.shard_info) : list (string * nat) :=
    map (fun s => (Prepare.sh_name s, Prepare.sh_count s)) (Prepare.usable_shards infos).

  (** prepare.py:210-258 in the main process; [parts]: the split parts (Prepare.v), or the exception.  tools/prepare.py:384-386: then
      dataset.yaml, if asked for *)
  Inductive main_run (infos : list Prepare.shard_info) : result (list (string * list string)) -> list op -> Prop :=
  | mr_index_only parts : main_run infos parts []                                     (* --tar-index-only *)
  | mr_failed e pi : concat pi = enc_info (counts_of infos) -> main_run infos (Err e) (write_file FInfo pi)
  | mr_ok parts pi ps : concat pi = enc_info (counts_of infos) -> concat ps = enc_split (mkSplits parts []) ->
      main_run infos (Ok parts) (write_file FInfo pi ++ write_file FSplit ps)
  | mr_dataset parts pi ps pd : concat pi = enc_info (counts_of infos) -> concat ps = enc_split (mkSplits parts []) ->
      main_run infos (Ok parts) (write_file FInfo pi ++ write_file FSplit ps ++ write_file FDataset pd).

  (** the whole run: [ar]: the archives, [paths]: their names.  A crash is a prefix of work ++ main *)
  Inductive prepare_run (late : bool) (ar : string -> option (list (member Dat))) (paths : list string)
    : list Prepare.shard_info -> result (list (string * list string)) -> list op -> list op -> Prop :=
  | prep rs parts work main :
      Forall2 (fun p r => shard_run late (ar p) (fst r) (snd r)) paths rs ->
      interleaved (map (fun pr => map (OIdx (stem (fst pr))) (fst (snd pr))) (combine paths rs)) work ->
      main_run (map (fun pr => Prepare.mkShard (fst pr) (snd (snd pr))) (combine paths rs)) parts main ->
      prepare_run late ar paths (map (fun pr => Prepare.mkShard (fst pr) (snd (snd pr))) (combine paths rs)) parts work main.
End Run.

(** ** Opening a split part *)
Section Load.
  Variable be : string -> result (list string).             (* braceexpand *)
  Variable dec_info : bytes -> option (list (string * nat)).
  Variable dec_split : bytes -> option splits.
  Variable dec_dataset : bytes -> bool.

  (** None: one of the files is missing or is not what it should be *)
  Definition open_part (d : disk) (part : string) : option meta_result :=
    match d_file d FDataset, d_file d FInfo, d_file d FSplit with
    | Some b, Some i, Some s =>
        if dec_dataset b
        then match dec_info i, dec_split s with Some counts, Some sp => Some (from_config be counts sp part) | _, _ => None end
        else None
    | _, _, _ => None
    end.
End Load.

(** ** prepare.py:82-83, 203-210: the extensions found *)
Definition add_to (x : string) (s : list string) : list string := if mem x s then s else s ++ [x].
Definition found_in {Dat} (max : nat) (ms : list (member Dat)) : list string :=
  fold_left (fun s m => match part_of m with Some (_, x) => if List.length s <? max then add_to x s else s | None => s end) ms [].
Definition found_all (max : nat) (sets : list (list string)) : list string :=
  fold_left (fun s l => if List.length s <? max then fold_left (fun s x => add_to x s) l s else s) sets [].

(** ** .info.yaml as text, for showing what an interrupted write can leave: yaml.dump of WebdatasetInfo, and yaml.safe_load of such block
    mappings (one "  name: number" per line; names without special characters) *)
Fixpoint to_bytes (s : string) : bytes := match s with EmptyString => [] | String c s' => nat_of_ascii c :: to_bytes s' end.
Fixpoint to_string (b : bytes) : string := match b with [] => EmptyString | x :: b' => String (ascii_of_nat x) (to_string b') end.
Definition newline : ascii := "010".
Fixpoint lines (cur s : string) : list string :=
  match s with
  | EmptyString => if String.eqb cur "" then [] else [cur]
  | String c s' => if Ascii.eqb c newline then cur :: lines "" s' else lines (cur ++ String c "") s'
  end.
Fixpoint number_of (acc : nat) (s : string) : option nat :=
  match s with
  | EmptyString => Some acc
  | String c s' => let d := nat_of_ascii c in if (48 <=? d) && (d <=? 57) then number_of (acc * 10 + (d - 48)) s' else None
  end.
Fixpoint split_entry (key s : string) : option (string * nat) :=
  match s with
  | String ":" (String " " (String c v)) => option_map (pair key) (number_of 0 (String c v))
  | String c s' => split_entry (key ++ String c "") s'
  | EmptyString => None
  end.
Definition entry (line : string) : option (string * nat) :=
  match line with String " " (String " " s) => split_entry "" s | _ => None end.
Fixpoint entries_of (l : list string) : option (list (string * nat)) :=
  match l with
  | [] => Some []
  | x :: l' => match entry x, entries_of l' with Some e, Some r => Some (e :: r) | _, _ => None end
  end.
Definition yaml_info (b : bytes) : option (list (string * nat)) :=
  match lines "" (to_string b) with
  | first :: rest => if String.eqb first "shard_counts:" then match rest with [] => None | _ => entries_of rest end else None
  | [] => None
  end.
Fixpoint digits (fuel n : nat) : string :=
  match fuel with
  | O => EmptyString
  | S fuel' => ((if (n <? 10)%nat then EmptyString else digits fuel' (n / 10)%nat) ++ String (ascii_of_nat (48 + n mod 10)%nat) "")%string
  end.
Definition dump_info (l : list (string * nat)) : bytes :=
  to_bytes ("shard_counts:" ++ String newline (fold_right (fun e r => "  " ++ fst e ++ ": " ++ digits (S (snd e)) (snd e) ++ String newline r) "" l))%string.
