(** Model of tools/info.py: `energon info`.  Lines 26-33 (fmt_size), 54-104 (the numbers it prints).
    Simplifications: Python floats are rational numbers and the formatting of numbers is left out; reading the YAML files and
    looking up the sample class (55-69) is left out; [sizes] is the size of each shard file. *)
From Coq Require Import String Ascii QArith.
From Verif Require Import Base Files Tar Split.
Local Open Scope string_scope.
Local Open Scope list_scope.
Local Close Scope Q_scope.
Local Open Scope nat_scope.

(** info.py:26-33 fmt_size: the number and the unit *)
Fixpoint fmt_loop (keys : list string) (size : Q) : Q * string :=
  match keys with
  | [] => (size, "TiB")
  | k :: keys' => match (size ?= 1024 # 1)%Q with
                  | Lt => (size, k)
                  | _ => fmt_loop keys' (size / (1024 # 1))%Q
                  end
  end.
Definition fmt_size (size : Z) : Q * string := fmt_loop ["B"; "KiB"; "MiB"; "GiB"; "TiB"] (inject_Z size).

(** sum(info_config["shard_counts"][shard] for shard in shards) *)
Definition count_of (counts : list (string * nat)) (shards : list string) : result nat :=
  bind (sequence (map (fun s => match lookup s counts with Some c => Ok c | None => Err KeyError end) shards)) (fun l => Ok (list_sum l)).

(** what is printed for a split part *)
Record split_line := mkLine { ln_name : string; ln_percent : Q; ln_samples : nat; ln_shards : nat }.

(** info.py:77-91 *)
Definition line_of (counts : list (string * nat)) (total : nat) (part : string * list string) : result split_line :=
  bind (count_of counts (snd part)) (fun n =>
    if total =? 0 then Err ZeroDivisionError
    else Ok (mkLine (fst part) ((100 # 1) * inject_Z (Z.of_nat n) / inject_Z (Z.of_nat total))%Q n (List.length (snd part)))).

(** info.py:71-75 srt_key *)
Definition srt_key (name : string) : nat :=
  if String.eqb name "train" then 0 else if String.eqb name "val" then 1 else if String.eqb name "test" then 2 else 3.
(** info.py:90: sorted(..., key=srt_key), which is stable *)
Definition sort_parts (parts : list (string * list string)) : list (string * list string) :=
  flat_map (fun k => filter (fun p => srt_key (fst p) =? k) parts) (seq 0 4).

Record info_report := mkReport { ir_samples : nat; ir_size : Q * string; ir_shards : nat; ir_lines : list split_line }.

(** info.py:58, 77-104 *)
Definition info (counts : list (string * nat)) (parts : list (string * list string)) (sizes : string -> Z) : result info_report :=
  let total := list_sum (map snd counts) in
  bind (sequence (map (line_of counts total) (sort_parts parts))) (fun lines =>
    Ok (mkReport total (fmt_size (zsum (map (fun p => sizes (fst p)) counts))) (List.length counts) lines)).
