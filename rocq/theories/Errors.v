(** Model of error reporting: flavors/webdataset/error_handler.py, structs.py:55-59 (reraise_exception), errors.py:57-88,
    wrappers/map_dataset.py:126-163 as used by base_webdataset.py:166-173 (a function that returns one sample),
    single_shard_reader.py:170-223 (parts that cannot be read) and tools/lint.py.

    Simplifications: an exception is its class (as far as the code looks at it) and a number standing for the rest of it.  In lint reading
    the tar files and the stages after loading (batches of one sample, built by the default task encoder) are taken not to raise. *)
From Coq Require Import String Ascii.
From Verif Require Import Base Files Tar Split.
Local Open Scope string_scope.
Local Open Scope list_scope.
Local Open Scope nat_scope.

(** errors.py:71-88: SYSTEM_EXCEPTIONS (FatalSampleError is one of them), SkipSample, and all other exceptions *)
Inductive pexc := PSystem (n : nat) | PFatal | PSkip | PUser (n : nat).
Definition is_system (e : pexc) : bool := match e with PSystem _ | PFatal => true | _ => false end.

(** a handler: None = it returns, Some e' = it raises e' *)
Definition handler := pexc -> option string -> option pexc.

(** structs.py:55-59; the raised Exception(f"For sample {key!r}") from exc carries exc along *)
Definition reraise : handler := fun e _ => Some e.
(** a handler like that of lint.py:73-78: note the error, go on *)
Definition note : handler := fun _ _ => None.

(** what a map function can get as its argument *)
Inductive item := IDict (key : option string) | ISample (key : string) | INone | IOther.
Inductive arg := One (i : item) | PyList (l : list item) | PyTuple (l : list item).

(** ",".join(...) of strings or of things that are not strings *)
Fixpoint join_keys (l : list (option string)) : result string :=
  match l with
  | [] => Ok ""
  | None :: _ => Err TypeError
  | [Some k] => Ok k
  | Some k :: l' => bind (join_keys l') (fun r => Ok (k ++ "," ++ r)%string)
  end.

(** error_handler.py:23-46: the key that is passed on *)
Definition key_of (a : arg) : result (option string) :=
  match a with
  | One (IDict k) => Ok k
  | One (ISample k) => Ok (Some k)
  | One _ => Ok None
  | PyTuple _ => Ok None                                   (* isinstance(sample, list) is false *)
  | PyList [] => Err IndexError                              (* sample[0] *)
  | PyList (IDict k :: l) =>
      bind (sequence (map (fun s => match s with INone => Ok (Some "None") | IDict k => Ok k | _ => Err OtherError (* AttributeError *) end) (IDict k :: l)))
        (fun ks => bind (join_keys ks) (fun r => Ok (Some r)))
  | PyList (ISample k :: l) =>
      bind (sequence (map (fun s => match s with INone => Ok (Some "None") | ISample k => Ok (Some k) | _ => Err OtherError end) (ISample k :: l)))
        (fun ks => bind (join_keys ks) (fun r => Ok (Some r)))
  | PyList _ => Ok None
  end.

Section Map.
  Context {A B : Type}.
  Variable load : A -> pexc + B.       (* load_sample *)
  Variable as_arg : A -> arg.          (* what the map function gets *)
  Variable h : handler.

  (** error_handler.py:17-21: None = goes on, Some e = raises e; and the call of the user's handler, if any *)
  Definition sample_error_handler (e : pexc) (key : option string) : list (pexc * option string) * option pexc :=
    if is_system e then ([], Some PFatal) else ([(e, key)], h e key).
  (** error_handler.py:23-46 *)
  Definition error_handler (e : pexc) (a : arg) : list (pexc * option string) * option pexc :=
    match key_of a with Ok key => sample_error_handler e key | Err _ => ([], Some (PUser 0)) end.

  (** map_dataset.py:126-163, on all the samples: the outputs, the calls of the user's handler, the exception that ended it *)
  Fixpoint map_load (l : list A) : list B * list (pexc * option string) * option pexc :=
    match l with
    | [] => ([], [], None)
    | x :: l' =>
        match load x with
        | inr y => let '(ys, cs, e) := map_load l' in (y :: ys, cs, e)
        | inl PSkip => map_load l'
        | inl e =>
            if is_system e then ([], [], Some PFatal)       (* except SYSTEM_EXCEPTIONS: raise FatalSampleError *)
            else let '(c, r) := error_handler e (as_arg x) in
                 match r with
                 | Some e' => ([], c, Some e')
                 | None => let '(ys, cs, e2) := map_load l' in (ys, c ++ cs, e2)
                 end
        end
    end.
End Map.

(** base_webdataset.py:166-178: the map function gets the loader's 1-tuple *)
Definition wds_arg {Dat} (r : rsample Dat) : arg := PyTuple [IDict (Some (rs_key r))].
(** joined_webdataset.py:205-215: the tuple of the columns *)
Definition joined_arg {Dat} (row : list (option (rsample Dat))) : arg :=
  PyTuple (map (fun g => match g with Some r => IDict (Some (rs_key r)) | None => INone end) row).

(** single_shard_reader.py:170-227: the members of one sample (extension, contents or the exception of reading them), with the sample's key:
    the parts that are collected, the calls of the handler, the exception that ended it (a FatalSampleError or what the handler raised) *)
Fixpoint read_parts {Dat} (h : handler) (key : string) (d : list (string * Dat)) (l : list (string * (pexc + Dat)))
  : list (string * Dat) * list (pexc * option string) * option pexc :=
  match l with
  | [] => (d, [], None)
  | (ext, inr v) :: l' => read_parts h key (dict_set ext v d) l'
  | (ext, inl e) :: l' =>
      if is_system e then (d, [], Some PFatal)
      else let '(c, r) := sample_error_handler h e (Some key) in
           match r with
           | Some e' => (d, c, Some e')
           | None => let '(d', cs, e2) := read_parts h key d l' in (d', c ++ cs, e2)
           end
  end.

(** ** tools/lint.py *)
(** lint.py:18-39; [idx]: the index file of a shard. None = not a directory (the function returns None) *)
Fixpoint check_shards (idx : string -> option bytes) (counts : list (string * nat)) (ok : bool) : result bool :=
  match counts with
  | [] => Ok ok
  | (name, n) :: l =>
      match idx name with
      | None => Err OtherError                               (* FileNotFoundError *)
      | Some f => check_shards idx l (ok && (index_len f =? n + 1))     (* l - 1 != length *)
      end
  end.
Definition check_index (is_dir : bool) (idx : string -> option bytes) (counts : list (string * nat)) : result (option bool) :=
  if is_dir then bind (check_shards idx counts true) (fun b => Ok (Some b)) else Ok None.

Inductive lint_end := LintPassed | LintFailed (ignore_list : list string) (* ClickException *) | LintCrashed (e : exn).

Section Lint.
  Context {Dat B : Type}.
  Variable load : rsample Dat -> pexc + B.
  Variable parallel : nat.                                   (* --parallel: number of worker processes *)
  (** what get_val_dataset finds for a split part: the samples, or an exception *)
  Variable part : string -> result (list (rsample Dat)).

  (** lint.py:88-116: one after the other; [failed], [ignored]: the variables of lint.py:70-78 in the main process.  With
      worker processes the handler runs in them and changes their copies of the variables. *)
  Fixpoint lint_parts (parts : list string) (failed : bool) (ignored : list string) : lint_end :=
    match parts with
    | [] => if failed then LintFailed ignored else LintPassed
    | p :: ps =>
        match part p with
        | Err _ => LintCrashed OtherError                    (* except BaseWebdatasetFactory.EmptyDatasetError: there is no such attribute *)
        | Ok samples =>
            let '(_, calls, e) := map_load load wds_arg note samples in
            match e with
            | Some _ => LintFailed []                        (* except BaseException: raise ClickException *)
            | None =>
                let seen := if parallel =? 0 then calls else [] in
                lint_parts ps (failed || negb (List.length seen =? 0))
                  (ignored ++ flat_map (fun c => match snd c with Some k => [k] | None => [] end) seen)
            end
        end
    end.

  (** lint.py:62-124 *)
  Definition lint (is_dir : bool) (idx : string -> option bytes) (counts : list (string * nat)) (parts : list string) : lint_end :=
    match check_index is_dir idx counts with
    | Err e => LintCrashed e
    | Ok (Some true) => lint_parts parts false []
    | Ok _ => LintFailed []                                  (* if not check_index(path) *)
    end.
End Lint.
