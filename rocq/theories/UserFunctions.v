(** Model of module_loader.py (whole file) and of the use of user functions in default_generic_webdataset.py:48-107 (sample_loader and
    part_filter; the field map is in Load.v), default_decoder_webdataset.py:85-107 and joined_webdataset.py:143, 185-195 (C62).

    Simplifications: running a module's code gives its top-level names, each callable or not, or an exception; a function is identified by
    the number of the execution that made it and its name.  Module code does not load modules itself.  [fs] says what the files contain at
    the time of a call; it may be different at every call. *)
From Coq Require Import String Ascii.
From Verif Require Import Base Epath Tar FieldAccess Load.
Local Open Scope string_scope.
Local Open Scope list_scope.
Local Open Scope nat_scope.

Definition colon : ascii := ":".

(** s.rsplit(":", 1), None if there is no colon *)
Fixpoint rsplit_colon (s : string) : option (string * string) :=
  match s with
  | EmptyString => None
  | String c s' =>
      match rsplit_colon s' with
      | Some (a, b) => Some (String c a, b)
      | None => if Ascii.eqb c colon then Some (EmptyString, s') else None
      end
  end.

(** epath.py:366-367 __eq__ *)
Fixpoint strs_eqb (a b : list string) : bool :=
  match a, b with
  | [], [] => true
  | x :: a', y :: b' => String.eqb x y && strs_eqb a' b'
  | _, _ => false
  end.
Definition proto_eqb (a b : protocol) : bool := match a, b with PLocal, PLocal | PRclone, PRclone => true | _, _ => false end.
Definition epath_eqb (a b : epath) : bool :=
  Bool.eqb (p_abs (e_path a)) (p_abs (e_path b)) && strs_eqb (p_parts (e_path a)) (p_parts (e_path b)) && proto_eqb (e_proto a) (e_proto b).

(** epath.py:354-358 __str__ *)
Definition estr (p : epath) : result string := if p_abs (e_path p) then url p else Ok (render (e_path p)).

Section Modules.
  Context {Src : Type}.
  Variable run : Src -> result (list (string * bool)).     (* compile and execute: name, callable? *)
  Variable remotes : list string.

  Definition modul := (nat * list (string * bool))%type.   (* number of the execution, names *)
  Fixpoint name_in (n : string) (l : list (string * bool)) : option bool :=
    match l with [] => None | (k, c) :: l' => if String.eqb k n then Some c else name_in n l' end.

  (** the process: ModuleLoader._modules (module_loader.py:13), and the executions so far *)
  Record process := mkProc { p_cache : list (epath * modul); p_log : list (epath * Src) }.
  Definition start : process := mkProc [] [].

  Fixpoint cached (p : epath) (c : list (epath * modul)) : option modul :=
    match c with [] => None | (q, m) :: c' => if epath_eqb q p then Some m else cached p c' end.

  (** module_loader.py:15-23 *)
  Definition load_module (fs : epath -> option Src) (st : process) (p : epath) : process * result modul :=
    if negb (p_abs (e_path p)) then (st, Err AssertionError)          (* path.open *)
    else match fs p with
         | None => (st, Err OtherError)                                (* FileNotFoundError *)
         | Some src =>
             match run src with
             | Err e => (st, Err e)
             | Ok names => let m := (List.length (p_log st), names) in (mkProc ((p, m) :: p_cache st) (p_log st ++ [(p, src)]), Ok m)
             end
         end.

  (** module_loader.py:25-38 *)
  Definition get_module (fs : epath -> option Src) (st : process) (p : epath) : process * result modul :=
    match cached p (p_cache st) with Some m => (st, Ok m) | None => load_module fs st p end.

  (** module_loader.py:61-70: the module's path and the function's name *)
  Definition parse_fn (module_fn : string) (default : option string) (rel : option epath) : result (epath * string) :=
    bind (match rsplit_colon module_fn with
          | Some (m, f) => Ok (m, f)
          | None => match default with None => Err ValueError | Some f => Ok (module_fn, f) end
          end)
      (fun '(m, f) =>
         match rel with
         | None => bind (epath_of remotes m) (fun p => Ok (p, f))
         | Some r => bind (epath_of remotes m) (fun o => bind (ejoin r o) (fun q => bind (estr q) (fun u => bind (epath_of remotes u) (fun p => Ok (p, f)))))
         end).

  (** module_loader.py:40-73: the execution the function comes from, and its name *)
  Definition get_function (fs : epath -> option Src) (st : process) (module_fn : string) (default : option string) (rel : option epath)
    : process * result (nat * string) :=
    match parse_fn module_fn default rel with
    | Err e => (st, Err e)
    | Ok (p, f) =>
        match get_module fs st p with
        | (st', Err e) => (st', Err e)
        | (st', Ok (i, names)) =>
            (st', match name_in f names with None => Err KeyError | Some false => Err AssertionError | Some true => Ok (i, f) end)
        end
    end.

  (** calls one after the other *)
  Record call := mkCall { c_fs : epath -> option Src; c_fn : string; c_default : option string; c_rel : option epath }.
  Fixpoint calls (st : process) (l : list call) : process * list (result (nat * string)) :=
    match l with
    | [] => (st, [])
    | c :: l' => let (st1, r) := get_function (c_fs c) st (c_fn c) (c_default c) (c_rel c) in
                 let (st2, rs) := calls st1 l' in (st2, r :: rs)
    end.
End Modules.

(** ** Loading with a sample_loader *)
(** the forms of the two arguments *)
Inductive farg := FName (s : string) | FCallable (i : nat * string) | FList (l : list string) | FWrong.
Inductive filt := Parts (l : list string) | Function (i : nat * string).

(** default_generic_webdataset.py:48-72: the loader and the filter to use; [main] = path / MAIN_FOLDER_NAME.  [has_map]: field_map given *)
Definition choose {Src} run remotes (fs : epath -> option Src) (st : process) (main : epath) (has_map : bool) (loader filter : option farg)
  : process * result ((nat * string) * filt) :=
  match loader with
  | None => (st, Err AssertionError)                                   (* the field map: Load.v *)
  | Some lo =>
      if has_map then (st, Err AssertionError) else
      match filter with
      | None => (st, Err AssertionError)
      | Some fi =>
          let (st1, r1) := match lo with
                           | FName s => get_function run remotes fs st s (Some "sample_loader") (Some main)
                           | FCallable i => (st, Ok i)
                           | _ => (st, Err AssertionError)
                           end in
          match r1 with
          | Err e => (st1, Err e)
          | Ok i =>
              match fi with
              | FList l => (st1, Ok (i, Parts l))
              | FName s => let (st2, r2) := get_function run remotes fs st1 s (Some "part_filter") (Some main) in
                           (st2, bind r2 (fun j => Ok (i, Function j)))
              | FCallable j => (st1, Ok (i, Function j))
              | FWrong => (st1, Err AssertionError)
              end
          end
      end
  end.

Section UserLoad.
  Context {Dat : Type}.
  Variable dec : string -> Dat -> option value.
  Variable str : string -> value.
  Variable rkval : string * nat -> value.
  (** what the user's functions do *)
  Variable user : value -> result (list (string * value)).
  Variable user_filter : string -> bool.

  (** 63-72 *)
  Definition part_filter (f : filt) : string -> bool :=
    match f with Parts l => fun part => mem part l | Function _ => user_filter end.

  (** 94-105, default_decoder_webdataset.py:104-107.  [ignore]: ignore_decoder_errors, which the decoder is not told about *)
  Definition user_load (ignore : bool) (cls : dclass) (subflavor subflavors : value) (r : rsample Dat) : result instance :=
    match decode dec str rkval r with
    | None => Err OtherError
    | Some v =>
        bind (user v) (fun inner =>
        construct cls ([("__restore_key__", rkval (rs_rk r)); ("__subflavor__", subflavor); ("__subflavors__", subflavors)]
                       ++ inner ++ [("__key__", str (rs_key r))]))
    end.
End UserLoad.

(** joined_webdataset.py:143, 187: the filter with which a join reads all its columns: its own argument, not those of the joined datasets *)
Definition join_filter (given : option (string -> bool)) : string -> bool := match given with Some f => f | None => fun _ => true end.
