(** Model of the remaining operations of EPath: epathlib/epath.py:193-201 (name, parent), 256-277 (glob), 284-298
    (with_suffix, move), 344-352 (<), 366-367 (==; __rtruediv__ is never called: the left operand's __truediv__ is), and of the names of index files: flavors/webdataset/itar.py:13,
    19, 44-46, and of the list of shards: tools/prepare.py:155-156.

    Simplifications: those of Epath.v.  The file system's glob and mv are arbitrary functions.  Strings are compared by
    their bytes (in UTF-8 this is the order of the code points, in which Python compares).  A file system is equal to
    another if it was made for the same remote. *)
From Coq Require Import String Ascii.
From Verif Require Import Base Epath.
Local Open Scope string_scope.
Local Open Scope list_scope.
Local Open Scope nat_scope.

(** PurePosixPath.name: epath.py:193-195 *)
Definition ename (a : epath) : string := last (p_parts (e_path a)) "".

(** PurePosixPath.parent: epath.py:197-201; the parent of a root is the root *)
Definition eparent (a : epath) : epath := mkEP (mkP (p_abs (e_path a)) (removelast (p_parts (e_path a)))) (e_proto a) (e_fs a).

(** name.rfind("."): what comes before and after the last dot *)
Fixpoint last_dot (s : string) : option (string * string) :=
  match s with
  | EmptyString => None
  | String c s' =>
      match last_dot s' with
      | Some (a, b) => Some (String c a, b)
      | None => if Ascii.eqb c "." then Some ("", s') else None
      end
  end.

(** the name without PurePosixPath.suffix *)
Definition stem (n : string) : string :=
  match last_dot n with
  | Some (a, b) => if String.eqb a "" || String.eqb b "" then n else a
  | None => n
  end.

(** PurePosixPath.with_suffix: epath.py:284-287 *)
Definition ewith_suffix (a : epath) (suf : string) : result epath :=
  if negb (length (split_slash suf) =? 1) then Err ValueError
  else if negb (String.eqb suf "") && (negb (String.prefix "." suf) || String.eqb suf ".") then Err ValueError
  else if String.eqb (ename a) "" then Err ValueError
  else Ok (mkEP (mkP (p_abs (e_path a)) (removelast (p_parts (e_path a)) ++ [(stem (ename a) ++ suf)%string])) (e_proto a) (e_fs a)).

(** itar.py:19, 45-46 *)
Definition index_name (a : epath) : result epath := ewith_suffix a ".tar.idx".
Definition index_tmp_name (a : epath) : result epath := ewith_suffix a ".tar.idx.tmp".

(** lexicographic order *)
Fixpoint lex {A} (lt eq : A -> A -> bool) (a b : list A) : bool :=
  match a, b with
  | _, [] => false
  | [], _ :: _ => true
  | x :: a', y :: b' => lt x y || (eq x y && lex lt eq a' b')
  end.
Definition slt (s t : string) : bool := lex (fun c d => nat_of_ascii c <? nat_of_ascii d) Ascii.eqb (list_ascii_of_string s) (list_ascii_of_string t).

Definition proto_eqb (a b : protocol) : bool := match a, b with PLocal, PLocal | PRclone, PRclone => true | _, _ => false end.
Definition same_fs (a b : epath) : bool :=
  opt_eqb (e_fs a) (e_fs b) && proto_eqb (e_proto a) (e_proto b) &&
  match fs_path a, fs_path b with [], [] => true | x :: _, y :: _ => String.eqb x y | _, _ => false end.

(** PurePosixPath.__lt__ compares the parts; the root is the part "/" (epath.py:344-352) *)
Definition all_parts (p : ppath) : list string := if p_abs p then "/" :: p_parts p else p_parts p.
Definition elt (a b : epath) : result bool :=
  if same_fs a b then Ok (lex slt String.eqb (all_parts (e_path a)) (all_parts (e_path b))) else Err AssertionError.

(** epath.py:366-367 *)
Fixpoint strs_eqb (a b : list string) : bool :=
  match a, b with [], [] => true | x :: a', y :: b' => String.eqb x y && strs_eqb a' b' | _, _ => false end.
Definition eeq (a b : epath) : bool :=
  Bool.eqb (p_abs (e_path a)) (p_abs (e_path b)) && strs_eqb (p_parts (e_path a)) (p_parts (e_path b)) && proto_eqb (e_proto a) (e_proto b).

(** epath.py:256-277; [fsglob remote pattern]: the paths found, as strings; the pattern is given as the components of the path *)
Definition eglob (remotes : list string) (fsglob : option string -> list string -> list string) (a : epath) (pattern : string) : result (list epath) :=
  if p_abs (e_path a) then
    bind (epath_of remotes pattern) (fun r => bind (ejoin a r) (fun q =>
      sequence (map (fun s =>
        match e_proto a with
        | PLocal =>
            if p_abs (parse s) then bind (resolve (parse s)) (fun p => Ok (mkEP p (e_proto a) (e_fs a)))
            else Err AssertionError
        | PRclone =>
            bind (resolve (pjoin (mkP true (fs_path a)) (parse s))) (fun p => Ok (mkEP p (e_proto a) (e_fs a)))
        end) (fsglob (e_fs a) (nonfs_path q)))))
  else Err AssertionError.

(** epath.py:289-298: the arguments of the file system's mv *)
Definition emove (a b : epath) : result (option string * list string * list string) :=
  if p_abs (e_path a) && p_abs (e_path b) then
    if same_fs a b then Ok (e_fs a, nonfs_path a, nonfs_path b) else Err AssertionError
  else Err AssertionError.

(** prepare.py:155-156: the shards: what the two globs found, sorted, relative to the dataset's path.  Simplification: all paths are on
    the dataset's file system (C80_glob_remote, C80_glob_local), so they are given by their parts; sorted() is an insertion sort
    that uses only <. *)
Fixpoint ins {A} (lt : A -> A -> bool) (x : A) (l : list A) : list A :=
  match l with [] => [x] | y :: l' => if lt y x then y :: ins lt x l' else x :: y :: l' end.
Definition sort {A} (lt : A -> A -> bool) (l : list A) : list A := fold_right (ins lt) [] l.
Definition shard_list (base : list string) (tars tgzs : list (list string)) : result (list string) :=
  sequence (map (fun p => match strip_prefix base p with Some r => Ok (join_slash r) | None => Err ValueError end)
                (sort (lex slt String.eqb) (tars ++ tgzs))).
