(** Model of path comparison and of how `energon prepare` finds the tar files:
    epathlib/epath.py:174-182 (_internal_fs_path, _internal_nonfs_path), 197-201 (parent), 222-230 (absolute), 256-277 (glob),
    344-352 (__lt__), 363-367 (__hash__, __eq__);
    tools/prepare.py:138-166 (the list of tar files).
    Simplifications: the file system's own glob is an arbitrary function from search patterns to the path strings it reports, so
    nothing is assumed about pattern matching or the order of the listing; names are byte strings, compared byte by byte (for UTF-8
    this is Python's comparison by code points); sorted() is an insertion sort that calls __lt__ (P_Discover.v shows that any
    other sorting method gives the same list); the confirmation prompts are answered with yes. *)
From Coq Require Import String Ascii.
From Verif Require Import Base Epath.
Local Open Scope string_scope.
Local Open Scope list_scope.
Local Open Scope nat_scope.

(** Python's str < str *)
Fixpoint str_lt (a b : string) : bool :=
  match a, b with
  | "", "" => false
  | "", String _ _ => true
  | String _ _, "" => false
  | String c a', String d b' =>
      if Ascii.eqb c d then str_lt a' b' else nat_of_ascii c <? nat_of_ascii d
  end.

(** Python's list < list *)
Fixpoint parts_lt (a b : list string) : bool :=
  match a, b with
  | [], [] => false
  | [], _ :: _ => true
  | _ :: _, [] => false
  | x :: a', y :: b' => if String.eqb x y then parts_lt a' b' else str_lt x y
  end.

(** PurePosixPath.parts: the root counts as a component *)
Definition all_parts (p : ppath) : list string := (if p_abs p then ["/"] else []) ++ p_parts p.

(** str(path[:num_fs_path_parts]): the remote name of an rclone path *)
Definition same_fs_part (a b : epath) : bool :=
  match fs_path a, fs_path b with
  | [], [] => true
  | x :: _, y :: _ => String.eqb x y
  | _, _ => false
  end.
Definition proto_eqb (a b : protocol) : bool :=
  match a, b with PLocal, PLocal => true | PRclone, PRclone => true | _, _ => false end.

(** epath.py:344-352 __lt__ *)
Definition elt (a b : epath) : result bool :=
  if negb (opt_eqb (e_fs a) (e_fs b)) then Err AssertionError
  else if negb (proto_eqb (e_proto a) (e_proto b)) then Err AssertionError
  else if negb (same_fs_part a b) then Err AssertionError
  else Ok (parts_lt (all_parts (e_path a)) (all_parts (e_path b))).

Fixpoint parts_eqb (a b : list string) : bool :=
  match a, b with
  | [], [] => true
  | x :: a', y :: b' => String.eqb x y && parts_eqb a' b'
  | _, _ => false
  end.
(** epath.py:366-367 __eq__ *)
Definition eeq (a b : epath) : bool :=
  Bool.eqb (p_abs (e_path a)) (p_abs (e_path b)) && parts_eqb (p_parts (e_path a)) (p_parts (e_path b)) &&
  proto_eqb (e_proto a) (e_proto b).
(** epath.py:363-364 __hash__, for Python's hash of a path and of a pair of hashes *)
Definition ehash (h : ppath -> protocol -> nat) (a : epath) : nat := h (e_path a) (e_proto a).

(** epath.py:197-201 parent: pathlib's parent of the internal path (the root is its own parent) *)
Definition eparent (a : epath) : epath :=
  mkEP (mkP (p_abs (e_path a)) (removelast (p_parts (e_path a)))) (e_proto a) (e_fs a).

(** sorted(): insert before the first element that is greater *)
Fixpoint einsert (x : epath) (l : list epath) : result (list epath) :=
  match l with
  | [] => Ok [x]
  | y :: l' =>
      bind (elt x y) (fun b => if b then Ok (x :: y :: l') else bind (einsert x l') (fun r => Ok (y :: r)))
  end.
Fixpoint esort_into (acc l : list epath) : result (list epath) :=
  match l with
  | [] => Ok acc
  | x :: l' => bind (einsert x acc) (fun acc' => esort_into acc' l')
  end.
Definition esorted (l : list epath) : result (list epath) := esort_into [] l.

Section Mapping.
  Context {A B : Type}.
  Variable f : A -> result B.
  Fixpoint each (l : list A) : result (list B) :=
    match l with [] => Ok [] | x :: l' => bind (f x) (fun y => bind (each l') (fun r => Ok (y :: r))) end.
End Mapping.

Section Glob.
  (** self.fs.glob *)
  Variable fsglob : string -> list string.

  (** epath.py:256-277 glob *)
  Definition eglob (a : epath) (pattern : string) : result (list epath) :=
    if negb (p_abs (e_path a)) then Err AssertionError else
    bind (epath_of [] pattern) (fun rel =>
    bind (ejoin a rel) (fun q =>
    let search := match e_proto a with
                  | PLocal => ("/" ++ join_slash (nonfs_path q))%string
                  | PRclone => join_slash (nonfs_path q)                    (* without the leading slash *)
                  end in
    each (fun s =>
            match e_proto a with
            | PLocal =>
                if p_abs (parse s) then bind (resolve (parse s)) (fun p => Ok (mkEP p (e_proto a) (e_fs a)))
                else Err AssertionError
            | PRclone =>
                bind (resolve (pjoin (mkP true (fs_path a)) (parse s))) (fun p => Ok (mkEP p (e_proto a) (e_fs a)))
            end) (fsglob search))).

  (** tools/prepare.py:155-159: all tar files below [a], as path strings relative to [a], without the excluded ones *)
  Definition discover (a : epath) (exclude : string -> bool) : result (list string) :=
    bind (eglob a "**/*.tar") (fun t1 =>
    bind (eglob a "**/*.tgz") (fun t2 =>
    bind (esorted (t1 ++ t2)) (fun ts =>
    bind (each (fun p => bind (erelative_to p a) (fun l => Ok (render (mkP false l)))) ts) (fun names =>
    Ok (filter (fun s => negb (exclude s)) names))))).
End Glob.

(** epath.py:222-230 absolute, in the working directory [cwd] *)
Definition eabsolute (cwd : list string) (a : epath) : epath :=
  match e_proto a with
  | PLocal => if p_abs (e_path a) then a else mkEP (mkP true (cwd ++ p_parts (e_path a))) PLocal None
  | PRclone => a
  end.
