(** Model of epathlib/epath.py: EPath (lines 18-106, 174-182, 203-213, 305-342).

    pathlib.PurePosixPath is modelled as (absolute?, list of components): pathlib itself drops empty
    components and "." when parsing.  Simplifications: a path that starts with exactly two slashes
    (a separate root in POSIX) is treated like one slash; names contain no newline; file system
    access, S3 credentials and the fork handling are not modelled: the file system object is
    represented by the name of the remote it was created for. *)
From Coq Require Import String Ascii.
From Verif Require Import Base.
Local Open Scope string_scope.
Local Open Scope list_scope.
Local Open Scope nat_scope.

Record ppath := mkP { p_abs : bool; p_parts : list string }.

(** components between slashes *)
Fixpoint split_slash (s : string) : list string :=
  match s with
  | EmptyString => [""]
  | String c s' =>
      if Ascii.eqb c "/" then "" :: split_slash s'
      else match split_slash s' with x :: r => String c x :: r | [] => [String c ""] end
  end.

Definition keep_part (s : string) : bool := negb (String.eqb s "") && negb (String.eqb s ".").

(** PurePosixPath(s) *)
Definition parse (s : string) : ppath :=
  mkP (match s with String c _ => Ascii.eqb c "/" | EmptyString => false end) (filter keep_part (split_slash s)).

Fixpoint join_slash (l : list string) : string :=
  match l with [] => "" | [x] => x | x :: l' => (x ++ "/" ++ join_slash l')%string end.

(** str(path) *)
Definition render (p : ppath) : string :=
  if p_abs p then ("/" ++ join_slash (p_parts p))%string
  else match p_parts p with [] => "." | l => join_slash l end.

(** a / b *)
Definition pjoin (a b : ppath) : ppath := if p_abs b then b else mkP (p_abs a) (p_parts a ++ p_parts b).

(** epath.py:78-98 _resolve, the loop (new_parts reversed) *)
Fixpoint resolve_loop (acc : list string) (l : list string) : result (list string) :=
  match l with
  | [] => Ok (rev acc)
  | x :: l' =>
      if String.eqb x ".." then match acc with [] => Err ValueError | _ :: acc' => resolve_loop acc' l' end
      else resolve_loop (x :: acc) l'
  end.
Definition resolve (p : ppath) : result ppath :=
  if p_abs p
  then if existsb (String.eqb "..") (p_parts p)
       then bind (resolve_loop [] (p_parts p)) (fun l => Ok (mkP true l))
       else Ok p
  else match p_parts p with [] => Err IndexError | _ => Err ValueError end.

Inductive protocol := PLocal | PRclone.

(** e_fs: the remote the file system object was created for (None: local) *)
Record epath := mkEP { e_path : ppath; e_proto : protocol; e_fs : option string }.

(** epath.py:100-106: ^(?P<protocol>[a-z]+)://(?P<path>.+)$ *)
Definition is_lower (c : ascii) : bool := let n := nat_of_ascii c in (97 <=? n) && (n <=? 122).
Fixpoint split_protocol (s : string) : option (string * string) :=
  match s with
  | String c s' =>
      if is_lower c then
        match s' with
        | String ":" (String "/" (String "/" (String _ _ as r))) => Some (String c "", r)
        | _ => match split_protocol s' with Some (p, r) => Some (String c p, r) | None => None end
        end
      else None
  | EmptyString => None
  end.

(** epath.py:36-76 with a string argument; [remotes] = names in the rclone config *)
Definition epath_of (remotes : list string) (s : string) : result epath :=
  match split_protocol s with
  | None => Ok (mkEP (parse s) PLocal None)
  | Some (proto, path) =>
      if String.eqb proto "rclone" then
        let path := match path with String "/" _ => path | _ => ("/" ++ path)%string end in
        bind (resolve (parse path)) (fun p =>
          match p_parts p with
          | [] => Err IndexError                        (* self.internal_path.parts[1] *)
          | remote :: _ => if existsb (String.eqb remote) remotes then Ok (mkEP p PRclone (Some remote)) else Err ValueError
          end)
      else Err ValueError
  end.

(** epath.py:318-330 self / other; [other] already converted (epath_of for strings) *)
Definition ejoin (a b : epath) : result epath :=
  if p_abs (e_path a) then
    if p_abs (e_path b) then Ok b
    else bind (resolve (pjoin (e_path a) (e_path b))) (fun p => Ok (mkEP p (e_proto a) (e_fs a)))
  else Err AssertionError.

(** epath.py:174-182: the path inside the file system: without root and remote name *)
Definition nonfs_path (a : epath) : list string :=
  match e_proto a with PLocal => p_parts (e_path a) | PRclone => tl (p_parts (e_path a)) end.
Definition fs_path (a : epath) : list string :=
  match e_proto a with PLocal => [] | PRclone => firstn 1 (p_parts (e_path a)) end.

(** epath.py:203-213 url *)
Definition url (a : epath) : result string :=
  if p_abs (e_path a) then
    match e_proto a with
    | PRclone => Ok ("rclone://" ++ join_slash (p_parts (e_path a)))%string
    | PLocal => Ok (render (e_path a))
    end
  else Err AssertionError.

Definition opt_eqb (a b : option string) : bool :=
  match a, b with Some x, Some y => String.eqb x y | None, None => true | _, _ => false end.

Fixpoint strip_prefix (a b : list string) : option (list string) :=
  match a, b with
  | [], b => Some b
  | x :: a', y :: b' => if String.eqb x y then strip_prefix a' b' else None
  | _ :: _, [] => None
  end.

(** epath.py:305-316 relative_to: the components (str() of them is returned) *)
Definition erelative_to (a b : epath) : result (list string) :=
  if negb (p_abs (e_path a)) || negb (p_abs (e_path b)) then Err AssertionError
  else if negb (opt_eqb (e_fs a) (e_fs b)) then Err AssertionError
  else if negb (match fs_path a, fs_path b with [], [] => true | x :: _, y :: _ => String.eqb x y | _, _ => false end) then Err AssertionError
  else match strip_prefix (p_parts (e_path b)) (p_parts (e_path a)) with Some l => Ok l | None => Err ValueError end.
