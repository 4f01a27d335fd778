(** Model of epathlib/rclone_config.py and of epathlib/epath.py:108-147 (create_s3fs_from_rclone_remote): which rclone configuration
    is read, what its sections say, and how a remote is connected to.

    Simplifications: paths are lists of components; an unset or empty XDG_CONFIG_HOME is [None]; the text of the configuration file
    is given as its sections, in order, with option names in lower case and values as written (no DEFAULT section, which
    configparser treats as defaults of the others); configparser refuses files with two sections of one name, or two options
    of one name in a section.  What S3FileSystem does with its arguments is not modelled. *)
From Coq Require Import String Ascii.
From Verif Require Import Base.
Local Open Scope string_scope.
Local Open Scope list_scope.
Local Open Scope nat_scope.

Definition path := list string.

(** the sections of a file: name and options *)
Definition rawcfg := list (string * list (string * string)).

(** what the functions look at: shutil.which("rclone"), XDG_CONFIG_HOME, Path.home(), and the files *)
Record env := mkEnv {
  exe : option path;
  xdg : option path;
  home : path;
  is_file : path -> bool;
  is_dir : path -> bool;
  text : path -> rawcfg
}.

(** Path.with_name *)
Definition with_name (p : path) (n : string) : path := removelast p ++ [n].

(** rclone_config.py:32-58 get_rclone_config_path (with find_executable_path, 23-29) *)
Definition config_path (e : env) : option path :=
  let third :=
    let p := home e ++ [".config"; "rclone"; "rclone.conf"] in
    if is_file e p then Some p
    else let q := home e ++ [".rclone.conf"] in if is_file e q then Some q else None in
  let second :=
    match xdg e with
    | Some x => if is_dir e x then let p := x ++ ["rclone"; "rclone.conf"] in if is_file e p then Some p else third else third
    | None => third
    end in
  match exe e with
  | Some x => if is_file e x then let p := with_name x "rclone.conf" in if is_file e p then Some p else second else second
  | None => second
  end.

(** str.lower on ASCII *)
Definition low (c : ascii) : ascii := let n := nat_of_ascii c in if (65 <=? n) && (n <=? 90) then ascii_of_nat (n + 32) else c.
Fixpoint lower (s : string) : string := match s with EmptyString => "" | String c s' => String (low c) (lower s') end.

Fixpoint sfind {A} (k : string) (l : list (string * A)) : option A :=
  match l with [] => None | (k', v) :: l' => if String.eqb k k' then Some v else sfind k l' end.

(** configparser.BasicInterpolation._interpolate_some, used by config[section].get (rclone_config.py:70-76): %% is a percent sign,
    %(name)s the value of another option of the section, any other percent sign is an error; at most ten levels *)
Fixpoint interp (d : nat) (m : list (string * string)) (s : string) : result string :=
  match d with
  | O => Err OtherError
  | S d' =>
      (fix go (st : option string) (s : string) {struct s} : result string :=
         match st with
         | None =>
             match s with
             | EmptyString => Ok ""
             | String "%" (String "%" r) => bind (go None r) (fun t => Ok (String "%" t))
             | String "%" (String "(" r) => go (Some "") r
             | String "%" _ => Err OtherError
             | String c r => bind (go None r) (fun t => Ok (String c t))
             end
         | Some name =>
             match s with
             | EmptyString => Err OtherError
             | String ")" (String "s" r) =>
                 if String.eqb name "" then Err OtherError
                 else match sfind (lower name) m with
                      | None => Err OtherError
                      | Some v => bind (interp d' m v) (fun a => bind (go None r) (fun t => Ok (a ++ t)%string))
                      end
             | String ")" _ => Err OtherError
             | String c r => go (Some (name ++ String c "")%string) r
             end
         end) None s
  end.

(** rclone_config.py:12-20 ConfigEntry *)
Record entry := mkEntry {
  en_type : option string; en_provider : option string; en_key : option string; en_secret : option string;
  en_region : option string; en_endpoint : option string }.

(** config[section].get(option) *)
Definition opt_get (m : list (string * string)) (o : string) : result (option string) :=
  match sfind o m with None => Ok None | Some v => bind (interp 10 m v) (fun t => Ok (Some t)) end.

(** rclone_config.py:68-77 *)
Definition entry_of (m : list (string * string)) : result entry :=
  bind (opt_get m "type") (fun t => bind (opt_get m "provider") (fun p => bind (opt_get m "access_key_id") (fun k =>
  bind (opt_get m "secret_access_key") (fun s => bind (opt_get m "region") (fun r => bind (opt_get m "endpoint") (fun e =>
  Ok (mkEntry t p k s r e))))))).

(** rclone_config.py:61-80 read_rclone_config_at_path *)
Fixpoint read_config (c : rawcfg) : result (list (string * entry)) :=
  match c with
  | [] => Ok []
  | (n, m) :: c' => bind (entry_of m) (fun e => bind (read_config c') (fun l => Ok ((n, e) :: l)))
  end.

(** rclone_config.py:83-87 read_rclone_config *)
Definition read_rclone_config (e : env) : result (list (string * entry)) :=
  match config_path e with None => Err OtherError | Some p => read_config (text e p) end.

(** the arguments of S3FileSystem, epath.py:136-145 *)
Record conn := mkConn { c_anon : bool; c_key : option string; c_secret : option string; c_endpoint : option string; c_verify : bool; c_region : option string }.

(** epath.py:130-134 *)
Definition endpoint_url (e : option string) : option string :=
  match e with
  | Some s => if negb (String.eqb s "") && negb (String.prefix "http" s) then Some ("https://" ++ s)%string else Some s
  | None => None
  end.

(** epath.py:116-147; an entry without a type has no .lower(); other types are not implemented *)
Definition connect (cfg : list (string * entry)) (remote : string) : result conn :=
  match sfind remote cfg with
  | None => Err ValueError
  | Some en =>
      match en_type en with
      | None => Err OtherError
      | Some t =>
          if String.eqb (lower t) "s3"
          then Ok (mkConn false (en_key en) (en_secret en) (endpoint_url (en_endpoint en)) false (en_region en))
          else Err OtherError
      end
  end.

(** epath.py:109-119: config_override or the configuration of the machine *)
Definition open_remote (e : env) (override : option (list (string * entry))) (remote : string) : result conn :=
  bind (match override with Some c => Ok c | None => read_rclone_config e end) (fun cfg => connect cfg remote).
