(** Models of prepare.py:43-104 (building the tar index), config.py (file name rules) and
    single_shard_reader.py:16-257 (reading a sub-shard).

    A tar archive is the list of its members with the bytes each occupies (headers, extended headers,
    data, padding).  Trusted: tarfile opened on a byte window that starts and ends at member
    boundaries iterates exactly the members in the window, with TarInfo.offset relative to the window
    start; after iterating a whole archive TarFile.offset is the end of the last member.
    Not modelled: members whose data cannot be read (the error handler), logging, gzip. *)
From Coq Require Import String Ascii.
From Verif Require Import Base Files.
Local Open Scope string_scope.
Local Open Scope list_scope.
Local Open Scope nat_scope.

Definition seqb := String.eqb.
Definition ceqb := Ascii.eqb.
Definition slash : ascii := "/"%char.
Definition dot : ascii := "."%char.
Definition uscore : ascii := "_"%char.

(** "dir/sub/file.ext" -> ("dir/sub/", "file.ext") *)
Fixpoint dir_file (s : string) : string * string :=
  match s with
  | EmptyString => ("", "")
  | String c s' =>
      let '(d, f) := dir_file s' in
      match d with
      | EmptyString => if ceqb c slash then (String c "", f) else ("", String c f)
      | _ => (String c d, f)
      end
  end.

(** text before / after the first occurrence of a character *)
Fixpoint cut (c : ascii) (s : string) : option (string * string) :=
  match s with
  | EmptyString => None
  | String x s' =>
      if ceqb x c then Some ("", s')
      else match cut c s' with Some (a, b) => Some (String x a, b) | None => None end
  end.

Definition has_char (c : ascii) (s : string) : bool := match cut c s with Some _ => true | None => false end.

Fixpoint drop_last (s : string) : string :=
  match s with EmptyString => "" | String c EmptyString => "" | String c s' => String c (drop_last s') end.

(** config.py:6 split_name_re (for names without newlines): an optional directory prefix ending in a
    slash, one or more non-dots, a dot, then an extension without slashes.
    The dot is the first one after the last slash; the text before it, from the start or from some
    slash on, must be nonempty and free of dots (this matters only for names like "dir/.ext"). *)
Definition split_name (s : string) : option (string * string) :=
  let '(d, f) := dir_file s in
  match cut dot f with
  | None => None
  | Some (EmptyString, ext) =>
      match d with
      | EmptyString => None
      | _ => let '(_, c) := dir_file (drop_last d) in if has_char dot c then None else Some (d, ext)
      end
  | Some (stem, ext) => Some (d ++ stem, ext)%string
  end.

(** config.py:7 skip_meta_re, matched at the start: two underscores, non-slashes, two underscores, then end or slash *)
Definition first_comp (s : string) : string := match cut slash s with Some (a, _) => a | None => s end.
Fixpoint ends_uu (s : string) : bool :=
  match s with
  | String a (String b EmptyString) => ceqb a uscore && ceqb b uscore
  | String _ s' => ends_uu s'
  | EmptyString => false
  end.
Definition skip_meta (s : string) : bool :=
  match first_comp s with
  | String a (String b rest) => ceqb a uscore && ceqb b uscore && ends_uu rest
  | _ => false
  end.

Section Tar.
  Context {Dat : Type}.

  Record member := mkM { m_name : string; m_reg : bool; m_size : nat; m_data : Dat }.

  (** members with their byte offsets *)
  Fixpoint locate (off : nat) (ms : list member) : list (nat * member) :=
    match ms with [] => [] | m :: ms' => (off, m) :: locate (off + m_size m) ms' end.

  Definition tar_size (ms : list member) : nat := list_sum (map m_size ms).

  (** the checks of prepare.py:73-84 and single_shard_reader.py:122-136: base name and extension *)
  Definition part_of (m : member) : option (string * string) :=
    if negb (m_reg m) then None
    else if skip_meta (m_name m) then None
    else split_name (m_name m).

  (** prepare.py:70-94 (max_parts and the set of found extensions left out); [off] = member.offset *)
  Fixpoint index_loop (off : nat) (last : option string) (ms : list member) : list nat :=
    match ms with
    | [] => [off]                                         (* iw.append(tar.offset) *)
    | m :: ms' =>
        match part_of m with
        | None => index_loop (off + m_size m) last ms'
        | Some (base, _) =>
            if match last with Some b => seqb b base | None => false end
            then index_loop (off + m_size m) last ms'
            else off :: index_loop (off + m_size m) (Some base) ms'
        end
    end.
  Definition index_of (ms : list member) : list nat := index_loop 0 None ms.
  (** prepare.py:70,93-94 shard_info.count *)
  Definition count_of (ms : list member) : nat := List.length (index_of ms) - 1.

  (** the bytes of the index file *)
  Definition index_file (ms : list member) : bytes := flat_map pack (map Z.of_nat (index_of ms)).

  (** ** single_shard_reader.py *)
  Record shard := mkShard { sh_name : string; sh_offset : nat; sh_count : nat }.

  (** a TarInfo that passed the checks: offset (in the window), base name, extension, data *)
  Record ent := mkE { en_off : nat; en_base : string; en_ext : string; en_dat : Dat }.

  Record reader := mkR {
    r_off : nat;                      (* shard_state.offset *)
    r_boff : nat;                     (* shard_state.byte_offset *)
    r_stream : list (nat * member);   (* _stream: members not yet read, offsets relative to the window *)
    r_cur : option ent                (* _cur_tarinfo, _cur_base_name, _cur_ext *)
  }.

  (** a decoded sample: __key__, __restore_key__ (shard name, index), file parts *)
  Record rsample := mkRSam { rs_key : string; rs_rk : string * nat; rs_parts : list (string * Dat) }.

  (** d[k] = v on a dict *)
  Fixpoint dict_set (k : string) (v : Dat) (d : list (string * Dat)) : list (string * Dat) :=
    match d with
    | [] => [(k, v)]
    | (k', v') :: d' => if seqb k' k then (k', v) :: d' else (k', v') :: dict_set k v d'
    end.

  Section Reader.
    Variable ms : list member.              (* the tar file *)
    Variable idx : bytes.                   (* the index file next to it *)
    Variable excl : string -> bool.         (* key in self.exclude *)
    Variable pfilter : string -> bool.      (* part_filter *)
    Variable sh : shard.

    Definition the_key (base : string) : string := (sh_name sh ++ "/" ++ base)%string.

    (** single_shard_reader.py:66-73: byte_offset, byte_size of the sub-shard *)
    Definition sh_bytes : result (nat * nat) :=
      bind (itar_byte_offset idx (sh_offset sh)) (fun b0 =>
      bind (itar_byte_offset idx (sh_offset sh + sh_count sh)) (fun b1 =>
      Ok (Z.to_nat b0, Z.to_nat b1 - Z.to_nat b0))).

    (** itar.py open_itar on the byte window [from, from+size) *)
    Definition open_window (from size : nat) : list (nat * member) :=
      map (fun om => (fst om - from, snd om))
        (filter (fun om => (from <=? fst om) && (fst om <? from + size)) (locate 0 ms)).

    (** single_shard_reader.py:44-110 *)
    Definition rd_open (off boff : nat) : result reader :=
      if off =? sh_count sh then Ok (mkR off boff [] None)
      else bind sh_bytes (fun '(b0, bs) =>
        if bs <? boff then Err AssertionError
        else if boff <? bs then Ok (mkR off boff (open_window (b0 + boff) (bs - boff)) None)
        else Ok (mkR off boff [] None)).

    (** single_shard_reader.py:112-140 _next_tarinfo: None = StopIteration *)
    Fixpoint next_tarinfo (s : list (nat * member)) : option (ent * list (nat * member)) :=
      match s with
      | [] => None
      | (o, m) :: s' =>
          match part_of m with
          | None => next_tarinfo s'
          | Some (base, ext) =>
              if excl (the_key base) then next_tarinfo s' else Some (mkE o base ext (m_data m), s')
          end
      end.

    (** single_shard_reader.py:166-227, the loop collecting the parts of one sample after the current
        member was added; ends at the first member of another sample ([Some]) or at the end *)
    Definition add_part (e : ent) (d : list (string * Dat)) :=
      if pfilter (en_ext e) then dict_set (en_ext e) (en_dat e) d else d.
    Fixpoint collect (name : string) (d : list (string * Dat)) (s : list (nat * member))
      : list (string * Dat) * option ent * list (nat * member) :=
      match s with
      | [] => (d, None, [])
      | (o, m) :: s' =>
          match part_of m with
          | None => collect name d s'
          | Some (base, ext) =>
              if excl (the_key base) then collect name d s'
              else let e := mkE o base ext (m_data m) in
                   if seqb name base then collect name (add_part e d) s' else (d, Some e, s')
          end
      end.

    (** single_shard_reader.py:142-257 read_next(for_group_name, must_match); [orig] =
        _orig_shard_state_byte_offset, [bs] = shard.byte_size. None = StopIteration. *)
    Definition read_next (orig bs : nat) (want : option string) (must : bool) (r : reader)
      : result (option (string * rsample * reader)) :=
      match (match r_cur r with Some e => Some (e, r_stream r) | None => next_tarinfo (r_stream r) end) with
      | None => Ok None
      | Some (e, s) =>
          let name := match want with None => en_base e | Some n => n end in
          if must && negb (seqb name (en_base e)) then Err AssertionError
          else
            let key := (sh_name sh, r_off r + sh_offset sh) in
            let '(d, cur, s') := if seqb name (en_base e) then collect name (add_part e []) s
                                 else ([], Some e, s) in
            let boff := match cur with Some e' => en_off e' + orig | None => (bs - orig) + orig end in
            if bs <? boff then Err AssertionError
            else Ok (Some (name, mkRSam (the_key (en_base e)) key d, mkR (S (r_off r)) boff s' cur))
      end.

    (** calling read_next() up to [n] times *)
    Fixpoint read_upto (n orig bs : nat) (r : reader) : result (list rsample * reader) :=
      match n with
      | O => Ok ([], r)
      | S n' =>
          bind (read_next orig bs None false r) (fun x =>
            match x with
            | None => Ok ([], r)
            | Some (_, smp, r') =>
                bind (read_upto n' orig bs r') (fun '(l, r'') => Ok (smp :: l, r''))
            end)
      end.

    (** create a reader at the given state and read up to [n] samples *)
    Definition read_from (off boff n : nat) : result (list rsample * (nat * nat)) :=
      bind (rd_open off boff) (fun r =>
      bind sh_bytes (fun '(_, bs) =>
      bind (read_upto n boff bs r) (fun '(l, r') => Ok (l, (r_off r', r_boff r'))))).
  End Reader.
End Tar.
Arguments member : clear implicits.
Arguments ent : clear implicits.
Arguments reader : clear implicits.
Arguments rsample : clear implicits.
