(** Models of retry_stream.py (RetryReadStream), itar.py (SubFileReader, TarIndexReader,
    TarIndexWriter). Bytes are natural numbers. *)
From Verif Require Import Base.

Definition bytes := list nat.

(** ** retry_stream.py *)
(** What the file system may do to us.  One list per kind of raw operation, consumed one entry per
    operation; an exhausted list means "works".
    e_open: does path.open("rb") work?          (true: works, false: IOError)
    e_reseek: does the seek right after an open work?
    e_seek: does the seek inside seek() work?
    e_read: does a raw read work? *)
Inductive rfault := RFine | RShort (k : nat) | RFail.

Record env := mkEnv { e_open : list bool; e_reseek : list bool; e_seek : list bool; e_read : list rfault }.

(** retry_stream.py:14-26: _file (its raw position), _pos. _size is the length of the content. *)
Record rstream := mkRS { rs_file : option nat; rs_pos : nat }.
Definition rs_init : rstream := mkRS None 0.

Inductive rout :=
| RBytes (b : bytes)
| RNone             (* the loop ends without return: Python returns None *)
| RIOError          (* re-raised after the tenth failure *)
| RAttrError.       (* self._file.close() on None, line 52-53, when the open itself failed *)

Section Retry.
  Variable content : bytes.
  Definition fsize := length content.

  (** file.read(n); [None] is read(-1) *)
  Definition raw_bytes (p : nat) (n : option nat) : bytes :=
    match n with None => skipn p content | Some k => firstn k (skipn p content) end.

  (** retry_stream.py:46-50 *)
  Definition read_complete (n : option nat) (pos : nat) (buf : bytes) : bool :=
    (match n with None => fsize <=? pos | Some _ => false end)
    || (match n with None => false | Some k => length buf =? k end)
    || (fsize <=? pos).

  (** retry_stream.py:37-61; [left] = attempts left, i.e. retry = 10 - left *)
  Fixpoint read_loop (left : nat) (n : option nat) (buf : bytes) (s : rstream) (e : env) : rout * rstream * env :=
    match left with
    | O => (RNone, s, e)
    | S left' =>
        let io_error s e := if left' =? 0 then (RIOError, s, e) else read_loop left' n buf s e in
        let do_read p e :=
          match e_read e with
          | RFail :: r => io_error (mkRS None (rs_pos s)) (mkEnv (e_open e) (e_reseek e) (e_seek e) r)
          | f :: r =>
              let full := raw_bytes p n in
              let res := match f with RShort k => firstn k full | _ => full end in
              let s' := mkRS (Some (p + length res)) (rs_pos s + length res) in
              let e' := mkEnv (e_open e) (e_reseek e) (e_seek e) r in
              if read_complete n (rs_pos s') (buf ++ res) then (RBytes res, s', e')
              else read_loop left' n (buf ++ res) s' e'
          | [] =>
              let res := raw_bytes p n in
              let s' := mkRS (Some (p + length res)) (rs_pos s + length res) in
              if read_complete n (rs_pos s') (buf ++ res) then (RBytes res, s', e)
              else read_loop left' n (buf ++ res) s' e
          end in
        match rs_file s with
        | Some p => do_read p e
        | None =>
            match e_open e with
            | false :: r => (RAttrError, s, mkEnv r (e_reseek e) (e_seek e) (e_read e))
            | _ =>
                let e1 := mkEnv (tl (e_open e)) (e_reseek e) (e_seek e) (e_read e) in
                match e_reseek e1 with
                | false :: r => io_error (mkRS None (rs_pos s)) (mkEnv (e_open e1) r (e_seek e1) (e_read e1))
                | _ => do_read (rs_pos s) (mkEnv (e_open e1) (tl (e_reseek e1)) (e_seek e1) (e_read e1))
                end
            end
        end
    end.

  Definition rs_read (n : option nat) (s : rstream) (e : env) := read_loop 10 n [] s e.

  (** retry_stream.py:63-79 (the whence cases give the absolute target [off]) *)
  Definition clamp (z : Z) (size : nat) : nat := Z.to_nat (Z.min (Z.max z 0) (Z.of_nat size)).
  Definition rs_seek (off : Z) (s : rstream) (e : env) : rstream * env :=
    let p := clamp off fsize in
    match rs_file s with
    | None => (mkRS None p, e)
    | Some q =>
        match e_seek e with
        | false :: r => (mkRS (Some q) p, mkEnv (e_open e) (e_reseek e) r (e_read e))
        | _ => (mkRS (Some p) p, mkEnv (e_open e) (e_reseek e) (tl (e_seek e)) (e_read e))
        end
    end.
End Retry.

Inductive whence := SET | CUR | END.

Inductive fop := ORead (n : option nat) | OSeek (off : Z) (wh : whence) | OTell.
Inductive fres := FBytes (b : bytes) | FPos (p : nat) | FIOError | FBroken.

(** the position a seek asks for, before clamping *)
Definition seek_target (off : Z) (wh : whence) (pos size : nat) : Z :=
  (match wh with SET => off | CUR => off + Z.of_nat pos | END => off + Z.of_nat size end)%Z.

(** a sequence of operations on one RetryReadStream; an AttributeError or None result is [FBroken] *)
Fixpoint rs_run (content : bytes) (ops : list fop) (s : rstream) (e : env) : list fres :=
  match ops with
  | [] => []
  | ORead n :: ops' =>
      let '(r, s', e') := rs_read content n s e in
      (match r with RBytes b => FBytes b | RIOError => FIOError | _ => FBroken end)
        :: rs_run content ops' s' e'
  | OSeek off wh :: ops' =>
      let '(s', e') := rs_seek content (seek_target off wh (rs_pos s) (length content)) s e in
      FPos (rs_pos s') :: rs_run content ops' s' e'
  | OTell :: ops' => FPos (rs_pos s) :: rs_run content ops' s e
  end.

(** ** itar.py:66-122 SubFileReader *)
(** over any underlying stream with a read and a seek *)
Record stream_ops := mkStream {
  s_t : Type;
  s_read : nat -> s_t -> option bytes * s_t;     (* None: the read raised *)
  s_seek : nat -> s_t -> s_t
}.

Section SubFile.
  Variable S : stream_ops.
  Variables (offset size : nat).

  Record subfile := mkSF { sf_pos : nat; sf_stream : s_t S }.

  (** itar.py:70-75 *)
  Definition sf_open (s : s_t S) : subfile := mkSF 0 (s_seek offset s).

  (** itar.py:77-86 *)
  Definition sf_read (n : option nat) (f : subfile) : option bytes * subfile :=
    let n := match n with None => size - sf_pos f | Some k => Nat.min k (size - sf_pos f) end in
    if n =? 0 then (Some [], f)
    else match s_read n (sf_stream f) with
         | (Some b, s') => (Some b, mkSF (sf_pos f + length b) s')
         | (None, s') => (None, mkSF (sf_pos f) s')
         end.

  (** itar.py:88-99 *)
  Definition sf_seek (off : Z) (wh : whence) (f : subfile) : subfile :=
    let p := clamp (seek_target off wh (sf_pos f) size) size in
    mkSF p (s_seek (offset + p) (sf_stream f)).

  Fixpoint sf_run (ops : list fop) (f : subfile) : list fres :=
    match ops with
    | [] => []
    | ORead n :: ops' =>
        match sf_read n f with
        | (Some b, f') => FBytes b :: sf_run ops' f'
        | (None, f') => FIOError :: sf_run ops' f'
        end
    | OSeek off wh :: ops' => let f' := sf_seek off wh f in FPos (sf_pos f') :: sf_run ops' f'
    | OTell :: ops' => FPos (sf_pos f) :: sf_run ops' f
    end.
End SubFile.

(** an ordinary open file *)
Definition plain (content : bytes) : stream_ops :=
  {| s_t := nat;
     s_read := fun n p => let b := firstn n (skipn p content) in (Some b, p + length b);
     s_seek := fun p _ => Nat.min p (length content) |}.

(** a RetryReadStream as underlying stream (open_itar, itar.py:166-173) *)
Definition retrying (content : bytes) : stream_ops :=
  {| s_t := rstream * env;
     s_read := fun n se => let '(r, s', e') := rs_read content (Some n) (fst se) (snd se) in
                           (match r with RBytes b => Some b | _ => None end, (s', e'));
     s_seek := fun p se => rs_seek content (Z.of_nat p) (fst se) (snd se) |}.

(** ** itar.py:16-63: the index file *)
(** struct.pack("Q", x): 8 bytes, little endian (struct.error for x >= 2^64) *)
Fixpoint le_bytes (n : nat) (x : Z) : bytes :=
  match n with O => [] | S n' => Z.to_nat (x mod 256) :: le_bytes n' (x / 256) end%Z.
Definition pack (x : Z) : bytes := le_bytes 8 x.
Fixpoint unpack (b : bytes) : Z :=
  match b with [] => 0 | x :: b' => Z.of_nat x + 256 * unpack b' end%Z.

(** itar.py:22-31 *)
Definition index_len (file : bytes) : nat := length file / 8.
Definition index_get (file : bytes) (i : Z) : result Z :=
  if ((Z.of_nat (index_len file) <=? i) || (i <? 0))%Z then Err IndexError
  else Ok (unpack (firstn 8 (skipn (8 * Z.to_nat i) file))).

(** itar.py:138-146 *)
Definition itar_byte_offset (file : bytes) (i : nat) : result Z :=
  if i =? 0 then Ok 0%Z else index_get file (Z.of_nat i).

(** ** The file system seen by TarIndexWriter: two names *)
Record fs := mkFs { fs_final : option bytes; fs_tmp : option bytes }.

(** Elementary effects.  A write may reach the file in several pieces. *)
Inductive fsop :=
| CreateTmp          (* open(tmp, "wb"): creates or truncates *)
| WriteTmp (b : bytes)
| RenameTmp          (* tmp.move(final): os.rename / object copy, atomic *)
| UnlinkTmp.

Definition fs_do (op : fsop) (f : fs) : fs :=
  match op with
  | CreateTmp => mkFs (fs_final f) (Some [])
  | WriteTmp b => mkFs (fs_final f) (option_map (fun c => c ++ b) (fs_tmp f))
  | RenameTmp => match fs_tmp f with Some c => mkFs (Some c) None | None => f end
  | UnlinkTmp => mkFs (fs_final f) None
  end.

(** itar.py:46-63 as used by prepare.py:64-95: the effects of writing the index entries [offs];
    [fail] = Some k: an exception is raised after k entries (tar corrupt, disk full, Ctrl-C, ...).
    Buffered output may be flushed at any time, so any split of the byte string into pieces. *)
Inductive writes_of : bytes -> list fsop -> Prop :=
| wo_nil : writes_of [] []
| wo_cons b1 b2 ops : writes_of b2 ops -> writes_of (b1 ++ b2) (WriteTmp b1 :: ops).

Inductive writer_run (offs : list Z) : option nat -> list fsop -> Prop :=
| wr_ok ops : writes_of (flat_map pack offs) ops -> writer_run offs None (CreateTmp :: ops ++ [RenameTmp])
| wr_exc k ops : writes_of (flat_map pack (firstn k offs)) ops ->
    writer_run offs (Some k) (CreateTmp :: ops ++ [UnlinkTmp]).
