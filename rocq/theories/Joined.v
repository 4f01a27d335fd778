(** Model of reading joined shards: sample_loader.py:198-265 (_read_multicolumn_shard), 554-584
    (restore_sample) and joined_webdataset.py:218-246 (load_sample), on top of the shard reader (Tar.v).

    [log]: what the error handler does: [false] = it raises (reraise_exception, the default), [true] =
    it returns (a handler that only logs).
    FatalSampleError is a ValueError (errors.py:57-68). *)
From Coq Require Import String Ascii.
From Verif Require Import Base Files Dataset Tar.
From Verif Require Sharder.
Local Open Scope list_scope.
Local Open Scope nat_scope.

Section Joined.
  Context {Dat : Type}.
  Variables (excl pfilter : string -> bool).

  (** one column: tar file, index file, sub-shard *)
  Record column := mkCol { c_ms : list (member Dat); c_idx : bytes; c_sh : shard }.
  (** a SingleShardReader with its constants _orig_shard_state_byte_offset and shard.byte_size *)
  Record creader := mkCr { cr_sh : shard; cr_orig : nat; cr_bs : nat; cr_rd : reader Dat }.

  (** sample_loader.py:208-219: open all the readers; a ShardState is (offset, byte_offset) *)
  Definition col_open (c : column) (st : nat * nat) : result creader :=
    bind (rd_open (c_ms c) (c_idx c) (c_sh c) (fst st) (snd st)) (fun r =>
    bind (sh_bytes (c_idx c) (c_sh c)) (fun '(_, bs) => Ok (mkCr (c_sh c) (snd st) bs r))).
  Definition cols_open (cs : list column) (sts : list (nat * nat)) : result (list creader) :=
    sequence (map (fun p => col_open (fst p) (snd p)) (combine cs sts)).

  Definition col_read (want : option string) (must : bool) (c : creader) : result (option (string * rsample Dat * creader)) :=
    bind (read_next excl pfilter (cr_sh c) (cr_orig c) (cr_bs c) want must (cr_rd c)) (fun x =>
      Ok (match x with
          | None => None
          | Some (n, s, r) => Some (n, s, mkCr (cr_sh c) (cr_orig c) (cr_bs c) r)
          end)).

  (** groups: the tuple under construction, kept from row to row (sample_loader.py:220) *)
  Definition group : Type := option (rsample Dat).

  (** sample_loader.py:245-265: read the other columns; an error that is handled leaves the entry of
      groups as it was *)
  Fixpoint read_others (log : bool) (name : string) (cs : list creader) (gs : list group)
    : result (list creader * list group) :=
    match cs, gs with
    | c :: cs', g :: gs' =>
        match col_read (Some name) true c with
        | Ok (Some (_, s, c')) =>
            bind (read_others log name cs' gs') (fun '(x, y) => Ok (c' :: x, Some s :: y))
        | Ok None => Err ValueError
        | Err e => if log then bind (read_others log name cs' gs') (fun '(x, y) => Ok (c :: x, g :: y)) else Err OtherError
        end
    | _, _ => Ok ([], [])
    end.

  (** sample_loader.py:227-238: the primary column is exhausted *)
  Fixpoint others_done (cs : list creader) : result unit :=
    match cs with
    | [] => Ok tt
    | c :: cs' =>
        match col_read None false c with
        | Ok None => others_done cs'
        | Ok (Some _) => Err ValueError
        | Err e => Err e
        end
    end.

  Inductive mc_end := McMore | McStop | McFail (e : exn).

  (** sample_loader.py:221-265: up to [n] rounds of the loop: the rows yielded and how it ended *)
  Fixpoint mc_loop (log : bool) (n : nat) (c0 : creader) (cs : list creader) (gs : list group)
    : list (list group) * mc_end :=
    match n with
    | O => ([], McMore)
    | S n' =>
        match col_read None false c0 with
        | Ok None => ([], match others_done cs with Ok _ => McStop | Err e => McFail e end)
        | Ok (Some (name, s, c0')) =>
            match read_others log name cs gs with
            | Err e => ([], McFail e)
            | Ok (cs', gs') => let '(rows, e) := mc_loop log n' c0' cs' gs' in ((Some s :: gs') :: rows, e)
            end
        | Err e => if log then mc_loop log n' c0 cs gs else ([], McFail OtherError)
        end
    end.

  Definition mc_read (log : bool) (cs : list column) (sts : list (nat * nat)) (n : nat) : list (list group) * mc_end :=
    match cols_open cs sts with
    | Err e => ([], McFail e)
    | Ok [] => ([], McFail IndexError)
    | Ok (c0 :: rest) => mc_loop log n c0 rest (repeat None (length rest))
    end.

  (** sample_loader.py:221-265 with the default error handler: the readers after [n] rows (an error if there
      are fewer); every reader keeps its own ShardState (single_shard_reader.py:241-257) *)
  Fixpoint mc_readers (n : nat) (c0 : creader) (cs : list creader) (gs : list group) : result (list creader) :=
    match n with
    | O => Ok (c0 :: cs)
    | S n' =>
        bind (col_read None false c0) (fun x =>
          match x with
          | None => Err IndexError
          | Some (name, _, c0') => bind (read_others false name cs gs) (fun '(cs', gs') => mc_readers n' c0' cs' gs')
          end)
    end.
  Definition col_state (c : creader) : nat * nat := (r_off (cr_rd c), r_boff (cr_rd c)).
  (** the states that are saved after [n] rows *)
  Definition mc_states (cs : list column) (sts : list (nat * nat)) (n : nat) : result (list (nat * nat)) :=
    bind (cols_open cs sts) (fun rs =>
      match rs with
      | [] => Err IndexError
      | c0 :: rest => bind (mc_readers n c0 rest (repeat None (length rest))) (fun rs' => Ok (map col_state rs'))
      end).

  (** the restore key of a row: what load_sample (joined_webdataset.py:221-229) makes of the columns'
      keys; a single column has ("Webdataset", name, number) (single_shard_reader.py:164-168) *)
  Definition row_key (row : list group) : rkey :=
    AStr "Webdataset" ::
    flat_map (fun g => match g with Some s => [AStr (fst (rs_rk s)); AInt (snd (rs_rk s))] | None => [AStr EmptyString; AInt 0] end) row.

  (** the key of a joined sample: load_sample (joined_webdataset.py:238-243) ends with
      set_sample_restore_key(.., src=self), which puts the class name in front (base_dataset.py:407-425) *)
  Definition joined_key (row : list group) : rkey := AStr "JoinedWebdatasetFactory" :: row_key row.
End Joined.
Arguments column : clear implicits.
Arguments creader : clear implicits.
Arguments group : clear implicits.

(** The files of a dataset: shard number [n] (first component of Sharder.ShardInfo) is the tar file
    [d_tar n] with name [d_name n], with the index that preparation wrote for it. *)
Record files (Dat : Type) := mkFiles { d_name : nat -> string; d_tar : nat -> list (member Dat) }.

Section Content.
  Context {Dat : Type} (F : files Dat) (pfilter : string -> bool).

  Definition col_of (sh : Sharder.ShardInfo) : column Dat :=
    mkCol (d_tar F (Sharder.sh_name sh)) (index_file (d_tar F (Sharder.sh_name sh)))
      (mkShard (d_name F (Sharder.sh_name sh)) (Z.to_nat (Sharder.sh_offset sh)) (Z.to_nat (Sharder.sh_count sh))).

  (** the rows of a sub-shard, as read by the loader with the default error handler, no excludes *)
  Definition tar_content (s : Sharder.shseq) : list (sample (list (group Dat))) :=
    map (fun r => mkS r (row_key r))
      (fst (mc_read (fun _ => false) pfilter false (map col_of (Sharder.columns s))
              (map (fun _ => (0, 0)) (Sharder.columns s)) (S (Z.to_nat (Sharder.count0 s))))).

  (** sample_loader.py:188-196 shard_path_map: from the name of the first column to the files of all
      columns; of several sub-shards with the same name the last one is in the dict *)
  Definition path_map (shards : list (list Sharder.shseq)) (name : string) : option (list nat) :=
    match find (fun s => seqb (d_name F (Sharder.sh_name (fst s))) name) (rev (concat shards)) with
    | Some s => Some (map Sharder.sh_name (Sharder.columns s))
    | None => None
    end.

  (** "zip(shard_paths, shard_data[::2], shard_data[1::2])": offsets are never negative here *)
  Fixpoint one_sample_cols (paths : list nat) (data : rkey) : option (list (column Dat)) :=
    match paths, data with
    | [], [] => Some []
    | p :: paths', AStr n :: AInt o :: data' =>
        match one_sample_cols paths' data' with
        | Some l => Some (mkCol (d_tar F p) (index_file (d_tar F p)) (mkShard n o 1) :: l)
        | None => None
        end
    | _, _ => None
    end.

  (** sample_loader.py:554-584 restore_sample *)
  Definition tar_restore (shards : list (list Sharder.shseq)) (_ : nat) (key : rkey) : result (sample (list (group Dat))) :=
    match key with
    | AStr id :: data =>
        if String.eqb id "Webdataset" then
          match data with
          | AStr n :: _ =>
              match path_map shards n with
              | None => Err KeyError
              | Some paths =>
                  match one_sample_cols paths data with
                  | None => Err AssertionError
                  | Some cols =>
                      match mc_read (fun _ => false) pfilter false cols (map (fun _ => (0, 0)) cols) 1 with
                      | (r :: _, _) => Ok (mkS r (row_key r))
                      | ([], McFail e) => Err e
                      | ([], _) => Err StopIterationError
                      end
                  end
              end
          | _ => Err AssertionError
          end
        else Err AssertionError
    | _ => Err ValueError
    end.
End Content.
