(** What the columns of a joined sub-shard contain, independently of the readers (C15, C16). *)
From Coq Require Import String.
From Verif Require Import Base Dataset Tar TarSpec Joined.
From Verif Require Sharder.

Section Spec.
  Context {Dat : Type} (excl pfilter : string -> bool).

  (** the samples of the column's sub-shard [offset, offset+count), without the excluded ones: their
      keys (base names) and contents.  (The number in a sample's restore key counts the samples that
      are not excluded, see C17_excluded_key_refuted.) *)
  Definition col_samples (c : column Dat) : list (string * rsample Dat) :=
    let o := sh_offset (c_sh c) in
    number (fun i g => (base_of g, expected (sh_name (c_sh c)) pfilter (i + o) g)) 0
      (runs (filter (fun e => negb (excl (the_key (c_sh c) (en_base e))))
              (concat (slice o (o + sh_count (c_sh c)) (archive_samples (c_ms c)))))).

  (** the column's files are as preparation leaves them, and the sub-shard lies inside *)
  Definition col_ok (c : column Dat) : Prop :=
    (forall m, In m (c_ms c) -> 0 < m_size m) /\ (Z.of_nat (tar_size (c_ms c)) < 2 ^ 64)%Z /\
    c_idx c = index_file (c_ms c) /\ sh_offset (c_sh c) + sh_count (c_sh c) <= count_of (c_ms c).

  (** at position [i] all columns have a sample, and these have the same key *)
  Definition matching (cs : list (column Dat)) (i : nat) : Prop :=
    exists k, forall c, In c cs -> exists s, nth_error (col_samples c) i = Some (k, s).

  (** [row] is the tuple of the columns' samples at position [i] *)
  Definition row_at (cs : list (column Dat)) (i : nat) (row : list (group Dat)) : Prop :=
    Forall2 (fun c g => exists k s, nth_error (col_samples c) i = Some (k, s) /\ g = Some s) cs row.
End Spec.

(** no sample excluded *)
Definition none : string -> bool := fun _ => false.

Section Files.
  Context {Dat : Type} (pfilter : string -> bool) (F : files Dat).

  (** every column of the sub-shard lies inside its file, and the files are as preparation leaves them *)
  Definition seq_ok (s : Sharder.shseq) : Prop := Forall (fun sh => col_ok (col_of F sh)) (Sharder.columns s).

  (** all columns of the sub-shard have the same keys *)
  Definition keys_match (s : Sharder.shseq) : Prop :=
    forall i, i < Z.to_nat (Sharder.count0 s) -> matching none pfilter (map (col_of F) (Sharder.columns s)) i.

  (** sub-shards whose first files have the same name consist of the same files *)
  Definition named_apart (shards : list (list Sharder.shseq)) : Prop :=
    forall s t, In s (concat shards) -> In t (concat shards) ->
    d_name F (Sharder.sh_name (fst s)) = d_name F (Sharder.sh_name (fst t)) ->
    map Sharder.sh_name (Sharder.columns s) = map Sharder.sh_name (Sharder.columns t).

  (** the sample with a given number in a given file, and the row at given (file, number) positions *)
  Definition tar_cell (p : nat * Z) : group Dat :=
    option_map (fun g => expected (d_name F (fst p)) pfilter (Z.to_nat (snd p)) g)
      (nth_error (archive_samples (d_tar F (fst p))) (Z.to_nat (snd p))).
  Definition tar_row (r : list (nat * Z)) : sample (list (group Dat)) := mkS (map tar_cell r) (row_key (map tar_cell r)).
End Files.

(** ** a prepared dataset: the shards as listed in its metadata, one row of columns per joined shard *)
Section Prepared.
  Context {Dat : Type} (F : files Dat).

  (** the metadata's sample count is the archive's, and the archive is not empty files or too large *)
  Definition file_ok (sh : Sharder.ShardInfo) : Prop :=
    let ms := d_tar F (Sharder.sh_name sh) in
    (forall m, In m ms -> 0 < m_size m) /\ (Z.of_nat (tar_size ms) < 2 ^ 64)%Z /\
    Sharder.sh_count sh = Z.of_nat (length (archive_samples ms)).

  (** the columns of a joined shard have the same sample keys in the same order *)
  Definition same_keys (p : Sharder.shseq) : Prop :=
    forall sh, In sh (Sharder.columns p) ->
      map base_of (archive_samples (d_tar F (Sharder.sh_name sh))) =
      map base_of (archive_samples (d_tar F (Sharder.sh_name (fst p)))).

  Definition prepared (shards : list Sharder.shseq) : Prop :=
    shards <> [] /\ Forall (fun p => Forall file_ok (Sharder.columns p) /\ same_keys p /\
                              Forall (fun sh => Sharder.sh_offset sh = 0%Z) (Sharder.columns p)) shards /\
    NoDup (map (fun p : Sharder.shseq => d_name F (Sharder.sh_name (fst p))) shards).
End Prepared.
