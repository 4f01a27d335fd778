(** C17 tar index and reader agree, C18 the reader position is resumable. *)
From Coq Require Import String Ascii.
From Verif Require Import Base Files FilesProofs Tar TarSpec TarProofs TarProofs2.
Local Open Scope list_scope.
Local Open Scope nat_scope.

(** the index has one entry per sample plus the end, and the recorded count is the number of samples *)
Theorem C17_index_counts_samples {Dat} (ms : list (member Dat)) :
  count_of ms = length (archive_samples ms) /\ length (index_of ms) = S (length (archive_samples ms)).
Proof.
  unfold count_of. rewrite index_of_runs, app_length, map_length. cbn. lia.
Qed.
Print Assumptions C17_index_counts_samples.

(** reading the sub-shard [o, o+c) through the index file gives samples o .. o+c-1 of the archive,
    with all their (selected) parts and restore keys (shard name, sample number) *)
Theorem C17_subshard_read {Dat} (ms : list (member Dat)) pfilter name o c n :
  (forall m, In m ms -> 0 < m_size m) -> (Z.of_nat (tar_size ms) < 2 ^ 64)%Z -> o + c <= count_of ms ->
  exists pos, read_from ms (index_file ms) (fun _ => false) pfilter (mkShard name o c) 0 0 n =
    Ok (number (expected name pfilter) o (firstn n (slice o (o + c) (archive_samples ms))), pos).
Proof.
  intros H1 H2 H3. destruct (C17_index_counts_samples ms) as [HC _]. rewrite HC in H3.
  destruct (@read_from_spec _ ms (fun _ => false) pfilter (mkShard name o c) H1 H2 H3 0 0 n) as (b & E & _).
  - apply Inv_init; auto.
  - eexists. rewrite E. do 2 f_equal.
    assert (EL : L ms (fun _ => false) (mkShard name o c) = sub ms (mkShard name o c)).
    { unfold L, live. apply filter_all. reflexivity. }
    rewrite EL, runs_sub. cbn [sh_count sh_offset sh_name skipn]. unfold slice. replace (o + c - o) with c by lia.
    generalize (firstn n (firstn c (skipn o (archive_samples ms)))) as l.
    assert (G : forall l i, number (fun i g => expected name pfilter (i + o) g) i l = number (expected (Dat := Dat) name pfilter) (i + o) l).
    { induction l as [|x l IH]; intros i; cbn; [reflexivity|]. f_equal. exact (IH (S i)). }
    intros l. exact (G l 0).
Qed.
Print Assumptions C17_subshard_read.

(** no byte of any selected part is lost: every sample part of the archive is in exactly one sample *)
Theorem C17_samples_partition {Dat} (ms : list (member Dat)) :
  concat (archive_samples ms) = entries (locate 0 ms) /\
  (forall g, In g (archive_samples ms) -> g <> [] /\ forall e, In e g -> en_base e = base_of g).
Proof.
  split; [apply runs_concat|]. intros g H. unfold archive_samples in H.
  pose proof (runs_wg (entries (locate 0 ms))) as W. induction W as [|e g' G H1 H2 H3 IH]; [destruct H|].
  destruct H as [<-|H]; [|auto]. split; [discriminate|]. cbn [base_of]. intros e' [<-|I]; [reflexivity|].
  rewrite Forall_forall in H1. auto.
Qed.
Print Assumptions C17_samples_partition.

(** reader states that occur: the start of the sub-shard, and what reading some samples recorded *)
Inductive recorded {Dat} (ms : list (member Dat)) excl pfilter sh : nat -> nat -> Prop :=
| rec_start : recorded ms excl pfilter sh 0 0
| rec_read off boff k l off' boff' : recorded ms excl pfilter sh off boff ->
    read_from ms (index_file ms) excl pfilter sh off boff k = Ok (l, (off', boff')) ->
    recorded ms excl pfilter sh off' boff'.

(** C18, for every exclude set and part filter: reading k samples, closing the reader, and opening a
    new one at the recorded position to read n more is the same as reading k+n samples *)
Theorem C18_reader_resumes {Dat} (ms : list (member Dat)) excl pfilter sh off boff k n l1 off' boff' :
  (forall m, In m ms -> 0 < m_size m) -> (Z.of_nat (tar_size ms) < 2 ^ 64)%Z ->
  sh_offset sh + sh_count sh <= count_of ms ->
  recorded ms excl pfilter sh off boff ->
  read_from ms (index_file ms) excl pfilter sh off boff k = Ok (l1, (off', boff')) ->
  exists l2 p q, read_from ms (index_file ms) excl pfilter sh off' boff' n = Ok (l2, p) /\
    read_from ms (index_file ms) excl pfilter sh off boff (k + n) = Ok (l1 ++ l2, q) /\ fst p = fst q.
Proof.
  intros H1 H2 H3 HR E. destruct (C17_index_counts_samples ms) as [HC _]. rewrite HC in H3.
  assert (HI : Inv ms excl sh off boff).
  { clear E. induction HR as [|off boff k0 l off1 boff1 _ IH E]; [apply Inv_init; auto|].
    destruct (@read_from_spec _ ms excl pfilter sh H1 H2 H3 _ _ k0 IH) as (b & E' & I'). rewrite E in E'.
    injection E' as _ -> ->. exact I'. }
  destruct (@read_from_spec _ ms excl pfilter sh H1 H2 H3 _ _ k HI) as (b & E' & I'). rewrite E in E'.
  injection E' as -> -> ->. set (Rs := runs (L ms excl sh)) in *.
  destruct (@read_from_spec _ ms excl pfilter sh H1 H2 H3 _ _ n I') as (c & E2 & _).
  destruct (@read_from_spec _ ms excl pfilter sh H1 H2 H3 _ _ (k + n) HI) as (d & E3 & _). fold Rs in E2, E3.
  rewrite E2, E3. eexists _, _, _. split; [reflexivity|]. split.
  - do 2 f_equal. 
    assert (NA : forall A B (f : nat -> A -> B) a b i, number f i (a ++ b) = number f i a ++ number f (i + length a) b).
    { intros A B f a. induction a as [|x a IH]; intros b' i; cbn; [f_equal; lia|]. f_equal. rewrite IH. do 2 f_equal. lia. }
    destruct HI as (_ & HJ & _). fold Rs in HJ.
    destruct (le_lt_dec (length Rs) (off + k)) as [LE|LT].
    + rewrite Nat.min_r by lia. rewrite (skipn_all2 Rs (n := length Rs)) by lia. rewrite firstn_nil, app_nil_r.
      rewrite !(firstn_all2 (skipn off Rs)) by (rewrite skipn_length; lia). reflexivity.
    + rewrite Nat.min_l by lia.
      replace (firstn (k + n) (skipn off Rs)) with (firstn k (skipn off Rs) ++ firstn n (skipn (off + k) Rs)).
      * rewrite NA. do 2 f_equal. rewrite firstn_length, skipn_length. lia.
      * rewrite skipn_add. symmetry. apply firstn_app_skipn.
  - cbn [fst]. lia.
Qed.
Print Assumptions C18_reader_resumes.

(** C18 together with C17: without excludes the position after k samples is (k, first byte of sample k) *)
Example ex_tar : list (member nat) :=
  [mkM "a/__meta__x"%string true 1 0; mkM "a/1.jpg"%string true 2 11; mkM "a/1.txt"%string true 2 12;
   mkM "a"%string false 1 0; mkM "a/2.jpg"%string true 4 21; mkM "__meta__/y.z"%string true 1 0; mkM "a/2.txt"%string true 2 22;
   mkM "a/3.seg.jpg"%string true 2 31; mkM "README"%string true 1 0].

Example C17_nonvacuous :
  index_of ex_tar = [1; 6; 13; 16] /\
  read_from ex_tar (index_file ex_tar) (fun _ => false) (fun _ => true) (mkShard "s.tar" 1 2) 0 0 5 =
    Ok ([mkRSam "s.tar/a/2" ("s.tar"%string, 1) [("jpg"%string, 21); ("txt"%string, 22)];
         mkRSam "s.tar/a/3" ("s.tar"%string, 2) [("seg.jpg"%string, 31)]], (2, 10)) /\
  read_from ex_tar (index_file ex_tar) (fun _ => false) (fun _ => true) (mkShard "s.tar" 1 2) 0 0 1 =
    Ok ([mkRSam "s.tar/a/2" ("s.tar"%string, 1) [("jpg"%string, 21); ("txt"%string, 22)]], (1, 7)).
Proof. repeat split; vm_compute; reflexivity. Qed.

(** with sample-level excludes the sample number in the restore key is wrong: sample a/2 gets the
    number of a/1, so looking it up by number returns another sample *)
Theorem C17_excluded_key_refuted : exists (ms : list (member nat)) excl name smp other p q,
  read_from ms (index_file ms) excl (fun _ => true) (mkShard name 0 (count_of ms)) 0 0 1 = Ok ([smp], p) /\
  read_from ms (index_file ms) (fun _ => false) (fun _ => true) (mkShard name (snd (rs_rk smp)) 1) 0 0 1 = Ok ([other], q) /\
  rs_key smp <> rs_key other.
Proof.
  exists ex_tar, (fun k => seqb k "s.tar/a/1"%string), "s.tar"%string.
  eexists _, _, _, _. split; [vm_compute; reflexivity|]. split; [vm_compute; reflexivity|]. vm_compute. discriminate.
Qed.
Print Assumptions C17_excluded_key_refuted.
