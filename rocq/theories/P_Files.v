(** C19 SubFileReader, C20 RetryReadStream, C21 index files. Vocabulary: [fine_run] (FilesProofs.v):
    the operations on an ordinary file with content [content] and these results; a failed read
    (IOError) leaves the position unchanged. *)
From Verif Require Import Base Files FilesProofs.

(** ** C20 *)
(** Full statement: for every environment.  Proved: for every environment in which opening the file
    works, seek() on an open file works and raw reads are either complete or fail. Failures of reads
    and of the seek after reopening may occur anywhere. *)
Theorem C20_retry_reads_right_partial (content : bytes) (ops : list fop) (e : env) :
  Forall (eq true) (e_open e) -> Forall (eq true) (e_seek e) ->
  Forall (fun f => match f with RShort _ => False | _ => True end) (e_read e) ->
  fine_run content 0 ops (rs_run content ops rs_init e).
Proof. intros H1 H2 H3. apply (rs_run_fine ops (s := rs_init)); [split; cbn; [lia|auto]|constructor; auto]. Qed.
Print Assumptions C20_retry_reads_right_partial.

(** fewer than ten failures are always absorbed *)
Theorem C20_retry_absorbs_partial (content : bytes) (ops : list fop) (e : env) :
  Forall (eq true) (e_open e) -> Forall (eq true) (e_seek e) ->
  Forall (fun f => match f with RShort _ => False | _ => True end) (e_read e) ->
  length (filter negb (e_reseek e)) +
  length (filter (fun f => match f with RFail => true | _ => false end) (e_read e)) < 10 ->
  ~ In FIOError (rs_run content ops rs_init e).
Proof. intros H1 H2 H3 H4. apply rs_run_no_ioerror; [split; cbn; [lia|auto]|constructor; auto|exact H4]. Qed.
Print Assumptions C20_retry_absorbs_partial.

Example C20_nonvacuous :
  let e := mkEnv [true] [false; true; true] [] [RFail; RFine; RFail] in
  rs_run [10; 11; 12; 13; 14] [ORead (Some 2); OSeek (-2) END; ORead None; OTell] rs_init e =
  [FBytes [10; 11]; FPos 3; FBytes [13; 14]; FPos 5] /\ nfaults e = 3.
Proof. split; vm_compute; reflexivity. Qed.

(** a short read loses the bytes read first and over-reads: asking for 4 bytes returns bytes 1..4 *)
Theorem C20_short_read_refuted : exists content e,
  Forall (eq true) (e_open e) /\ Forall (eq true) (e_seek e) /\
  ~ fine_run content 0 [ORead (Some 4)] (rs_run content [ORead (Some 4)] rs_init e).
Proof.
  exists [10; 11; 12; 13; 14; 15; 16], (mkEnv [] [] [] [RShort 3]). split; [constructor|]. split; [constructor|].
  vm_compute. intros H. inversion H.
Qed.

(** a failing open is not retried: AttributeError *)
Theorem C20_open_failure_refuted : exists content e,
  Forall (eq true) (e_seek e) /\ e_read e = [] /\
  rs_read content (Some 4) rs_init e = (RAttrError, rs_init, mkEnv [] [] [] []).
Proof. exists [10; 11], (mkEnv [false] [] [] []). repeat split. constructor. Qed.

(** a failing seek is silently ignored: the next read returns other bytes *)
Theorem C20_seek_failure_refuted : exists content e,
  Forall (eq true) (e_open e) /\ e_read e = [] /\
  ~ fine_run content 0 [ORead (Some 1); OSeek 3 SET; ORead (Some 1)]
      (rs_run content [ORead (Some 1); OSeek 3 SET; ORead (Some 1)] rs_init e).
Proof.
  exists [10; 11; 12; 13; 14], (mkEnv [] [] [false] []). split; [constructor|]. split; [reflexivity|].
  vm_compute. intros H.
  repeat match goal with H : fine_run _ _ (_ :: _) _ |- _ => inversion H; clear H; subst end; try discriminate.
Qed.
Print Assumptions C20_seek_failure_refuted.

(** ** C19 *)
Theorem C19_subfile_is_window (content : bytes) offset size (ops : list fop) (p0 : nat) :
  offset + size <= length content ->
  fine_run (firstn size (skipn offset content)) 0 ops (sf_run offset size ops (@sf_open (plain content) offset p0)).
Proof.
  intros HW. refine (@sf_run_fine (plain content) content offset size HW (fun p s => s = p) _ _ ops (@sf_open (plain content) offset p0) _ _); cbn.
  - intros n p s Hp ->. auto.
  - intros p q s _ Hq. lia.
  - lia.
  - lia.
Qed.
Print Assumptions C19_subfile_is_window.

(** with a plain file no read ever fails *)
Theorem C19_subfile_no_error (content : bytes) offset size (ops : list fop) f :
  ~ In FIOError (@sf_run (plain content) offset size ops f).
Proof.
  revert f. induction ops as [|op ops IH]; intros f; cbn [sf_run]; [auto|]. destruct op as [n|off wh|].
  - unfold sf_read. destruct (_ =? 0).
    + intros [E|E]; [discriminate|]. revert E. apply IH.
    + cbn [s_read plain]. intros [E|E]; [discriminate|]. revert E. apply IH.
  - intros [E|E]; [discriminate|]. revert E. apply IH.
  - intros [E|E]; [discriminate|]. revert E. apply IH.
Qed.

(** as used by open_itar: on top of a RetryReadStream, under the failures C20 covers *)
Theorem C19_subfile_over_retry (content : bytes) offset size (ops : list fop) (e : env) :
  offset + size <= length content ->
  Forall (eq true) (e_open e) -> Forall (eq true) (e_seek e) ->
  Forall (fun f => match f with RShort _ => False | _ => True end) (e_read e) ->
  fine_run (firstn size (skipn offset content)) 0 ops
    (sf_run offset size ops (@sf_open (retrying content) offset (rs_init, e))).
Proof.
  intros HW H1 H2 H3.
  assert (C : calm e) by (constructor; auto).
  set (at_pos := fun p (se : rstream * env) => rs_pos (fst se) = p /\ rs_inv content (fst se) /\ calm (snd se)).
  assert (Hseek : forall p q s, at_pos p s -> q <= length content -> at_pos q (s_seek (s := retrying content) q s)).
  { intros p q [s e0] (Hp & HI & HC) Hq. cbn [s_seek retrying fst snd] in *.
    pose proof (rs_seek_ok (Z.of_nat q) HI HC) as G. destruct (rs_seek content (Z.of_nat q) s e0) as [s' e'].
    destruct G as (G1 & G2 & G3 & _). repeat split; cbn; auto; try apply G2; try apply G3. rewrite G1. unfold clamp. lia. }
  refine (@sf_run_fine (retrying content) content offset size HW at_pos _ Hseek ops (@sf_open (retrying content) offset (rs_init, e)) _ _).
  - intros n p [s e0] Hp (HP & HI & HC). cbn [s_read retrying fst snd] in *. unfold rs_read.
    destruct (read_loop content 10 (Some n) [] s e0) as [[r s'] e'] eqn:ER.
    destruct (@read_loop_ok content (Some n) 10 s e0 r s' e' ltac:(lia) HI HC ER) as (C' & I' & [(-> & P & _)|(-> & P & _)]).
    + unfold raw_bytes in P. rewrite HP in *. split; [reflexivity|]. repeat split; cbn; auto; try apply I'; apply C'.
    + repeat split; cbn; auto; try apply I'; try apply C'. congruence.
  - cbn. lia.
  - cbn [sf_pos sf_open sf_stream]. rewrite Nat.add_0_r. apply (@Hseek 0); [|lia].
    repeat split; cbn; auto; try apply C; lia.
Qed.
Print Assumptions C19_subfile_over_retry.

Example C19_nonvacuous :
  sf_run 2 4 [ORead (Some 3); OSeek 1 SET; ORead None; OSeek 100 CUR; OTell]
    (@sf_open (retrying [10; 11; 12; 13; 14; 15; 16]) 2 (rs_init, mkEnv [] [false] [] [RFail])) =
  [FBytes [12; 13; 14]; FPos 1; FBytes [13; 14; 15]; FPos 4; FPos 4].
Proof. vm_compute. reflexivity. Qed.

(** ** C21 *)
(** at every crash point (any prefix of the effects, any flushing of the buffered output), and also
    when an exception aborts the writer, the index file is untouched or complete *)
Theorem C21_index_atomic (offs : list Z) fail ops n (f : fs) :
  writer_run offs fail ops ->
  let f' := fs_runs (firstn n ops) f in
  fs_final f' = fs_final f \/ (fail = None /\ fs_final f' = Some (flat_map pack offs)).
Proof. intros H. cbn zeta. destruct (writer_crash n f H) as [E|(E1 & _ & E2)]; auto. Qed.
Print Assumptions C21_index_atomic.

(** and a complete run leaves the complete index and no temporary file *)
Theorem C21_index_complete (offs : list Z) ops (f : fs) :
  writer_run offs None ops -> fs_runs ops f = mkFs (Some (flat_map pack offs)) None.
Proof.
  intros H. inversion H as [ops' H'|]; subst.
  change (CreateTmp :: ops' ++ [RenameTmp]) with ((CreateTmp :: ops') ++ [RenameTmp]).
  unfold fs_runs. rewrite fold_left_app. change (fold_left _ (CreateTmp :: ops') f) with (fs_runs ops' (fs_do CreateTmp f)).
  rewrite (writes_run H' (f := fs_do CreateTmp f) (c := [])) by reflexivity. reflexivity.
Qed.
Print Assumptions C21_index_complete.

Theorem C21_failed_writer_cleans_up (offs : list Z) k ops (f : fs) :
  writer_run offs (Some k) ops -> fs_runs ops f = mkFs (fs_final f) None.
Proof.
  intros H. inversion H as [|k' ops' H']; subst.
  change (CreateTmp :: ops' ++ [UnlinkTmp]) with ((CreateTmp :: ops') ++ [UnlinkTmp]).
  unfold fs_runs. rewrite fold_left_app. change (fold_left _ (CreateTmp :: ops') f) with (fs_runs ops' (fs_do CreateTmp f)).
  rewrite (writes_run H' (f := fs_do CreateTmp f) (c := [])) by reflexivity. reflexivity.
Qed.

(** reading the index returns what was written and rejects everything else *)
Theorem C21_index_reads_back (offs : list Z) (i : Z) :
  (forall x, In x offs -> (0 <= x < 2 ^ 64)%Z) ->
  index_len (flat_map pack offs) = length offs /\
  index_get (flat_map pack offs) i =
    (if (i <? 0)%Z then Err IndexError
     else match nth_error offs (Z.to_nat i) with Some x => Ok x | None => Err IndexError end).
Proof.
  intros H. split; [apply index_len_pack|]. rewrite index_get_pack by exact H.
  destruct (0 <=? i)%Z eqn:E1, (i <? 0)%Z eqn:E2; auto; lia.
Qed.
Print Assumptions C21_index_reads_back.

Example C21_nonvacuous : exists ops,
  writer_run [0; 1536; 100000]%Z None ops /\ length ops = 4 /\
  fs_final (fs_runs (firstn 3 ops) (mkFs None (Some [1]))) = None /\
  index_get (flat_map pack [0; 1536; 100000]%Z) 2 = Ok 100000%Z.
Proof.
  exists [CreateTmp; WriteTmp (pack 0 ++ [0; 6]); WriteTmp (skipn 2 (pack 1536) ++ pack 100000); RenameTmp].
  split; [|split; [reflexivity|split; vm_compute; reflexivity]].
  apply (@wr_ok _ [_; _]). 
  change (flat_map pack [0; 1536; 100000]%Z) with ((pack 0 ++ [0; 6]) ++ (skipn 2 (pack 1536) ++ pack 100000) ++ []).
  constructor. constructor. constructor.
Qed.
