(** C18 for joined datasets: the positions of all columns are recorded after every row, and reading on from
    recorded positions is reading on, however often this is done. *)
From Coq Require Import String.
From Verif Require Import Base Dataset Tar TarSpec Joined JoinedSpec JoinedProofs JoinedResume P_Joined.
Local Open Scope list_scope.
Local Open Scope nat_scope.

(** positions that occur: the start, and what is recorded after some rows read from such positions *)
Inductive joined_recorded {Dat} excl pfilter (cs : list (column Dat)) : list (nat * nat) -> Prop :=
| jr_start : joined_recorded excl pfilter cs (map (fun _ => (0, 0)) cs)
| jr_read sts k sts' : joined_recorded excl pfilter cs sts -> mc_states excl pfilter cs sts k = Ok sts' ->
    joined_recorded excl pfilter cs sts'.

Lemma recorded_ok {Dat} excl pfilter (cs : list (column Dat)) sts :
  cs <> [] -> Forall col_ok cs -> joined_recorded excl pfilter cs sts -> Forall2 (st_ok excl) cs sts.
Proof.
  intros Hne HC H. induction H as [|sts k sts' _ IH E].
  - clear Hne. induction HC; cbn [map]; constructor; auto. apply st_start. exact H.
  - apply (read_on (pfilter := pfilter) Hne HC IH E).
Qed.

(** For every exclude set, part filter and number of columns: after [k] rows there are recorded positions,
    and reading [n] more rows from them, with new readers, gives what reading [k + n] rows at once gives:
    the same rows and the same ending (more rows, the end, or an error). *)
Theorem C18_joined_resumes {Dat} excl pfilter (cs : list (column Dat)) sts k n rows :
  cs <> [] -> Forall col_ok cs -> joined_recorded excl pfilter cs sts ->
  mc_read excl pfilter false cs sts k = (rows, McMore) ->
  exists sts', mc_states excl pfilter cs sts k = Ok sts' /\
    let (more, e) := mc_read excl pfilter false cs sts' n in
    mc_read excl pfilter false cs sts (k + n) = (rows ++ more, e).
Proof.
  intros Hne HC HR E. pose proof (recorded_ok Hne HC HR) as HS.
  assert (L : length (fst (mc_read excl pfilter false cs sts k)) = k).
  { clear - E. unfold mc_read in *. destruct (cols_open cs sts) as [[|c0 rest]|]; try discriminate. revert E.
    generalize (repeat (@None (rsample Dat)) (length rest)) as gs. intros gs. revert c0 rest gs rows.
    induction k as [|k IH]; intros c0 rest gs rows E; [reflexivity|]. cbn [mc_loop] in *.
    destruct (col_read excl pfilter None false c0) as [[[[nm s] c1]|]|]; [|destruct (others_done excl pfilter rest); discriminate|discriminate].
    destruct (read_others excl pfilter false nm rest gs) as [[cs' gs']|]; [|discriminate].
    specialize (IH c1 cs' gs'). destruct (mc_loop excl pfilter false k c1 cs' gs') as [rs e]. injection E as <- ->. cbn [fst length] in *.
    f_equal. eapply IH. reflexivity. }
  destruct (read_reaches Hne HC HS L) as [sts' ES]. exists sts'. split; [exact ES|].
  destruct (read_on Hne HC HS ES) as (_ & _ & A). specialize (A n). destruct (mc_read excl pfilter false cs sts' n) as [more e]. cbn [fst snd] in A.
  rewrite A, E. reflexivity.
Qed.
Print Assumptions C18_joined_resumes.

(** two columns read row by row with new readers each time *)
Example C18_joined_nonvacuous :
  Forall col_ok [jx_col "A" jx_a; jx_col "B" jx_b] /\
  mc_states (fun _ => false) (fun _ => true) [jx_col "A" jx_a; jx_col "B" jx_b] [(0, 0); (0, 0)] 1 = Ok [(1, 2); (1, 1)] /\
  mc_states (fun _ => false) (fun _ => true) [jx_col "A" jx_a; jx_col "B" jx_b] [(1, 2); (1, 1)] 1 = Ok [(2, 5); (2, 2)] /\
  snd (mc_read (fun _ => false) (fun _ => true) false [jx_col "A" jx_a; jx_col "B" jx_b] [(0, 0); (0, 0)] 1) = McMore /\
  mc_read (fun _ => false) (fun _ => true) false [jx_col "A" jx_a; jx_col "B" jx_b] [(1, 2); (1, 1)] 5 =
    ([[Some (mkRSam "A/b" ("A"%string, 1) [("jpg"%string, 12)]); Some (mkRSam "B/b" ("B"%string, 1) [("txt"%string, 22)])]], McStop).
Proof.
  split; [|repeat split; vm_compute; reflexivity].
  pose proof jx_ok as H. inversion H as [|? ? H1 H2]; subst. inversion H2; subst. repeat (apply Forall_cons; [assumption|]). apply Forall_nil.
Qed.

(** C16, for any archives and index files, also damaged ones: reading ends normally only if all columns are
    at their end after the rows read; no error of a column is taken for its end *)
Theorem C16_end_is_end {Dat} excl pfilter (cs : list (column Dat)) sts n rows :
  mc_read excl pfilter false cs sts n = (rows, McStop) ->
  exists rs c0 rest out, cols_open cs sts = Ok rs /\ rs = c0 :: rest /\
    mc_readers excl pfilter (length rows) c0 rest (repeat None (length rest)) = Ok out /\
    Forall (fun c => col_read excl pfilter None false c = Ok None) out.
Proof.
  assert (X : forall c0 rest (gs : list (group Dat)) rows, mc_loop excl pfilter false n c0 rest gs = (rows, McStop) ->
    exists out, mc_readers excl pfilter (length rows) c0 rest gs = Ok out /\ Forall (fun c => col_read excl pfilter None false c = Ok None) out).
  { induction n as [|n IH]; clear rows; intros c0 rest gs rows E; [discriminate|]. cbn [mc_loop] in E.
    destruct (col_read excl pfilter None false c0) as [[[[nm s] c1]|]|] eqn:EC; [| |discriminate].
    - destruct (read_others excl pfilter false nm rest gs) as [[cs' gs']|] eqn:ER; [|discriminate].
      specialize (IH c1 cs' gs'). destruct (mc_loop excl pfilter false n c1 cs' gs') as [rs e]. injection E as <- ->. cbn [length mc_readers].
      rewrite EC. cbn [bind]. rewrite ER. cbn [bind]. apply IH. reflexivity.
    - destruct (others_done excl pfilter rest) as [[]|] eqn:ED; [|discriminate]. injection E as <-. cbn [length mc_readers].
      exists (c0 :: rest). split; [reflexivity|]. constructor; [exact EC|]. clear - ED. induction rest as [|c rest IH]; [constructor|]. cbn [others_done] in ED.
      destruct (col_read excl pfilter None false c) as [[?|]|] eqn:EC; try discriminate. constructor; auto. }
  unfold mc_read. destruct (cols_open cs sts) as [[|c0 rest]|] eqn:EO; try discriminate. intros E. exists (c0 :: rest), c0, rest.
  destruct (X _ _ _ _ E) as [out Y]. exists out. split; [reflexivity|]. split; [reflexivity|]. exact Y.
Qed.
Print Assumptions C16_end_is_end.
