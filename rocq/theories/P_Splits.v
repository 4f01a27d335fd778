(** C59: a split part contains what split.yaml says. *)
From Coq Require Import String Ascii.
From Verif Require Import Base PyFloat PyFloatProofs PyFloatMono Files Tar TarSpec TarProofs TarProofs2 Split SplitSpec SplitProofs P_TarNames P_Tar.
From Verif Require Prepare P_Prepare.
From Verif Require Import Joined JoinedSpec.
Local Open Scope string_scope.
Local Open Scope list_scope.
Local Open Scope nat_scope.

(** A loaded split part has exactly the shards that its list in split.yaml stands for, in the order and as often as they are listed, except the
    ones the exclude list names; each is used from its first sample on, with the count of .info.yaml; there is at least one. *)
Theorem C59_split_part be counts sp part m : NoDup (map fst (sp_parts sp)) ->
  from_config be counts sp part = MOk m ->
  exists patterns names, In (part, patterns) (sp_parts sp) /\ spelled_out be patterns names /\
    kept (fun n => ~ named_by be (sp_exclude sp) n) names (map sh_name (mt_shards m)) /\
    (forall n, In n (map sh_name (mt_shards m)) <-> named_by be patterns n /\ ~ named_by be (sp_exclude sp) n) /\
    (forall s, In s (mt_shards m) -> sh_offset s = 0 /\ In (sh_name s, sh_count s) counts) /\ mt_shards m <> [].
Proof.
  intros ND H. destruct (@from_config_inv be counts sp part) as (patterns & ex & names & I & E1 & E2).
  { intros e. rewrite H. discriminate. }
  rewrite (from_config_cases counts ND I E1 E2) in H. cbv zeta in H.
  set (files := filter (fun n => negb (mem n ex)) names) in *.
  destruct (List.length files =? 0) eqn:El; [discriminate|].
  destruct (sequence (map (shard_info counts) files)) as [shards|] eqn:Es; [|discriminate]. injection H as <-. cbn [mt_shards].
  destruct (sequence_shards Es) as [A B].
  assert (K : kept (fun n => ~ named_by be (sp_exclude sp) n) names files).
  { apply kept_filter. intros n. rewrite negb_not. now rewrite (spelled_in E1). }
  exists patterns, names. split; [exact I|]. split; [exact E2|]. rewrite A. split; [exact K|]. split; [|split; [exact B|]].
  - intros n. rewrite (kept_in K), (spelled_in E2). tauto.
  - intros ->. cbn in A. rewrite <- A in El. discriminate.
Qed.
Print Assumptions C59_split_part.

(** Loading succeeds exactly if the part exists, all patterns are well-formed, some listed shard is not excluded, and every such shard was
    counted by the preparation. *)
Theorem C59_loads be counts sp part : NoDup (map fst (sp_parts sp)) -> NoDup (map fst counts) ->
  ((exists m, from_config be counts sp part = MOk m) <->
   exists patterns, In (part, patterns) (sp_parts sp) /\ well_formed be (sp_exclude sp) /\ well_formed be patterns /\
     (exists n, named_by be patterns n /\ ~ named_by be (sp_exclude sp) n) /\
     (forall n, named_by be patterns n -> ~ named_by be (sp_exclude sp) n -> exists c, In (n, c) counts)).
Proof.
  intros ND NC. split.
  - intros [m H]. destruct (@from_config_inv be counts sp part) as (patterns & ex & names & I & E1 & E2).
    { intros e. rewrite H. discriminate. }
    rewrite (from_config_cases counts ND I E1 E2) in H. cbv zeta in H.
    set (files := filter (fun n => negb (mem n ex)) names) in *.
    assert (F : forall n, In n files <-> named_by be patterns n /\ ~ named_by be (sp_exclude sp) n).
    { intros n. unfold files. rewrite filter_In, negb_not, (spelled_in E2), (spelled_in E1). tauto. }
    destruct (List.length files =? 0) eqn:El; [discriminate|].
    destruct (sequence (map (shard_info counts) files)) as [shards|] eqn:Es; [|discriminate].
    exists patterns. split; [exact I|]. split; [exact (spelled_wf E1)|]. split; [exact (spelled_wf E2)|]. split.
    + destruct files as [|n l]; [discriminate|]. exists n. apply F. now left.
    + intros n H1 H2. apply (sequence_shards_known Es). apply F. auto.
  - intros (patterns & I & W1 & W2 & (n & Hn1 & Hn2) & Hc).
    destruct (wf_spelled W1) as [ex E1], (wf_spelled W2) as [names E2].
    rewrite (from_config_cases counts ND I E1 E2). cbv zeta. set (files := filter (fun n => negb (mem n ex)) names).
    assert (F : forall n, In n files <-> named_by be patterns n /\ ~ named_by be (sp_exclude sp) n).
    { intros k. unfold files. rewrite filter_In, negb_not, (spelled_in E2), (spelled_in E1). tauto. }
    assert (In n files) by (apply F; auto). destruct (List.length files =? 0) eqn:El.
    { destruct files; [destruct H | discriminate]. }
    destruct (@sequence_shards_ok counts files) as [shards ->]; [|eauto].
    intros k Ik. apply F in Ik as [K1 K2]. destruct (Hc k K1 K2) as [c Ic]. exists c. now apply in_lookup.
Qed.
Print Assumptions C59_loads.

(** A part all of whose shards are excluded (or that lists none) is reported as empty, and only such a part. *)
Theorem C59_empty be counts sp part : NoDup (map fst (sp_parts sp)) ->
  (from_config be counts sp part = MEmpty <->
   exists patterns, In (part, patterns) (sp_parts sp) /\ well_formed be (sp_exclude sp) /\ well_formed be patterns /\
     forall n, named_by be patterns n -> named_by be (sp_exclude sp) n).
Proof.
  intros ND. split.
  - intros H. destruct (@from_config_inv be counts sp part) as (patterns & ex & names & I & E1 & E2).
    { intros e. rewrite H. discriminate. }
    rewrite (from_config_cases counts ND I E1 E2) in H. cbv zeta in H.
    set (files := filter (fun n => negb (mem n ex)) names) in *.
    destruct (List.length files =? 0) eqn:El; [|destruct (sequence (map (shard_info counts) files)); discriminate].
    exists patterns. split; [exact I|]. split; [exact (spelled_wf E1)|]. split; [exact (spelled_wf E2)|].
    intros n Hn. apply (spelled_in E2) in Hn. apply (spelled_in E1).
    destruct (mem n ex) eqn:Em; [now apply mem_in|]. exfalso.
    assert (In n files) by (apply filter_In; rewrite Em; auto). destruct files; [destruct H0 | discriminate].
  - intros (patterns & I & W1 & W2 & HA).
    destruct (wf_spelled W1) as [ex E1], (wf_spelled W2) as [names E2].
    rewrite (from_config_cases counts ND I E1 E2). cbv zeta.
    assert (F : filter (fun n => negb (mem n ex)) names = []).
    { apply filter_none. intros n In'. apply (spelled_in E2) in In'. apply HA, (spelled_in E1), mem_in in In'. now rewrite In'. }
    now rewrite F.
Qed.
Print Assumptions C59_empty.

(** The samples that are left out are exactly the ones whose key (shard name, slash, name in the archive) the exclude list names. *)
Theorem C59_excluded_samples be counts sp part m name base : NoDup (map fst (sp_parts sp)) ->
  from_config be counts sp part = MOk m ->
  (reader_excludes m (name ++ "/" ++ base)%string = true <-> named_by be (sp_exclude sp) (name ++ "/" ++ base)%string).
Proof.
  intros ND H. destruct (@from_config_inv be counts sp part) as (patterns & ex & names & I & E1 & E2).
  { intros e. rewrite H. discriminate. }
  rewrite (from_config_cases counts ND I E1 E2) in H. cbv zeta in H.
  destruct (List.length _ =? 0); [discriminate|]. destruct (sequence _) as [shards|]; [|discriminate]. injection H as <-.
  unfold reader_excludes. cbn [mt_excludes]. rewrite mem_in, filter_In, (spelled_in E1). change ("/" ++ base)%string with (String slash base).
  rewrite has_slash. tauto.
Qed.
Print Assumptions C59_excluded_samples.

(** Reading a shard of the part from its first to its last sample gives all samples of the archive, in order and with all their (selected)
    parts, except exactly the excluded ones. *)
Theorem C59_samples_served {Dat} be counts sp part m sh (ms : list (member Dat)) pf n :
  NoDup (map fst (sp_parts sp)) -> from_config be counts sp part = MOk m -> In sh (mt_shards m) ->
  (forall x, In x ms -> 0 < m_size x) -> (Z.of_nat (tar_size ms) < 2 ^ 64)%Z -> sh_count sh = count_of ms ->
  NoDup (map base_of (archive_samples ms)) -> sh_count sh <= n ->
  exists l pos gs, read_from ms (index_file ms) (reader_excludes m) pf sh 0 0 n = Ok (l, pos) /\
    kept (fun g => ~ named_by be (sp_exclude sp) (sample_key (sh_name sh) g)) (archive_samples ms) gs /\
    map seen l = map (fun g => (sample_key (sh_name sh) g, parts_of pf g)) gs.
Proof.
  intros ND H Ish H1 H2 HC NDs Hn. destruct (C17_index_counts_samples ms) as [CC _].
  assert (Ho : sh_offset sh = 0).
  { destruct (C59_split_part ND H) as (? & ? & _ & _ & _ & _ & X & _). now apply X in Ish as []. }
  assert (H3 : sh_offset sh + sh_count sh <= List.length (archive_samples ms)) by lia.
  destruct (@read_from_spec _ ms (reader_excludes m) pf sh H1 H2 H3 0 0 n) as (b & E & _); [apply Inv_init; auto|].
  set (keep := fun g : list (ent Dat) => negb (reader_excludes m (sample_key (sh_name sh) g))).
  assert (EL : runs (L ms (reader_excludes m) sh) = filter keep (archive_samples ms)).
  { unfold L, live. rewrite <- (wg_runs (G := filter keep (archive_samples ms))) by (apply filter_wg; [apply runs_wg | exact NDs]).
    f_equal. unfold sub. rewrite Ho. cbn [skipn]. rewrite firstn_all2 by lia.
    exact (live_concat (fun b => reader_excludes m (sh_name sh ++ "/" ++ b)) (runs_wg _)). }
  rewrite EL in E. eexists _, _, (filter keep (archive_samples ms)). split; [exact E|]. split.
  - apply kept_filter. intros g. unfold keep, sample_key. rewrite <- (C59_excluded_samples (sh_name sh) (base_of g) ND H).
    destruct (reader_excludes m _); cbn; split; congruence.
  - rewrite number_seen. cbn [skipn]. rewrite firstn_all2; [reflexivity|].
    assert (FL : forall (P : list (ent Dat) -> bool) l, List.length (filter P l) <= List.length l).
    { intros P l. induction l as [|x l IH]; cbn; [lia|]. destruct (P x); cbn; lia. }
    specialize (FL keep (archive_samples ms)). lia.
Qed.
Print Assumptions C59_samples_served.

(** Excluding a whole shard file leaves out no sample of another shard: an entry whose last path component has a dot is no sample's key. *)
Theorem C59_shard_entry_harmless {Dat} (x : member Dat) shname base ext dir f e :
  part_of x = Some (base, ext) -> e = (dir ++ f)%string -> no_char "/" f -> ~ no_char "." f ->
  (dir = "" \/ exists d, dir = (d ++ "/")%string) -> e <> (shname ++ "/" ++ base)%string.
Proof.
  intros HP He Nf Df Hd Q. unfold part_of in HP. destruct (negb (m_reg x)); [discriminate|]. destruct (skip_meta (m_name x)); [discriminate|].
  apply C17_member_name in HP as (d & stem & _ & -> & Hd2 & Hs & Ns & _).
  destruct (split_last stem) as [Nsl | (a & b & -> & Nb)].
  - assert (E : (dir ++ f = (shname ++ "/" ++ d) ++ stem)%string) by (rewrite <- He, Q, !sapp_assoc; reflexivity).
    destruct (dir_unique E Nf Nsl Hd) as [_ ->]; [|contradiction]. right. destruct Hd2 as [-> | [y ->]].
    + exists shname. now rewrite sapp_nil_r.
    + exists (shname ++ "/" ++ y)%string. now rewrite !sapp_assoc.
  - assert (E : (dir ++ f = (shname ++ "/" ++ d ++ a ++ "/") ++ b)%string) by (rewrite <- He, Q, !sapp_assoc; reflexivity).
    destruct (dir_unique E Nf Nb Hd) as [_ ->].
    + right. exists (shname ++ "/" ++ d ++ a)%string. now rewrite !sapp_assoc.
    + apply no_char_app in Ns as [_ [_ Ns]]. contradiction.
Qed.
Print Assumptions C59_shard_entry_harmless.

(** ** what the preparation wrote *)
(** prepare.py:213-215 shard_counts *)
Definition counts_of (infos : list Prepare.shard_info) : list (string * nat) :=
  map (fun s => (Prepare.sh_name s, Prepare.sh_count s)) (Prepare.usable_shards infos).

Lemma spelled_plain be names : (forall n, In n names -> be n = Ok [n]) -> spelled_out be names names.
Proof.
  induction names as [|n l IH]; intros H; [constructor|]. change (n :: l) with ([n] ++ l) at 2.
  constructor; [apply H; now left | apply IH; intros k I; apply H; now right].
Qed.
Lemma filter_true {A} (l : list A) f : (forall x, In x l -> f x = true) -> filter f l = l.
Proof. apply filter_all. Qed.

(** After preparing a dataset with split ratios, each part with at least one shard loads, with the shards assigned to it and their
    counts; the parts without a shard are reported as empty; together the parts have each readable shard once, except those that the
    preparation assigned to no part (C22).  For shard names that braceexpand leaves as they are. *)
Theorem C59_prepared_parts be (infos : list Prepare.shard_info) (shuffled : list string) ratios parts :
  Permutation shuffled (map Prepare.sh_name (Prepare.usable_shards infos)) -> NoDup (map Prepare.sh_name (Prepare.usable_shards infos)) ->
  NoDup (map fst ratios) -> (forall p r, In (p, r) ratios -> is_double r) ->
  (forall n, In n shuffled -> be n = Ok [n]) -> Prepare.ratio_split shuffled ratios = Ok parts ->
  exists lost loaded,
    Forall2 (fun p shards =>
      from_config be (counts_of infos) (mkSplits parts []) (fst p) = match shards with [] => MEmpty | _ => MOk (mkMeta [] shards) end /\
      map sh_name shards = snd p) parts loaded /\
    map fst parts = map fst ratios /\
    Permutation (concat loaded ++ lost) (map (fun s => mkShard (Prepare.sh_name s) 0 (Prepare.sh_count s)) (Prepare.usable_shards infos)).
Proof.
  intros HP HN ND DR PL HS. destruct (P_Prepare.C22_parts_disjoint_contiguous_partial HP ND DR HS) as (A & lost & B & _).
  assert (NDp : NoDup (map fst parts)) by (rewrite A; exact ND).
  assert (HNC : NoDup (map fst (counts_of infos))).
  { unfold counts_of. rewrite map_map. cbn [fst]. exact HN. }
  set (cnt := fun n => match lookup n (counts_of infos) with Some c => c | None => 0 end).
  set (sh := fun n => mkShard n 0 (cnt n)).
  assert (K : forall n, In n shuffled -> shard_info (counts_of infos) n = Ok (sh n)).
  { intros n I. apply (Permutation_in _ HP) in I. apply in_map_iff in I as (s & <- & I).
    assert (E : lookup (Prepare.sh_name s) (counts_of infos) = Some (Prepare.sh_count s)).
    { apply in_lookup; [exact HNC|]. unfold counts_of. apply in_map_iff. exists s. auto. }
    unfold shard_info, sh, cnt. now rewrite E. }
  assert (KS : forall names, (forall n, In n names -> In n shuffled) -> sequence (map (shard_info (counts_of infos)) names) = Ok (map sh names)).
  { induction names as [|n l IH]; intros H; cbn; [reflexivity|]. rewrite K by (apply H; now left).
    rewrite IH by (intros k I; apply H; now right). reflexivity. }
  exists (map sh lost), (map (fun p => map sh (snd p)) parts). split; [|split; [exact A|]].
  - assert (F : forall ps, (forall p, In p ps -> In p parts) -> Forall2 (fun p shards =>
      from_config be (counts_of infos) (mkSplits parts []) (fst p) = match shards with [] => MEmpty | _ => MOk (mkMeta [] shards) end /\
      map sh_name shards = snd p) ps (map (fun p => map sh (snd p)) ps)).
    { induction ps as [|[part names] ps IH]; intros H; cbn [map]; [constructor|]. constructor; [|apply IH; intros p I; apply H; now right].
      cbn [fst snd]. assert (Ip : In (part, names) parts) by (apply H; now left).
      assert (IN : forall n, In n names -> In n shuffled).
      { intros n I. rewrite <- B. apply in_or_app. left. apply in_concat. exists names. split; [|exact I]. apply in_map_iff. now exists (part, names). }
      split.
      - rewrite (@from_config_cases be (counts_of infos) (mkSplits parts []) part NDp names [] names Ip); [|constructor|apply spelled_plain; auto].
        cbv zeta. rewrite (@filter_true _ names) by reflexivity. destruct names as [|n l]; [reflexivity|].
        rewrite KS by exact IN. reflexivity.
      - rewrite map_map. unfold sh. cbn [sh_name]. apply map_id. }
    apply F. auto.
  - rewrite <- map_map, <- concat_map, <- map_app, B. rewrite (Permutation_map sh HP), map_map.
    erewrite map_ext_in; [apply Permutation_refl|]. intros s I. cbn beta. unfold sh, cnt.
    rewrite (@in_lookup _ (Prepare.sh_name s) (counts_of infos) (Prepare.sh_count s) HNC); [reflexivity|].
    unfold counts_of. apply in_map_iff. exists s. auto.
Qed.
Print Assumptions C59_prepared_parts.

(** ** joining datasets *)
(** A join is accepted exactly if all the datasets have equally many shards, the same excludes with a slash, and pairwise the same counts;
    row i then consists of the i-th shards. *)
Theorem C59_join first rest :
  match join_rows first rest with
  | Ok rows =>
      List.length rows = List.length (mt_shards first) /\
      (forall i row, nth_error rows i = Some row -> Forall2 (fun m s => nth_error (mt_shards m) i = Some s) (first :: rest) row) /\
      (forall i row s t, nth_error rows i = Some row -> In s row -> In t row -> sh_count s = sh_count t) /\
      (forall m x, In m rest -> In x (mt_excludes m) <-> In x (mt_excludes first))
  | Err _ =>
      exists m, In m rest /\
        (List.length (mt_shards m) <> List.length (mt_shards first) \/
         (exists x, ~ (In x (mt_excludes m) <-> In x (mt_excludes first))) \/
         (exists i s t, nth_error (mt_shards m) i = Some s /\ nth_error (mt_shards first) i = Some t /\ sh_count s <> sh_count t))
  end.
Proof.
  unfold join_rows. set (n := List.length (mt_shards first)).
  assert (SS : forall a b, same_set a b = true <-> forall x, In x a <-> In x b).
  { intros a b. unfold same_set. rewrite andb_true_iff, !forallb_forall. split.
    - intros [A B] x. split; intros I; [apply A in I | apply B in I]; now apply mem_in.
    - intros H. split; intros x I; apply mem_in; now apply H. }
  assert (CB : forall (a b : list shard) i s t, nth_error a i = Some s -> nth_error b i = Some t -> In (s, t) (combine a b)).
  { induction a as [|x a IH]; intros [|y b] [|i] s t Ha Hb; try discriminate; cbn in *.
    - injection Ha as ->. injection Hb as ->. now left.
    - right. eapply IH; eauto. }
  assert (BC : forall (a b : list shard) s t, In (s, t) (combine a b) -> exists i, nth_error a i = Some s /\ nth_error b i = Some t).
  { induction a as [|x a IH]; intros [|y b] s t I; try destruct I as [].
    - cbn in *. injection H as -> ->. now exists 0.
    - destruct (IH b s t H) as [i Hi]. now exists (S i). }
  assert (NF : forall (f : meta -> bool) l, forallb f l = false -> exists m, In m l /\ f m = false).
  { intros f l. induction l as [|m l IH]; cbn; [discriminate|]. destruct (f m) eqn:E; [|exists m; auto]. cbn. intros H.
    destruct (IH H) as (m' & I & F). exists m'. auto. }
  destruct (forallb (fun m => List.length (mt_shards m) =? n) rest) eqn:E1; cbn [negb].
  2:{ destruct (NF _ _ E1) as (m & I & F). exists m. split; [exact I|]. left. apply Nat.eqb_neq in F. exact F. }
  destruct (forallb (fun m => same_set (mt_excludes first) (mt_excludes m)) rest) eqn:E2; cbn [negb].
  2:{ destruct (NF _ _ E2) as (m & I & F). exists m. split; [exact I|]. right. left.
      assert (D : (exists x, In x (mt_excludes m) /\ ~ In x (mt_excludes first)) \/ (exists x, In x (mt_excludes first) /\ ~ In x (mt_excludes m))).
      { unfold same_set in F. apply andb_false_iff in F.
        assert (NS : forall a b, forallb (fun x => mem x b) a = false -> exists x, In x a /\ ~ In x b).
        { intros a b. induction a as [|x a IH]; cbn; [discriminate|]. destruct (mem x b) eqn:M; cbn.
          - intros H. destruct (IH H) as (y & A & B). exists y. auto.
          - intros _. exists x. split; [now left|]. intros J. apply mem_in in J. congruence. }
        destruct F as [F | F]; apply NS in F as (x & A & B); [right | left]; exists x; auto. }
      destruct D as [(x & A & B) | (x & A & B)]; exists x; tauto. }
  destruct (forallb (fun m => forallb (fun p => sh_count (fst p) =? sh_count (snd p)) (combine (mt_shards m) (mt_shards first))) rest) eqn:E3; cbn [negb].
  2:{ destruct (NF _ _ E3) as (m & I & F). exists m. split; [exact I|]. right. right.
      assert (NP : forall l : list (shard * shard), forallb (fun p => sh_count (fst p) =? sh_count (snd p)) l = false ->
        exists p, In p l /\ sh_count (fst p) <> sh_count (snd p)).
      { induction l as [|p l IH]; cbn; [discriminate|]. destruct (sh_count (fst p) =? sh_count (snd p)) eqn:Q; cbn.
        - intros H. destruct (IH H) as (q & A & B). exists q. auto.
        - intros _. exists p. split; [now left|]. now apply Nat.eqb_neq. }
      destruct (NP _ F) as ([s t] & J & Q). apply BC in J as (i & A & B). exists i, s, t. auto. }
  rewrite forallb_forall in E1, E2, E3.
  assert (LEN : forall m, In m (first :: rest) -> List.length (mt_shards m) = n).
  { intros m [<- | I]; [reflexivity|]. apply Nat.eqb_eq. now apply E1. }
  assert (ROW : forall i row, nth_error (map (fun i => flat_map (fun m => match nth_error (mt_shards m) i with Some s => [s] | None => [] end) (first :: rest)) (seq 0 n)) i = Some row ->
    Forall2 (fun m s => nth_error (mt_shards m) i = Some s) (first :: rest) row).
  { intros i row H.
    assert (Hi : i < n).
    { assert (X : i < List.length (seq 0 n)) by (apply nth_error_Some; intros Q; rewrite nth_error_map, Q in H; discriminate). now rewrite seq_length in X. }
    rewrite nth_error_map, (nth_error_nth' (seq 0 n) 0) in H by (rewrite seq_length; exact Hi). rewrite seq_nth in H by exact Hi. cbn [option_map] in H.
    injection H as <-. cbn [plus].
    assert (G : forall ml, (forall m, In m ml -> List.length (mt_shards m) = n) ->
      Forall2 (fun m s => nth_error (mt_shards m) i = Some s) ml (flat_map (fun m => match nth_error (mt_shards m) i with Some s => [s] | None => [] end) ml)).
    { induction ml as [|m ml IH]; intros HL; cbn [flat_map]; [constructor|].
      destruct (nth_error (mt_shards m) i) as [s|] eqn:Q.
      - cbn [app]. constructor; [exact Q|]. apply IH. intros k I. apply HL. now right.
      - apply nth_error_None in Q. rewrite HL in Q by now left. lia. }
    apply G. exact LEN. }
  split; [now rewrite map_length, seq_length|]. split; [exact ROW|]. split.
  - intros i row s t H Is It. apply ROW in H.
    assert (C : forall x, In x row -> exists f, nth_error (mt_shards first) i = Some f /\ sh_count x = sh_count f).
    { inversion H as [|? f ? row' Hf HR]; subst. intros x [<- | I]; [exists f; auto|]. exists f. split; [exact Hf|].
      assert (IM : exists m, In m rest /\ nth_error (mt_shards m) i = Some x).
      { clear - HR I. induction HR as [|m y l l' Hy _ IH]; [destruct I|]. destruct I as [<- | I]; [exists m; split; [now left | exact Hy]|].
        destruct (IH I) as (k & A & B). exists k. split; [now right | exact B]. }
      destruct IM as (m & Im & Hx). specialize (E3 m Im). rewrite forallb_forall in E3. apply Nat.eqb_eq.
      apply (E3 (x, f)). eapply CB; eauto. }
    destruct (C s Is) as (f & Hf & ->), (C t It) as (f' & Hf' & ->). congruence.
  - intros m x I. specialize (E2 m I). rewrite SS in E2. symmetry. apply E2.
Qed.
Print Assumptions C59_join.

(** ** examples, and what does not hold *)
Definition be_ex (p : string) : result (list string) :=
  if seqb p "s/{0..2}.tar" then Ok ["s/0.tar"; "s/1.tar"; "s/2.tar"]
  else if seqb p "a{1,2}.tar" then Ok ["a1.tar"; "a2.tar"]
  else if seqb p "{" then Err ValueError else Ok [p].
Definition counts_ex : list (string * nat) := [("s/0.tar", 3); ("s/1.tar", 4); ("s/2.tar", 3); ("s/3.tar", 5)].
Definition sp_ex : splits :=
  mkSplits [("train", ["s/{0..2}.tar"]); ("val", ["s/3.tar"]); ("test", [])] ["s/1.tar"; "s/0.tar/a/2"].
Definition tar_ex : list (member nat) :=
  [mkM "a/1.jpg" true 2 11; mkM "a/1.txt" true 2 12; mkM "a/2.jpg" true 4 21; mkM "a/3.jpg" true 2 31].

Example C59_nonvacuous :
  from_config be_ex counts_ex sp_ex "train" =
    MOk (mkMeta ["s/1.tar"; "s/0.tar/a/2"] [mkShard "s/0.tar" 0 3; mkShard "s/2.tar" 0 3]) /\
  from_config be_ex counts_ex sp_ex "val" = MOk (mkMeta ["s/1.tar"; "s/0.tar/a/2"] [mkShard "s/3.tar" 0 5]) /\
  from_config be_ex counts_ex sp_ex "test" = MEmpty /\
  from_config be_ex counts_ex sp_ex "other" = MErr AssertionError /\
  count_of tar_ex = 3 /\ NoDup (map base_of (archive_samples tar_ex)) /\
  (exists l pos, read_from tar_ex (index_file tar_ex) (reader_excludes (mkMeta ["s/1.tar"; "s/0.tar/a/2"] [])) (fun _ => true) (mkShard "s/0.tar" 0 3) 0 0 3 = Ok (l, pos) /\
     map seen l = [("s/0.tar/a/1", [("jpg", 11); ("txt", 12)]); ("s/0.tar/a/3", [("jpg", 31)])]).
Proof.
  do 4 (split; [reflexivity|]). split; [reflexivity|]. split.
  - vm_compute. repeat constructor; cbn; intros H; repeat destruct H as [H | H]; try discriminate; exact H.
  - eexists _, _. split; [vm_compute; reflexivity | reflexivity].
Qed.

Lemma kept_len {A} (P : A -> Prop) l l' : kept P l l' -> List.length l' <= List.length l /\ (List.length l' = List.length l <-> forall x, In x l -> P x).
Proof.
  induction 1 as [|x l l' Px K [IH1 IH2]|x l l' Px K [IH1 IH2]]; cbn [List.length].
  - split; [lia|]. split; [intros _ x []|reflexivity].
  - split; [lia|]. split.
    + intros E y [<- | I]; [exact Px|]. apply IH2; [lia|exact I].
    + intros Q. f_equal. apply IH2. intros y I. apply Q. now right.
  - split; [lia|]. split; [lia|]. intros Q. exfalso. apply Px, Q. now left.
Qed.

(** [len()] of a split part is the number of samples that reading it once gives exactly when none of its samples is excluded, and more otherwise. *)
Theorem C59_len_partial {Dat} be counts sp part m (ar : string -> list (member Dat)) pf reads :
  NoDup (map fst (sp_parts sp)) -> from_config be counts sp part = MOk m ->
  (forall sh, In sh (mt_shards m) -> (forall x, In x (ar (sh_name sh)) -> 0 < m_size x) /\ (Z.of_nat (tar_size (ar (sh_name sh))) < 2 ^ 64)%Z /\
     sh_count sh = count_of (ar (sh_name sh)) /\ NoDup (map base_of (archive_samples (ar (sh_name sh))))) ->
  Forall2 (fun sh l => exists pos, read_from (ar (sh_name sh)) (index_file (ar (sh_name sh))) (reader_excludes m) pf sh 0 0 (sh_count sh) = Ok (l, pos)) (mt_shards m) reads ->
  List.length (concat reads) <= ds_len m /\
  (List.length (concat reads) = ds_len m <->
   forall sh g, In sh (mt_shards m) -> In g (archive_samples (ar (sh_name sh))) -> ~ named_by be (sp_exclude sp) (sample_key (sh_name sh) g)).
Proof.
  intros ND H HA F. unfold ds_len.
  enough (G : forall ss, (forall sh, In sh ss -> In sh (mt_shards m)) -> forall reads,
    Forall2 (fun sh l => exists pos, read_from (ar (sh_name sh)) (index_file (ar (sh_name sh))) (reader_excludes m) pf sh 0 0 (sh_count sh) = Ok (l, pos)) ss reads ->
    List.length (concat reads) <= list_sum (map sh_count ss) /\
    (List.length (concat reads) = list_sum (map sh_count ss) <->
     forall sh g, In sh ss -> In g (archive_samples (ar (sh_name sh))) -> ~ named_by be (sp_exclude sp) (sample_key (sh_name sh) g))) by (apply G; auto).
  clear F reads. intros ss. induction ss as [|sh ss IH]; intros HS reads F; inversion F as [|? l ? reads' [pos E] F']; subst; cbn [concat map list_sum fold_right].
  - split; [reflexivity|]. split; [intros _ ? ? []|reflexivity].
  - assert (I : In sh (mt_shards m)) by (apply HS; now left).
    destruct (HA sh I) as (A1 & A2 & A3 & A4).
    destruct (@C59_samples_served Dat be counts sp part m sh (ar (sh_name sh)) pf (sh_count sh) ND H I A1 A2 A3 A4 (le_n _)) as (l2 & pos2 & gs & E2 & K & M).
    rewrite E in E2. injection E2 as <- <-.
    assert (L1 : List.length l = List.length gs) by (apply (f_equal (@List.length _)) in M; now rewrite !map_length in M).
    destruct (kept_len K) as [K1 K2].
    assert (L2 : List.length (archive_samples (ar (sh_name sh))) = sh_count sh) by (rewrite A3; now destruct (C17_index_counts_samples (ar (sh_name sh)))).
    destruct (IH (fun s J => HS s (or_intror J)) reads' F') as [I1 I2].
    rewrite app_length. fold (list_sum (map sh_count ss)). split; [lia|]. split.
    + intros Q sh' g [<- | J] Hg; [apply K2; [lia|exact Hg]|]. apply I2; [lia|exact J|exact Hg].
    + intros Q. assert (List.length gs = List.length (archive_samples (ar (sh_name sh)))) by (apply K2; intros g Hg; apply Q; [now left|exact Hg]).
      assert (List.length (concat reads') = list_sum (map sh_count ss)) by (apply I2; intros s' g J Hg; apply Q; [now right|exact Hg]). lia.
Qed.
Print Assumptions C59_len_partial.

(** len() of a dataset counts excluded samples: it promises more samples than an epoch has. *)
Theorem C59_len_refuted : exists m ms l pos,
  from_config be_ex counts_ex (mkSplits [("train", ["s/0.tar"])] ["s/0.tar/a/2"]) "train" = MOk m /\ mt_shards m = [mkShard "s/0.tar" 0 (count_of ms)] /\
  read_from (Dat := nat) ms (index_file ms) (reader_excludes m) (fun _ => true) (mkShard "s/0.tar" 0 (count_of ms)) 0 0 (ds_len m) = Ok (l, pos) /\
  List.length l < ds_len m.
Proof.
  eexists _, tar_ex, _, _. split; [reflexivity|]. split; [reflexivity|]. split; [vm_compute; reflexivity|]. vm_compute. lia.
Qed.
Print Assumptions C59_len_refuted.

(** A shard whose file name contains braces is prepared and counted but cannot be loaded: the split part stands for other names. *)
Theorem C59_brace_name_refuted :
  Prepare.ratio_split ["a{1,2}.tar"] [("train", rnd 1 1)] = Ok [("train", ["a{1,2}.tar"])] /\
  from_config be_ex [("a{1,2}.tar", 7)] (mkSplits [("train", ["a{1,2}.tar"])] []) "train" = MErr KeyError.
Proof. split; vm_compute; reflexivity. Qed.

(** A shard that two patterns of a part stand for is in the part twice: all its samples occur twice per epoch. *)
Theorem C59_listed_twice_refuted :
  from_config be_ex counts_ex (mkSplits [("train", ["s/{0..2}.tar"; "s/0.tar"])] []) "train" =
    MOk (mkMeta [] [mkShard "s/0.tar" 0 3; mkShard "s/1.tar" 0 4; mkShard "s/2.tar" 0 3; mkShard "s/0.tar" 0 3]).
Proof. reflexivity. Qed.

(** Excluding "shard/number" (structs.py:20 and sample_loader.py:146 say "sample index") excludes nothing unless the sample is named so. *)
Theorem C59_by_index_refuted : exists m l pos,
  from_config be_ex counts_ex (mkSplits [("train", ["s/0.tar"])] ["s/0.tar/1"]) "train" = MOk m /\
  read_from tar_ex (index_file tar_ex) (reader_excludes m) (fun _ => true) (mkShard "s/0.tar" 0 3) 0 0 3 = Ok (l, pos) /\
  map rs_key l = ["s/0.tar/a/1"; "s/0.tar/a/2"; "s/0.tar/a/3"].
Proof. eexists _, _, _. split; [reflexivity|]. split; vm_compute; reflexivity. Qed.

(** Two datasets whose exclude lists differ in whole shards (names without a slash) can be joined, and then different shards are paired. *)
Theorem C59_join_misaligned_refuted : exists a b rows,
  from_config be_ex [("0.tar", 3); ("1.tar", 3)] (mkSplits [("train", ["0.tar"; "1.tar"])] ["0.tar"]) "train" = MOk a /\
  from_config be_ex [("0.tar", 3); ("1.tar", 3)] (mkSplits [("train", ["0.tar"; "1.tar"])] ["1.tar"]) "train" = MOk b /\
  join_rows a [b] = Ok rows /\ rows = [[mkShard "1.tar" 0 3; mkShard "0.tar" 0 3]].
Proof. eexists _, _, _. repeat split; reflexivity. Qed.

(** Joined columns with different shard names: an exclude entry (present in both datasets, as the join demands) that names the sample of
    the first column only makes reading fail at that sample. *)
Theorem C59_joined_exclude_refuted : exists cs e,
  Forall (fun c : column nat => sh_offset (c_sh c) = 0) cs /\
  mc_read (fun k => mem k ["A/b"]) (fun _ => true) false cs (map (fun _ => (0, 0)) cs) 4 =
    ([[Some (mkRSam "A/a" ("A", 0) [("jpg", 11)]); Some (mkRSam "B/a" ("B", 0) [("txt", 21)])]], McFail e).
Proof.
  exists [mkCol [mkM "a.jpg" true 2 11; mkM "b.jpg" true 3 12; mkM "c.jpg" true 3 13] (index_file [mkM "a.jpg" true 2 11; mkM "b.jpg" true 3 12; mkM "c.jpg" true 3 13]) (mkShard "A" 0 3);
          mkCol [mkM "a.txt" true 1 21; mkM "b.txt" true 1 22; mkM "c.txt" true 1 23] (index_file [mkM "a.txt" true 1 21; mkM "b.txt" true 1 22; mkM "c.txt" true 1 23]) (mkShard "B" 0 3)].
  eexists. split; [repeat constructor|]. vm_compute. reflexivity.
Qed.
Print Assumptions C59_joined_exclude_refuted.
