(** C62: functions named in dataset.yaml, and samples loaded by them. *)
From Coq Require Import String Ascii.
From Verif Require Import Base Epath EpathProofs P_Epath Tar TarSpec P_Tar P_TarNames FieldAccess Load LoadProofs P_Load UserFunctions.
Local Open Scope string_scope.
Local Open Scope list_scope.
Local Open Scope nat_scope.

(** ** Which function is meant *)
Lemma rsplit_none s : no_char ":" s <-> rsplit_colon s = None.
Proof.
  induction s as [|c s IH]; cbn [no_char rsplit_colon]; [tauto|].
  destruct (rsplit_colon s) as [[a b]|] eqn:E.
  - split; [intros [_ H]; apply IH in H; discriminate|discriminate].
  - unfold colon. destruct (Ascii.eqb_spec c ":"); [split; [intros [H _]; contradiction|discriminate]|]. split; [reflexivity|]. intros _. split; [assumption|]. now apply IH.
Qed.
Lemma rsplit_some m f : no_char ":" f -> rsplit_colon (m ++ ":" ++ f) = Some (m, f).
Proof.
  intros N. induction m as [|c m IH]; cbn [append rsplit_colon].
  - apply rsplit_none in N. rewrite N. reflexivity.
  - cbn [append] in IH. rewrite IH. reflexivity.
Qed.
Lemma no_colon_protocol s : no_char ":" s -> split_protocol s = None.
Proof.
  induction s as [|c s IH]; [reflexivity|]. intros [N1 N2]. cbn [split_protocol]. destruct (is_lower c); [|reflexivity].
  rewrite (IH N2). destruct s as [|x s]; [reflexivity|]. destruct N2 as [N2 _].
  destruct x as [[] [] [] [] [] [] [] []]; try reflexivity. now destruct N2.
Qed.
Lemma slash_protocol s : split_protocol (String "/" s) = None.
Proof. reflexivity. Qed.

(** "module.py:function" (or "module.py", for the default name) in dataset.yaml of a local dataset means the function of that name in
    the file module.py next to dataset.yaml; .. goes up, and going above the root is an error. *)
Theorem C62_function_named remotes s default parts m f : Forall part_ok parts ->
  (s = (m ++ ":" ++ f)%string /\ no_char ":" f) \/ (s = m /\ default = Some f) ->
  no_char ":" m -> p_abs (parse m) = false ->
  let main := mkEP (mkP true parts) PLocal None in
  match parse_fn remotes s default (Some main) with
  | Ok (p, f') => f' = f /\ exists l, p = mkEP (mkP true l) PLocal None /\ cancels (parts ++ p_parts (parse m)) l /\ ~ In ".." l
  | Err _ => exists r, cancels (parts ++ p_parts (parse m)) (".." :: r)
  end.
Proof.
  intros HP HS NM HR main. unfold parse_fn.
  assert (E : match rsplit_colon s with Some (m0, f0) => Ok (m0, f0) | None => match default with None => Err ValueError | Some f0 => Ok (s, f0) end end = Ok (m, f)).
  { destruct HS as [[-> NF] | [-> ->]]; [now rewrite rsplit_some|]. now rewrite (proj1 (rsplit_none m) NM). }
  rewrite E. cbn [bind]. unfold epath_of at 1. rewrite (no_colon_protocol NM). cbn [bind]. unfold ejoin. cbn [main e_path p_abs].
  rewrite HR. unfold pjoin. cbn [e_path]. rewrite HR. cbn [p_abs p_parts].
  pose proof (C43_resolve_normalises (parts ++ p_parts (parse m))) as SP.
  destruct (resolve (mkP true (parts ++ p_parts (parse m)))) as [[ab l]|e] eqn:ER; cbn [bind].
  - cbn [p_abs p_parts] in SP. destruct SP as (-> & C & N).
    assert (PO : Forall part_ok l).
    { apply Forall_forall. intros x I. apply (cancels_incl C) in I. apply in_app_iff in I as [I | I]; [revert x I; now apply Forall_forall|].
      pose proof (parse_parts_ok m) as Q. rewrite Forall_forall in Q. auto. }
    assert (EO : epath_of remotes (render (mkP true l)) = Ok (mkEP (mkP true l) PLocal None)).
    { unfold epath_of. replace (split_protocol (render (mkP true l))) with (@None (string * string)) by reflexivity.
      now rewrite parse_render_abs by exact PO. }
    match goal with |- context [estr ?q] => replace (estr q) with (@Ok string (render (mkP true l))) by reflexivity end.
    cbn [bind]. rewrite EO. cbn [bind]. split; [reflexivity|]. exists l. auto.
  - apply SP.
Qed.
Print Assumptions C62_function_named.

(** for a dataset on a remote, "module.py:function" is the file next to dataset.yaml on the same remote, opened with that remote's
    connection *)
Lemma epath_of_remote remotes remote l : Forall part_ok (remote :: l) -> ~ In ".." (remote :: l) -> In remote remotes ->
  epath_of remotes ("rclone://" ++ join_slash (remote :: l)) = Ok (mkEP (mkP true (remote :: l)) PRclone (Some remote)).
Proof.
  intros QO ND HR. set (q := remote :: l) in *.
  assert (NE : exists c r, join_slash q = String c r /\ Ascii.eqb c "/" = false).
  { subst q. inversion QO as [|? ? [N1 N2] _]; subst. destruct remote as [|c r]; [discriminate|].
    apply no_slash_cons in N1. exists c. destruct l; eexists; split; try reflexivity; apply N1. }
  destruct NE as (c & r & EJ & EC).
  assert (SP : split_protocol ("rclone://" ++ join_slash q)%string = Some ("rclone", join_slash q)) by (rewrite EJ; reflexivity).
  unfold epath_of. rewrite SP, String.eqb_refl.
  assert (PP : match join_slash q with String "/" _ => join_slash q | _ => ("/" ++ join_slash q)%string end = render (mkP true q)).
  { unfold render. cbn [p_abs p_parts]. rewrite EJ. destruct c as [[][][][][][][][]]; try reflexivity; discriminate. }
  rewrite PP, parse_render_abs by exact QO. unfold resolve. cbn [p_abs p_parts].
  replace (existsb (String.eqb "..") q) with false.
  2: { symmetry. apply no_dd_existsb. apply Forall_forall. intros x I ->. exact (ND I). }
  cbn [bind p_parts]. subst q.
  assert (EX : existsb (String.eqb remote) remotes = true) by (apply existsb_exists; exists remote; split; [exact HR|apply String.eqb_refl]).
  cbn iota. rewrite EX. reflexivity.
Qed.
Theorem C62_remote_function remotes remote parts m f default : Forall part_ok (remote :: parts ++ [m]) -> ~ In ".." (remote :: parts ++ [m]) ->
  In remote remotes -> no_char ":" m -> no_char ":" f ->
  parse_fn remotes (m ++ ":" ++ f) default (Some (mkEP (mkP true (remote :: parts)) PRclone (Some remote))) =
    Ok (mkEP (mkP true (remote :: parts ++ [m])) PRclone (Some remote), f).
Proof.
  intros HP ND HR NM NF. unfold parse_fn. rewrite (rsplit_some m NF). cbn [bind].
  assert (PM : part_ok m) by (rewrite Forall_forall in HP; apply HP; right; apply in_or_app; right; left; reflexivity).
  assert (EM : parse m = mkP false [m]).
  { destruct PM as [P1 P2]. destruct m as [|c m]; [discriminate|]. apply no_slash_cons in P1 as Q. destruct Q as [Q _]. unfold parse. rewrite Q.
    f_equal. change (String c m) with (join_slash [String c m]). rewrite split_join; [|discriminate|apply Forall_cons; [exact P1|apply Forall_nil]].
    apply filter_keep. apply Forall_cons; [split; assumption|apply Forall_nil]. }
  unfold epath_of at 1. rewrite (no_colon_protocol NM). cbn [bind]. rewrite EM. unfold ejoin. cbn [e_path p_abs e_proto e_fs].
  unfold pjoin. cbn [e_path p_abs p_parts]. unfold resolve. cbn [p_abs p_parts]. change ((remote :: parts) ++ [m]) with (remote :: parts ++ [m]).
  replace (existsb (String.eqb "..") (remote :: parts ++ [m])) with false.
  2: { symmetry. apply no_dd_existsb. apply Forall_forall. intros x I ->. exact (ND I). }
  cbn [bind]. unfold estr, url. cbn [e_path e_proto p_abs p_parts bind]. 
  rewrite (epath_of_remote HP ND HR). reflexivity.
Qed.
Print Assumptions C62_remote_function.
Example C62_remote_nonvacuous :
  parse_fn ["store"] "sample_loader.py:load" None (Some (mkEP (mkP true ["store"; "bucket"; ".nv-meta"]) PRclone (Some "store"))) =
    Ok (mkEP (mkP true ["store"; "bucket"; ".nv-meta"; "sample_loader.py"]) PRclone (Some "store"), "load").
Proof. vm_compute. reflexivity. Qed.

(** ** Modules are executed once *)
Lemma strs_eqb_eq a : forall b, strs_eqb a b = true <-> a = b.
Proof.
  induction a as [|x a IH]; intros [|y b]; cbn [strs_eqb]; try (split; [discriminate|discriminate] || (split; reflexivity)).
  rewrite andb_true_iff, String.eqb_eq, IH. split; [intros [-> ->]; reflexivity|intros [= -> ->]; auto].
Qed.
Definition same_file (a b : epath) : Prop := e_path a = e_path b /\ e_proto a = e_proto b.
Lemma epath_eqb_eq a b : epath_eqb a b = true <-> same_file a b.
Proof.
  unfold epath_eqb, same_file. destruct a as [[aa ap] apr af], b as [[ba bp] bpr bf]. cbn [e_path p_abs p_parts e_proto].
  rewrite !andb_true_iff, Bool.eqb_true_iff, strs_eqb_eq. split.
  - intros [[-> ->] H]. split; [reflexivity|]. destruct apr, bpr; (reflexivity || discriminate).
  - intros [[= -> ->] ->]. repeat split. now destruct bpr.
Qed.

Section Once.
  Context {Src : Type} (run : Src -> result (list (string * bool))) (remotes : list string).

  (** [p] was found to contain [src] by one of the calls *)
  Definition read_by (l : list (@call Src)) (p : epath) (src : Src) : Prop := exists c, In c l /\ c_fs c p = Some src.

  Definition Inv (past : list (@call Src)) (st : @process Src) : Prop :=
    (forall q i names, In (q, (i, names)) (p_cache st) -> exists src, nth_error (p_log st) i = Some (q, src) /\ run src = Ok names /\ read_by past q src) /\
    (forall i q src, nth_error (p_log st) i = Some (q, src) -> exists names, In (q, (i, names)) (p_cache st) /\ run src = Ok names) /\
    (forall i j p q s t, nth_error (p_log st) i = Some (p, s) -> nth_error (p_log st) j = Some (q, t) -> same_file p q -> i = j).

  Lemma cached_in p (c : list (epath * modul)) m : cached p c = Some m -> exists q, In (q, m) c /\ same_file q p.
  Proof.
    induction c as [|[q m'] c IH]; cbn [cached]; [discriminate|]. destruct (epath_eqb q p) eqn:E.
    - intros [= ->]. exists q. split; [now left|now apply epath_eqb_eq].
    - intros H. destruct (IH H) as (q' & I & S'). exists q'. split; [now right|exact S'].
  Qed.
  Lemma cached_none p (c : list (epath * modul)) : cached p c = None -> forall q m, In (q, m) c -> ~ same_file q p.
  Proof.
    induction c as [|[q m'] c IH]; cbn [cached]; [intros _ q m []|]. destruct (epath_eqb q p) eqn:E; [discriminate|].
    intros H q' m [Q | I]; [injection Q as <- <-; intros S'; apply epath_eqb_eq in S'; congruence|eauto].
  Qed.

  Lemma read_by_mono l c p src : read_by l p src -> read_by (l ++ [c]) p src.
  Proof. intros (c' & I & E). exists c'. split; [apply in_or_app; now left|exact E]. Qed.

  (** one call: the invariant, the log only grows, and what a success means *)
  Lemma step past st c st' r : Inv past st -> get_function run remotes (c_fs c) st (c_fn c) (c_default c) (c_rel c) = (st', r) ->
    Inv (past ++ [c]) st' /\ (exists more, p_log st' = p_log st ++ more) /\
    (forall i f, r = Ok (i, f) -> exists p q src names, parse_fn remotes (c_fn c) (c_default c) (c_rel c) = Ok (p, f) /\
       same_file q p /\ nth_error (p_log st') i = Some (q, src) /\ run src = Ok names /\ name_in f names = Some true /\ read_by (past ++ [c]) q src).
  Proof.
    intros (I1 & I2 & I3) H. unfold get_function in H.
    assert (K : Inv (past ++ [c]) st).
    { split; [|split; assumption]. intros q i names J. destruct (I1 q i names J) as (src & A & B & C). exists src. eauto using read_by_mono. }
    destruct (parse_fn remotes (c_fn c) (c_default c) (c_rel c)) as [[p f]|e] eqn:EP.
    2:{ injection H as <- <-. split; [exact K|]. split; [exists []; now rewrite app_nil_r|]. intros; discriminate. }
    unfold get_module in H. destruct (cached p (p_cache st)) as [[i names]|] eqn:EC.
    - injection H as <- <-. split; [exact K|]. split; [exists []; now rewrite app_nil_r|].
      intros i' f' E. destruct (name_in f names) as [[]|] eqn:EN; try discriminate. injection E as <- <-.
      destruct (cached_in EC) as (q & J & SF). destruct K as (K1 & _). destruct (K1 q i names J) as (src & A & B & C).
      exists p, q, src, names. auto 8.
    - unfold load_module in H. destruct (negb (p_abs (e_path p))).
      { injection H as <- <-. split; [exact K|]. split; [exists []; now rewrite app_nil_r|]. intros; discriminate. }
      destruct (c_fs c p) as [src|] eqn:EF.
      2:{ injection H as <- <-. split; [exact K|]. split; [exists []; now rewrite app_nil_r|]. intros; discriminate. }
      destruct (run src) as [names|e] eqn:ER.
      2:{ injection H as <- <-. split; [exact K|]. split; [exists []; now rewrite app_nil_r|]. intros; discriminate. }
      injection H as <- <-. cbn [p_log p_cache].
      assert (RB : read_by (past ++ [c]) p src) by (exists c; split; [apply in_or_app; right; now left|exact EF]).
      assert (NL : nth_error (p_log st ++ [(p, src)]) (List.length (p_log st)) = Some (p, src)) by (rewrite nth_error_app2 by lia; rewrite Nat.sub_diag; reflexivity).
      split; [|split; [eexists; reflexivity|]].
      + split; [|split].
        * intros q i nm [Q | J].
          -- injection Q as <- <- <-. exists src. auto.
          -- destruct (I1 q i nm J) as (s & A & B & C). exists s. split; [|eauto using read_by_mono]. cbn [p_log].
             rewrite nth_error_app1; [exact A|]. apply nth_error_Some. congruence.
        * cbn [p_log p_cache]. intros i q s E. destruct (Nat.lt_ge_cases i (List.length (p_log st))) as [LT|GE].
          -- rewrite nth_error_app1 in E by exact LT. destruct (I2 i q s E) as (nm & A & B). exists nm. split; [now right|exact B].
          -- assert (i < List.length (p_log st ++ [(p, src)])) by (apply nth_error_Some; congruence). rewrite app_length in H. cbn [List.length] in H.
             assert (i = List.length (p_log st)) by lia. subst i. rewrite NL in E. injection E as <- <-. exists names. split; [now left|exact ER].
        * cbn [p_log]. assert (OLD : forall i q s, nth_error (p_log st ++ [(p, src)]) i = Some (q, s) -> (i < List.length (p_log st) /\ nth_error (p_log st) i = Some (q, s)) \/ (i = List.length (p_log st) /\ q = p)).
          { intros i q s E. destruct (Nat.lt_ge_cases i (List.length (p_log st))) as [LT|GE]; [left; rewrite nth_error_app1 in E by exact LT; auto|right].
            assert (L : i < List.length (p_log st ++ [(p, src)])) by (apply nth_error_Some; congruence). rewrite app_length in L. cbn [List.length] in L.
            assert (i = List.length (p_log st)) by lia. subst i. rewrite NL in E. injection E as <- <-. auto. }
          assert (NEW : forall i q s, nth_error (p_log st) i = Some (q, s) -> ~ same_file q p).
          { intros i q s E. destruct (I2 i q s E) as (nm & A & _). exact (cached_none EC A). }
          intros i j q q' s t Ei Ej SF. destruct (OLD _ _ _ Ei) as [[Li Oi] | [-> ->]], (OLD _ _ _ Ej) as [[Lj Oj] | [-> ->]].
          -- eapply I3; eauto.
          -- destruct (NEW _ _ _ Oi SF).
          -- destruct (NEW _ _ _ Oj). destruct SF as [A B]. split; congruence.
          -- reflexivity.
      + intros i f' E. destruct (name_in f names) as [[]|] eqn:EN; try discriminate. injection E as <- <-.
        exists p, p, src, names. split; [reflexivity|]. split; [split; reflexivity|]. auto 8.
  Qed.

  Lemma calls_spec l : forall past st st' rs, Inv past st -> calls run remotes st l = (st', rs) ->
    Inv (past ++ l) st' /\ (exists more, p_log st' = p_log st ++ more) /\
    forall k c i f, nth_error l k = Some c -> nth_error rs k = Some (Ok (i, f)) ->
      exists p q src names, parse_fn remotes (c_fn c) (c_default c) (c_rel c) = Ok (p, f) /\ same_file q p /\
        nth_error (p_log st') i = Some (q, src) /\ run src = Ok names /\ name_in f names = Some true /\ read_by (past ++ firstn (S k) l) q src.
  Proof.
    induction l as [|c l IH]; intros past st st' rs HI H; cbn [calls] in H.
    - injection H as <- <-. rewrite app_nil_r. split; [exact HI|]. split; [exists []; now rewrite app_nil_r|]. intros [|k] ? ? ? E; discriminate.
    - destruct (get_function run remotes (c_fs c) st (c_fn c) (c_default c) (c_rel c)) as [st1 r] eqn:E1.
      destruct (calls run remotes st1 l) as [st2 rs2] eqn:E2. injection H as <- <-.
      destruct (step HI E1) as (I1 & [m1 L1] & S1). destruct (IH _ _ _ _ I1 E2) as (I2 & [m2 L2] & S2).
      split; [now rewrite <- app_assoc in I2|]. split; [exists (m1 ++ m2); now rewrite L2, L1, app_assoc|].
      intros [|k] c' i f Ec Er.
      + cbn [nth_error] in Ec, Er. injection Ec as <-. injection Er as ->. destruct (S1 i f eq_refl) as (p & q & src & names & A & B & C & D & N & F).
        exists p, q, src, names. do 2 (split; [assumption|]). split; [|auto]. rewrite L2. rewrite nth_error_app1; [exact C|]. apply nth_error_Some. congruence.
      + cbn [nth_error] in Ec, Er. destruct (S2 k c' i f Ec Er) as (p & q & src & names & A & B & C & D & N & F).
        exists p, q, src, names. do 5 (split; [assumption|]). rewrite <- app_assoc in F. exact F.
  Qed.

  (** Any calls, with the files changing in between: every module is executed at most once; a call that succeeds returns the callable of
      the right name from the execution of the right file, whose contents were read by this call or an earlier one. *)
  Theorem C62_executed_once l st rs : calls run remotes start l = (st, rs) ->
    (forall i j p q s t, nth_error (p_log st) i = Some (p, s) -> nth_error (p_log st) j = Some (q, t) -> same_file p q -> i = j) /\
    forall k c i f, nth_error l k = Some c -> nth_error rs k = Some (Ok (i, f)) ->
      exists p q src names, parse_fn remotes (c_fn c) (c_default c) (c_rel c) = Ok (p, f) /\ same_file q p /\
        nth_error (p_log st) i = Some (q, src) /\ run src = Ok names /\ name_in f names = Some true /\ read_by (firstn (S k) l) q src.
  Proof.
    intros H. destruct (@calls_spec l [] start st rs) as ((_ & _ & I3) & _ & S'); [|exact H|split; assumption].
    split; [intros ? ? ? []|]. split; intros [|i]; discriminate.
  Qed.

  (** so all functions named from the same file share one execution of it, whatever happens to the file *)
  Corollary C62_shared_module l st rs k1 k2 c1 c2 i1 i2 f1 f2 p1 p2 : calls run remotes start l = (st, rs) ->
    nth_error l k1 = Some c1 -> nth_error l k2 = Some c2 -> nth_error rs k1 = Some (Ok (i1, f1)) -> nth_error rs k2 = Some (Ok (i2, f2)) ->
    parse_fn remotes (c_fn c1) (c_default c1) (c_rel c1) = Ok (p1, f1) -> parse_fn remotes (c_fn c2) (c_default c2) (c_rel c2) = Ok (p2, f2) ->
    same_file p1 p2 -> i1 = i2.
  Proof.
    intros H L1 L2 R1 R2 P1 P2 SF. destruct (C62_executed_once H) as [U G].
    destruct (G _ _ _ _ L1 R1) as (p & q & s & n & A & B & C & _). destruct (G _ _ _ _ L2 R2) as (p' & q' & s' & n' & A' & B' & C' & _).
    rewrite P1 in A. injection A as <-. rewrite P2 in A'. injection A' as <-. eapply U; eauto.
    destruct B, B', SF. split; congruence.
  Qed.
End Once.
Print Assumptions C62_executed_once.
Print Assumptions C62_shared_module.

(** ** What is loaded *)
(** A sample loaded by a user's function has the fields of the sample class.  Their values are the function's, except for the restore key
    and the subflavors, which it cannot change; a missing __key__ is the key of the sample and the others have their default. *)
Theorem C62_user_fields {Dat} dec str rkval user (ignore : bool) (cls : dclass) sf sfs (r : rsample Dat) v inner i :
  NoDup (names cls) -> decode dec str rkval r = Some v -> user v = Ok inner -> user_load dec str rkval user ignore cls sf sfs r = Ok i ->
  names i = names cls /\
  forall n x, lookup n i = Some x <-> In n (names cls) /\
    ((n = "__restore_key__" /\ x = rkval (rs_rk r)) \/ (n = "__subflavor__" /\ x = sf) \/ (n = "__subflavors__" /\ x = sfs) \/
     (~ In n ["__restore_key__"; "__subflavor__"; "__subflavors__"] /\
      (lookup n inner = Some x \/
       (lookup n inner = None /\ ((n = "__key__" /\ x = str (rs_key r)) \/ (n <> "__key__" /\ default_of cls n x)))))).
Proof.
  intros NC HD HU H. unfold user_load in H. rewrite HD, HU in H. cbn [bind] in H.
  split; [eapply construct_names; exact H|]. intros n x.
  destruct (in_dec String.string_dec n (names cls)) as [I|NI].
  2:{ split; [|tauto]. intros L. exfalso. apply NI. rewrite <- (construct_names H). apply lookup_Some_In in L. apply (in_map fst) in L. exact L. }
  rewrite (construct_field NC H I). rewrite !lookup_app. cbn [lookup].
  destruct (String.eqb_spec n "__restore_key__") as [->|N1]; [split; [intros [= <-]; auto|intros (_ & [(_ & ->)|[(E & _)|[(E & _)|(E & _)]]]); [reflexivity|discriminate|discriminate|exfalso; apply E; cbn; auto]]|].
  destruct (String.eqb_spec n "__subflavor__") as [->|N2]; [split; [intros [= <-]; auto|intros (_ & [(E & _)|[(_ & ->)|[(E & _)|(E & _)]]]); [discriminate|reflexivity|discriminate|exfalso; apply E; cbn; auto]]|].
  destruct (String.eqb_spec n "__subflavors__") as [->|N3]; [split; [intros [= <-]; auto 7|intros (_ & [(E & _)|[(E & _)|[(_ & ->)|(E & _)]]]); [discriminate|discriminate|reflexivity|exfalso; apply E; cbn; auto]]|].
  assert (NB : ~ In n ["__restore_key__"; "__subflavor__"; "__subflavors__"]) by (cbn; intuition congruence).
  destruct (lookup n inner) as [y|] eqn:EI.
  - split; [intros [= <-]; split; [exact I|]; do 3 right; auto|].
    intros (_ & [(E & _)|[(E & _)|[(E & _)|(_ & [E | (E & _)])]]]); congruence.
  - destruct (String.eqb_spec n "__key__") as [->|NK].
    + split; [intros [= <-]; split; [exact I|]; do 3 right; auto 7|].
      intros (_ & [(E & _)|[(E & _)|[(E & _)|(_ & [E | (_ & [(_ & ->)|(E & _)])])]]]); congruence.
    + rewrite (default_spec x NC I). split.
      * intros D. split; [exact I|]. do 3 right. auto 7.
      * intros (_ & [(E & _)|[(E & _)|[(E & _)|(_ & [E | (_ & [(E & _)|(_ & D)])])]]]); congruence || exact D.
Qed.
Print Assumptions C62_user_fields.

(** The sample given to the user's function has exactly the parts that the filter admits, each with the contents of its (last) file. *)
Lemma dict_set_names {Dat} k (v : Dat) d x : In x (map fst (dict_set k v d)) <-> x = k \/ In x (map fst d).
Proof.
  induction d as [|[k' v'] d IH]; cbn [dict_set map fst]; [cbn; intuition congruence|]. unfold seqb. destruct (String.eqb_spec k' k) as [->|N]; cbn [map fst In]; [intuition congruence|].
  rewrite IH. intuition congruence.
Qed.
Lemma dict_set_in {Dat} k (v : Dat) d x y : NoDup (map fst d) -> (In (x, y) (dict_set k v d) <-> (x = k /\ y = v) \/ (x <> k /\ In (x, y) d)).
Proof.
  induction d as [|[k' v'] d IH]; intros ND; cbn [dict_set].
  - cbn. split; [intros [[= <- <-]|[]]; auto|]. intros [[-> ->]|[_ []]]. auto.
  - inversion ND as [|? ? A B]; subst. unfold seqb. destruct (String.eqb_spec k' k) as [->|N]; cbn [In].
    + split.
      * intros [[= <- <-]|I]; [auto|]. right. split; [|auto]. intros ->. apply A. apply (in_map fst) in I. exact I.
      * intros [[-> ->]|[NE [[= <- <-]|I]]]; [auto|congruence|auto].
    + rewrite (IH B). split.
      * intros [[= <- <-]|[[-> ->]|[NE I]]]; auto.
      * intros [[-> ->]|[NE [E|I]]]; auto.
Qed.
Lemma dict_set_nodup {Dat} k (v : Dat) d : NoDup (map fst d) -> NoDup (map fst (dict_set k v d)).
Proof.
  induction d as [|[k' v'] d IH]; intros ND; cbn [dict_set]; [constructor; [intros []|constructor]|].
  inversion ND as [|? ? A B]; subst. unfold seqb. destruct (String.eqb_spec k' k) as [->|N]; cbn [map fst]; [constructor; assumption|].
  constructor; [|auto]. intros I. apply dict_set_names in I. destruct I as [E|I]; [congruence|contradiction].
Qed.
Definition last_part {Dat} (g : list (ent Dat)) (x : string) (y : Dat) : Prop :=
  exists before e after, g = before ++ e :: after /\ en_ext e = x /\ en_dat e = y /\ forall e', In e' after -> en_ext e' <> x.
Lemma parts_of_snoc {Dat} pf (g : list (ent Dat)) e : parts_of pf (g ++ [e]) = if pf (en_ext e) then dict_set (en_ext e) (en_dat e) (parts_of pf g) else parts_of pf g.
Proof. unfold parts_of. now rewrite fold_left_app. Qed.
Theorem C62_parts_seen {Dat} pf (g : list (ent Dat)) :
  NoDup (map fst (parts_of pf g)) /\ forall x y, In (x, y) (parts_of pf g) <-> pf x = true /\ last_part g x y.
Proof.
  induction g as [|e g IH] using rev_ind.
  - split; [constructor|]. intros x y. split; [intros []|]. intros (_ & b & e & a & E & _). destruct b; discriminate.
  - destruct IH as [ND IH]. rewrite parts_of_snoc.
    assert (LS : forall x y, last_part (g ++ [e]) x y <-> (x = en_ext e /\ y = en_dat e) \/ (x <> en_ext e /\ last_part g x y)).
    { intros x y. split.
      - intros (b & e0 & a & E & A & B & C). destruct a as [|a1 a] using rev_ind.
        + apply app_inj_tail in E. destruct E as [_ ->]. left. split; congruence.
        + clear IHa. rewrite app_comm_cons, app_assoc in E. apply app_inj_tail in E. destruct E as [-> <-]. right. split.
          * intros ->. apply (C e); [apply in_or_app; right; now left|reflexivity].
          * exists b, e0, a. repeat split; auto. intros e' I. apply C. apply in_or_app. now left.
      - intros [[-> ->]|[N (b & e0 & a & -> & A & B & C)]].
        + exists g, e, []. repeat split; auto.
        + exists b, e0, (a ++ [e]). split; [now rewrite <- app_assoc|]. repeat split; auto. intros e' I. apply in_app_iff in I. destruct I as [I|[<-|[]]]; [auto|congruence]. }
    destruct (pf (en_ext e)) eqn:EP.
    + split; [now apply dict_set_nodup|]. intros x y. rewrite dict_set_in by exact ND. rewrite LS, IH. split.
      * intros [[-> ->]|[N [A B]]]; auto.
      * intros [A [[-> ->]|[N B]]]; auto.
    + split; [exact ND|]. intros x y. rewrite IH, LS. split; [intros [A B]; split; [exact A|right; split; [congruence|exact B]]|].
      intros [A [[-> _]|[N B]]]; [congruence|auto].
Qed.
Print Assumptions C62_parts_seen.

(** ... which is what the reader returns, for any sub-shard and both forms of the filter *)
Theorem C62_user_samples {Dat} dec str rkval user user_filter (ignore : bool) cls sf sfs (fi : filt) (ms : list (member Dat)) name o c n :
  (forall m, In m ms -> 0 < m_size m) -> (Z.of_nat (tar_size ms) < 2 ^ 64)%Z -> o + c <= count_of ms ->
  let admitted x := match fi with Parts l => In x l | Function _ => user_filter x = true end in
  exists rs pos, read_from ms (index_file ms) (fun _ => false) (part_filter user_filter fi) (mkShard name o c) 0 0 n = Ok (rs, pos) /\
    rs = number (expected name (part_filter user_filter fi)) o (firstn n (slice o (o + c) (archive_samples ms))) /\
    (forall (g : list (ent Dat)) x y, In (x, y) (parts_of (part_filter user_filter fi) g) <-> admitted x /\ last_part g x y) /\
    forall r i, In r rs -> user_load dec str rkval user ignore cls sf sfs r = Ok i ->
      exists v inner, decode dec str rkval r = Some v /\ user v = Ok inner.
Proof.
  intros H1 H2 H3 adm. destruct (@C17_subshard_read Dat ms (part_filter user_filter fi) name o c n H1 H2 H3) as [pos E].
  eexists _, pos. split; [exact E|]. split; [reflexivity|]. split.
  - intros g x y. destruct (C62_parts_seen (part_filter user_filter fi) g) as [_ Q]. rewrite Q. unfold adm. destruct fi as [l|i]; cbn [part_filter]; [|reflexivity].
    rewrite mem_In. reflexivity.
  - intros r i _ L. unfold user_load in L. destruct (decode dec str rkval r) as [v|]; [|discriminate]. destruct (user v) as [inner|] eqn:EU; [|discriminate]. eauto.
Qed.
Print Assumptions C62_user_samples.

(** Which functions are used: a sample_loader needs a part_filter (the documentation calls it optional) and excludes a field_map; the
    names default to sample_loader and part_filter; a list of names is the filter itself. *)
Theorem C62_chosen {Src} run remotes (fs : epath -> option Src) st main has_map loader filter st' lo fi :
  choose run remotes fs st main has_map loader filter = (st', Ok (lo, fi)) ->
  has_map = false /\
  exists st1, match loader with
              | Some (FName s) => get_function run remotes fs st s (Some "sample_loader") (Some main) = (st1, Ok lo)
              | Some (FCallable i) => lo = i /\ st1 = st
              | _ => False
              end /\
              match filter with
              | Some (FList l) => fi = Parts l /\ st' = st1
              | Some (FName s) => exists j, get_function run remotes fs st1 s (Some "part_filter") (Some main) = (st', Ok j) /\ fi = Function j
              | Some (FCallable j) => fi = Function j /\ st' = st1
              | _ => False
              end.
Proof.
  unfold choose. intros H. destruct loader as [l|]; [|discriminate]. destruct has_map; [discriminate|]. destruct filter as [f|]; [|discriminate]. split; [reflexivity|].
  destruct l as [s|i|?|]; try discriminate.
  - destruct (get_function run remotes fs st s (Some "sample_loader") (Some main)) as [st1 [i|e]] eqn:E1; [|discriminate]. exists st1.
    destruct f as [s2|j|l2|]; try discriminate.
    + destruct (get_function run remotes fs st1 s2 (Some "part_filter") (Some main)) as [st2 [j|e]] eqn:E2; [|discriminate]. injection H as <- <- <-. split; [reflexivity|eauto].
    + injection H as <- <- <-. auto.
    + injection H as <- <- <-. auto.
  - exists st. destruct f as [s2|j|l2|]; try discriminate.
    + destruct (get_function run remotes fs st s2 (Some "part_filter") (Some main)) as [st2 [j|e]] eqn:E2; [|discriminate]. injection H as <- <- <-. split; [auto|eauto].
    + injection H as <- <- <-. auto.
    + injection H as <- <- <-. auto.
Qed.
Print Assumptions C62_chosen.

(** ** What does not hold *)
(** part_filter is called optional (docs/source/advanced_dataformat.md:48), but without it the dataset is refused *)
Theorem C62_filter_optional_refuted {Src} run remotes (fs : epath -> option Src) st main has_map loader :
  snd (choose run remotes fs st main has_map (Some loader) None) = Err AssertionError.
Proof. unfold choose. destruct has_map; reflexivity. Qed.
Print Assumptions C62_filter_optional_refuted.

(** ignore_decoder_errors: a sample that cannot be decoded is not loaded, with or without it *)
Theorem C62_ignore_decoder_errors_refuted {Dat} dec str rkval user cls sf sfs (r : rsample Dat) ignore :
  decode dec str rkval r = None -> user_load dec str rkval user ignore cls sf sfs r = Err OtherError.
Proof. unfold user_load. now intros ->. Qed.
Print Assumptions C62_ignore_decoder_errors_refuted.

(** In a join the datasets' own part filters are not applied: the functions see parts that their filter refuses. *)
Theorem C62_join_filter_refuted : exists (ms : list (member nat)) own x,
  own x = false /\
  exists rs pos r, read_from ms (index_file ms) (fun _ => false) (join_filter None) (mkShard "s.tar" 0 (count_of ms)) 0 0 (count_of ms) = Ok (rs, pos) /\
    In r rs /\ In x (map fst (rs_parts r)).
Proof.
  exists ex_tar, (fun p => String.eqb p "jpg"), "txt". split; [reflexivity|].
  eexists _, _, _. split; [vm_compute; reflexivity|]. split; [left; reflexivity|]. vm_compute. auto.
Qed.
Print Assumptions C62_join_filter_refuted.

(** A filter given to the join itself is applied to every column: the samples read have exactly the parts that it admits. *)
Theorem C62_join_filter_given {Dat} f (ms : list (member Dat)) name o c n :
  (forall m, In m ms -> 0 < m_size m) -> (Z.of_nat (tar_size ms) < 2 ^ 64)%Z -> o + c <= count_of ms ->
  exists rs pos, read_from ms (index_file ms) (fun _ => false) (join_filter (Some f)) (mkShard name o c) 0 0 n = Ok (rs, pos) /\
    Forall2 (fun r g => forall x y, In (x, y) (rs_parts r) <-> f x = true /\ last_part g x y) rs (firstn n (slice o (o + c) (archive_samples ms))).
Proof.
  intros H1 H2 H3. destruct (@C17_subshard_read Dat ms (join_filter (Some f)) name o c n H1 H2 H3) as [pos E].
  eexists _, pos. split; [exact E|]. clear E. generalize (firstn n (slice o (o + c) (archive_samples ms))) as gs. intros gs. generalize o as i.
  induction gs as [|g gs IH]; intros i; cbn [number]; constructor; [|apply IH].
  intros x y. change (rs_parts (expected name (join_filter (Some f)) i g)) with (parts_of f g). apply (proj2 (C62_parts_seen f g)).
Qed.
Print Assumptions C62_join_filter_given.
Example C62_join_filter_given_nonvacuous :
  exists rs pos, read_from ex_tar (index_file ex_tar) (fun _ => false) (join_filter (Some (fun p => String.eqb p "jpg"))) (mkShard "s.tar" 0 (count_of ex_tar)) 0 0
    (count_of ex_tar) = Ok (rs, pos) /\ map (fun r => map fst (rs_parts r)) rs <> [] /\ Forall (fun r => incl (map fst (rs_parts r)) ["jpg"]) rs.
Proof.
  eexists _, _. split; [vm_compute; reflexivity|]. split; [vm_compute; discriminate|]. repeat (apply Forall_cons || apply Forall_nil); vm_compute; intuition.
Qed.


(** The colon of a URL is taken for the one before the function's name, so the default name cannot be used with a URL. *)
Theorem C62_url_default_refuted remotes rest default parts : no_char ":" rest -> Forall part_ok parts -> ~ In ".." parts ->
  parse_fn remotes ("rclone://" ++ rest) default (Some (mkEP (mkP true parts) PLocal None)) =
    Ok (mkEP (mkP true (parts ++ ["rclone"])) PLocal None, ("//" ++ rest)%string).
Proof.
  intros N HP HD.
  pose proof (@C62_function_named remotes ("rclone://" ++ rest) default parts "rclone" ("//" ++ rest) HP) as Q. cbv zeta in Q.
  assert (CN : forall l r, cancels l r -> ~ In ".." l -> r = l).
  { intros l r C NI. destruct C as [|y z C _]; [reflexivity|]. exfalso. apply NI. destruct C. apply in_or_app. right. right. now left. }
  assert (NI : ~ In ".." (parts ++ ["rclone"])) by (intros I; apply in_app_iff in I; destruct I as [I|[E|[]]]; [contradiction|discriminate]).
  change (p_parts (parse "rclone")) with ["rclone"] in Q.
  destruct (parse_fn remotes ("rclone://" ++ rest) default (Some (mkEP (mkP true parts) PLocal None))) as [[p f]|e].
  - destruct Q as (-> & l & -> & C & _).
    + left. split; [reflexivity|]. cbn [append no_char]. repeat split; try discriminate. exact N.
    + cbn. repeat split; discriminate.
    + reflexivity.
    + now rewrite (CN _ _ C NI).
  - exfalso. destruct Q as (r & C).
    + left. split; [reflexivity|]. cbn [append no_char]. repeat split; try discriminate. exact N.
    + cbn. repeat split; discriminate.
    + reflexivity.
    + pose proof (CN _ _ C NI) as E. apply NI. rewrite <- E. now left.
Qed.
Print Assumptions C62_url_default_refuted.

(** get_function without relative_path should use the current directory (docstring); a relative path is refused. *)
Theorem C62_relative_refuted {Src} run remotes (fs : epath -> option Src) m f : no_char ":" f -> no_char ":" m -> p_abs (parse m) = false ->
  get_function run remotes fs start (m ++ ":" ++ f) None None = (start, Err AssertionError).
Proof.
  intros NF NM HR. unfold get_function, parse_fn. rewrite (rsplit_some m NF). cbn [bind]. unfold epath_of. rewrite (no_colon_protocol NM). cbn [bind].
  unfold get_module, load_module. cbn [cached p_cache start e_path]. now rewrite HR.
Qed.
Print Assumptions C62_relative_refuted.

(** Two spellings of an absolute path are two modules, executed twice. *)
Theorem C62_two_spellings_refuted {Src} run remotes (fs : epath -> option Src) src :
  (forall p, fs p = Some src) -> run src = Ok [("f", true)] ->
  snd (calls run remotes start [mkCall fs "/b.py:f" None None; mkCall fs "/a/../b.py:f" None None]) = [Ok (0, "f"); Ok (1, "f")].
Proof.
  intros F R. cbn [calls c_fs c_fn c_default c_rel]. unfold get_function.
  change (parse_fn remotes "/b.py:f" None None) with (@Ok (epath * string) (mkEP (mkP true ["b.py"]) PLocal None, "f")).
  change (parse_fn remotes "/a/../b.py:f" None None) with (@Ok (epath * string) (mkEP (mkP true ["a"; ".."; "b.py"]) PLocal None, "f")).
  cbv iota beta. unfold get_module, load_module. cbn [cached p_cache start e_path p_abs negb]. rewrite F, R. cbn. rewrite F, R. cbn. reflexivity.
Qed.
Print Assumptions C62_two_spellings_refuted.

(** A file changed after the first use is not read again. *)
Theorem C62_changed_file_not_reloaded {Src} run remotes (fs fs' : epath -> option Src) src :
  (forall p, fs p = Some src) -> run src = Ok [("f", true)] ->
  snd (calls run remotes start [mkCall fs "/b.py:f" None None; mkCall fs' "/b.py:f" None None]) = [Ok (0, "f"); Ok (0, "f")].
Proof.
  intros F R. cbn [calls c_fs c_fn c_default c_rel]. unfold get_function.
  change (parse_fn remotes "/b.py:f" None None) with (@Ok (epath * string) (mkEP (mkP true ["b.py"]) PLocal None, "f")).
  cbv iota beta. unfold get_module, load_module. cbn [cached p_cache start e_path p_abs negb]. rewrite F, R. cbn. reflexivity.
Qed.
Print Assumptions C62_changed_file_not_reloaded.

Example C62_nonvacuous :
  let main := mkEP (mkP true ["data"; "ds"; ".nv-meta"]) PLocal None in
  let run := fun _ : nat => Ok [("sample_loader", true); ("part_filter", true); ("CONST", false)] in
  let fs := fun p => if strs_eqb (p_parts (e_path p)) ["data"; "ds"; ".nv-meta"; "sample_loader.py"] then Some 7 else None in
  choose run [] fs start main false (Some (FName "sample_loader.py")) (Some (FName "sample_loader.py:part_filter")) =
    (mkProc [(mkEP (mkP true ["data"; "ds"; ".nv-meta"; "sample_loader.py"]) PLocal None, (0, [("sample_loader", true); ("part_filter", true); ("CONST", false)]))]
            [(mkEP (mkP true ["data"; "ds"; ".nv-meta"; "sample_loader.py"]) PLocal None, 7)],
     Ok ((0, "sample_loader"), Function (0, "part_filter"))) /\
  snd (calls run [] start [mkCall fs "sample_loader.py:CONST" None (Some main); mkCall fs "other.py:f" None (Some main); mkCall fs "sample_loader.py" None (Some main);
                           mkCall fs "../../../../x.py:f" None (Some main); mkCall fs "../.nv-meta/sample_loader.py:sample_loader" None (Some main); mkCall fs "sample_loader.py:g" None (Some main)]) =
    [Err AssertionError; Err OtherError; Err ValueError; Err ValueError; Ok (0, "sample_loader"); Err KeyError].
Proof. split; vm_compute; reflexivity. Qed.
Example C62_load_nonvacuous :
  let cls := [("__key__", Required); ("__restore_key__", Required); ("__subflavor__", Default (VLit 0)); ("__subflavors__", Default (VLit 0)); ("text", Required); ("n", Default (VLit 5))] in
  let user := fun v => match v with VDict d => match lookup "txt" d with Some t => Ok [("text", t); ("__restore_key__", VLit 99)] | None => Err KeyError end | _ => Err TypeError end in
  let load := @user_load nat (fun _ d => Some (VLit d)) (fun _ => VLit 1) (fun k => VLit (snd k)) user false cls (VLit 8) (VLit 9) in
  load (mkRSam "s/a" ("s", 3) [("txt", 42)]) = Ok [("__key__", VLit 1); ("__restore_key__", VLit 3); ("__subflavor__", VLit 8); ("__subflavors__", VLit 9); ("text", VLit 42); ("n", VLit 5)] /\
  load (mkRSam "s/a" ("s", 3) [("jpg", 42)]) = Err KeyError.
Proof. split; vm_compute; reflexivity. Qed.
