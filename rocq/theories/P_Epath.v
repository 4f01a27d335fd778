(** C43 Path resolution. Vocabulary: [cancels l l'] (EpathProofs.v): l' results from l by repeatedly
    deleting a component followed by "..". *)
From Coq Require Import String Ascii.
From Verif Require Import Base Epath EpathProofs.
Local Open Scope string_scope.
Local Open Scope list_scope.
Local Open Scope nat_scope.

(** resolving an absolute path gives its normal form, which contains no ".."; it fails exactly when
    normalising leads above the root *)
Theorem C43_resolve_normalises l :
  match resolve (mkP true l) with
  | Ok p => p_abs p = true /\ cancels l (p_parts p) /\ ~ In ".." (p_parts p)
  | Err e => e = ValueError /\ exists r, cancels l (".." :: r)
  end.
Proof.
  rewrite resolve_eq. pose proof (@resolve_loop_spec l [] (Forall_nil _)) as S. destruct (resolve_loop [] l) as [r|e]; cbn [bind].
  - destruct S as [A B]. split; [reflexivity|]. split; [exact A|]. cbn. rewrite Forall_forall in B. intros I. exact (B _ I eq_refl).
  - exact S.
Qed.
Print Assumptions C43_resolve_normalises.

Theorem C43_resolve_idempotent p q : resolve p = Ok q -> resolve q = Ok q.
Proof.
  intros H. assert (p_abs p = true) as HA.
  { unfold resolve in H. destruct (p_abs p); [reflexivity|]. destruct (p_parts p); discriminate. }
  destruct p as [ab l]. cbn in HA. subst ab. pose proof (C43_resolve_normalises l) as S. rewrite H in S.
  destruct q as [ab l']. cbn in S. destruct S as (-> & _ & N).
  unfold resolve. cbn [p_abs p_parts]. replace (existsb (String.eqb "..") l') with false; [reflexivity|].
  symmetry. apply no_dd_existsb. apply Forall_forall. intros x I E. subst x. exact (N I).
Qed.
Print Assumptions C43_resolve_idempotent.

(** relative paths are rejected *)
Theorem C43_resolve_relative_rejected l : exists e, resolve (mkP false l) = Err e.
Proof. destruct l; eexists; reflexivity. Qed.

(** joining step by step is the same as joining at once *)
Theorem C43_join_associative base a b q :
  p_abs (e_path base) = true -> p_abs (e_path a) = false -> p_abs (e_path b) = false ->
  ejoin base a = Ok q ->
  ejoin q b = ejoin base (mkEP (pjoin (e_path a) (e_path b)) (e_proto a) (e_fs a)).
Proof.
  intros HB HA HB2. unfold ejoin. rewrite HB, HA. unfold pjoin. cbn [e_path]. rewrite HA, HB2. cbn [e_path p_abs p_parts].
  rewrite ?HA, ?HB. rewrite resolve_eq. destruct (resolve_loop [] (p_parts (e_path base) ++ p_parts (e_path a))) as [r|e] eqn:E; cbn [bind]; [|discriminate].
  intros [= <-]. cbn [e_path p_abs p_parts e_proto e_fs]. rewrite !resolve_eq.
  rewrite (resolve_loop_app r), app_assoc, (resolve_loop_app (p_parts (e_path base) ++ p_parts (e_path a))), E. cbn [bind].
  pose proof (@resolve_loop_spec (p_parts (e_path base) ++ p_parts (e_path a)) [] (Forall_nil _)) as S. rewrite E in S.
  rewrite (@resolve_loop_plain r []) by apply S. reflexivity.
Qed.
Print Assumptions C43_join_associative.

(** joining an absolute path replaces *)
Theorem C43_join_absolute a b : p_abs (e_path a) = true -> p_abs (e_path b) = true -> ejoin a b = Ok b.
Proof. intros H1 H2. unfold ejoin. rewrite H1, H2. reflexivity. Qed.

(** relative_to inverts joining (no ".." involved), and the other way round *)
Theorem C43_relative_to_join base rel q :
  p_abs (e_path base) = true -> p_abs (e_path rel) = false ->
  ~ In ".." (p_parts (e_path base)) -> ~ In ".." (p_parts (e_path rel)) ->
  (e_proto base = PRclone -> p_parts (e_path base) <> []) ->
  ejoin base rel = Ok q -> erelative_to q base = Ok (p_parts (e_path rel)).
Proof.
  intros HB HR NB NR HN. unfold ejoin, pjoin. rewrite HB, HR.
  assert (P : Forall (fun x => x <> "..") (p_parts (e_path base) ++ p_parts (e_path rel))).
  { apply Forall_forall. intros x I E. subst x. apply in_app_or in I. tauto. }
  rewrite resolve_eq, (@resolve_loop_plain _ [] P). cbn [bind rev app]. intros [= <-].
  unfold erelative_to. cbn [e_path p_abs p_parts e_fs]. rewrite HB. cbn [negb orb].
  assert (O : opt_eqb (e_fs base) (e_fs base) = true) by (destruct (e_fs base); cbn; [apply String.eqb_refl|reflexivity]).
  rewrite O. cbn [negb]. unfold fs_path. cbn [e_proto e_path p_parts]. destruct (e_proto base).
  - cbn [negb]. rewrite strip_prefix_app. reflexivity.
  - destruct (p_parts (e_path base)) as [|x l] eqn:EP; [specialize (HN eq_refl); congruence|].
    cbn [firstn app]. rewrite String.eqb_refl. cbn [negb].
    change (x :: l ++ p_parts (e_path rel)) with ((x :: l) ++ p_parts (e_path rel)). rewrite strip_prefix_app. reflexivity.
Qed.
Print Assumptions C43_relative_to_join.

Theorem C43_join_relative_to base q l :
  p_abs (e_path base) = true -> ~ In ".." (p_parts (e_path q)) -> e_proto q = e_proto base ->
  erelative_to q base = Ok l -> ejoin base (mkEP (mkP false l) PLocal None) = Ok (mkEP (e_path q) (e_proto base) (e_fs base)).
Proof.
  intros HB NQ HP. unfold erelative_to. destruct (p_abs (e_path q)) eqn:HQ; [|discriminate]. rewrite HB. cbn [negb orb].
  destruct (opt_eqb _ _); [|discriminate]. cbn [negb].
  destruct (match fs_path q with [] => _ | _ => _ end); [|discriminate]. cbn [negb].
  destruct (strip_prefix (p_parts (e_path base)) (p_parts (e_path q))) as [l'|] eqn:E; [|discriminate]. intros [= <-].
  apply strip_prefix_some in E. unfold ejoin, pjoin. cbn [e_path p_abs p_parts]. rewrite HB, <- E, resolve_eq.
  rewrite (@resolve_loop_plain _ []).
  - cbn [bind rev app]. f_equal. f_equal. destruct (e_path q) as [ab lq]. cbn in *. subst. reflexivity.
  - apply Forall_forall. intros x I EE. subst x. exact (NQ I).
Qed.
Print Assumptions C43_join_relative_to.

(** converting to a url and back gives the same path (used to send paths to worker processes) *)
Theorem C43_url_roundtrip_local remotes s p u : epath_of remotes s = Ok p -> e_proto p = PLocal -> url p = Ok u ->
  epath_of remotes u = Ok p.
Proof.
  unfold epath_of, url. destruct (split_protocol s) as [[pr pa]|].
  - destruct (String.eqb pr "rclone"); [|discriminate]. destruct (resolve _) as [q|]; cbn [bind]; [|discriminate].
    destruct (p_parts q); [discriminate|]. destruct (existsb _ _); [|discriminate]. intros [= <-]. discriminate.
  - intros [= <-] _. cbn [e_path e_proto]. destruct (p_abs (parse s)) eqn:HA; [|discriminate]. intros [= <-].
    assert (E : parse (render (parse s)) = parse s).
    { destruct (parse s) as [ab l] eqn:EP. cbn in HA. subst ab. apply parse_render_abs.
      replace l with (p_parts (parse s)) by (rewrite EP; reflexivity). apply parse_parts_ok. }
    assert (SP : split_protocol (render (parse s)) = None).
    { unfold render. rewrite HA. reflexivity. }
    rewrite SP, E. reflexivity.
Qed.
Print Assumptions C43_url_roundtrip_local.

(** names that survive cancelling come from the input *)
Lemma cancels_incl a b : cancels a b -> incl b a.
Proof.
  induction 1 as [|a b c H _ IH]; [apply incl_refl|]. eapply incl_tran; [exact IH|]. destruct H as [x y z].
  intros w I. apply in_app_or in I. apply in_or_app. destruct I; auto. right. right. right. auto.
Qed.

Theorem C43_url_roundtrip_rclone remotes s p u : epath_of remotes s = Ok p -> e_proto p = PRclone -> url p = Ok u ->
  epath_of remotes u = Ok p.
Proof.
  unfold epath_of at 1. destruct (split_protocol s) as [[pr pa]|]; [|intros [= <-]; discriminate].
  destruct (String.eqb pr "rclone"); [|discriminate].
  set (pa' := match pa with String "/" _ => pa | _ => ("/" ++ pa)%string end).
  assert (HA : p_abs (parse pa') = true).
  { unfold pa'. destruct pa as [|c pa]; [reflexivity|]. destruct (Ascii.eqb c "/") eqn:E.
    - apply Ascii.eqb_eq in E. subst c. reflexivity.
    - destruct c as [[][][][][][][][]]; reflexivity. }
  destruct (resolve (parse pa')) as [q|] eqn:ER; cbn [bind]; [|discriminate].
  destruct (p_parts q) as [|remote rest] eqn:EQ; [discriminate|].
  destruct (existsb (String.eqb remote) remotes) eqn:EX; [|discriminate]. intros [= <-] _.
  unfold url. cbn [e_path e_proto].
  pose proof (parse_parts_ok pa') as PO. destruct (parse pa') as [ab l]. cbn in HA, PO. subst ab.
  pose proof (C43_resolve_normalises l) as S. rewrite ER in S. destruct S as (HQ & CC & NN). rewrite HQ. intros [= <-].
  assert (QO : Forall part_ok (p_parts q)).
  { apply Forall_forall. intros x I. rewrite Forall_forall in PO. apply PO. eapply cancels_incl; eauto. }
  assert (NE : exists c r, join_slash (p_parts q) = String c r /\ Ascii.eqb c "/" = false).
  { rewrite EQ in *. inversion QO as [|? ? [N1 N2] _]; subst. destruct remote as [|c r]; [discriminate|].
    apply no_slash_cons in N1. exists c. destruct rest; eexists; split; try reflexivity; apply N1. }
  destruct NE as (c & r & EJ & EC).
  assert (SP : split_protocol ("rclone://" ++ join_slash (p_parts q))%string = Some ("rclone", join_slash (p_parts q))).
  { rewrite EJ. reflexivity. }
  match goal with |- epath_of _ ?u = _ => change u with ("rclone://" ++ join_slash (p_parts q))%string end.
  unfold epath_of. rewrite SP. rewrite String.eqb_refl.
  assert (PP : match join_slash (p_parts q) with String "/" _ => join_slash (p_parts q) | _ => ("/" ++ join_slash (p_parts q))%string end
               = render (mkP true (p_parts q))).
  { unfold render. cbn [p_abs p_parts]. rewrite EJ. destruct c as [[][][][][][][][]]; try reflexivity; discriminate. }
  rewrite PP, parse_render_abs by exact QO.
  rewrite (C43_resolve_idempotent (q := mkP true (p_parts q)) (p := mkP true l)).
  - cbn [bind p_parts]. rewrite EQ, EX. destruct q as [ab lq]. cbn in *. subst. reflexivity.
  - rewrite ER. destruct q as [ab lq]. cbn in *. subst. reflexivity.
Qed.
Print Assumptions C43_url_roundtrip_rclone.

(** Staying below the root of a remote fails: joining ".." components can replace the remote name
    while the file system object stays that of the original remote *)
Theorem C43_remote_escape_refuted : exists remotes base rel q,
  epath_of remotes "rclone://alpha/data" = Ok base /\ epath_of remotes "../../beta/secret" = Ok rel /\
  ejoin base rel = Ok q /\ url q = Ok "rclone://beta/secret" /\ e_fs q = Some "alpha".
Proof. exists ["alpha"; "beta"]. eexists _, _, _. repeat split; vm_compute; reflexivity. Qed.

(** Local paths are not normalised when constructed from a string *)
Theorem C43_local_not_normalised_refuted : exists p, epath_of [] "/a/../b" = Ok p /\ In ".." (p_parts (e_path p)).
Proof. eexists. split; [vm_compute; reflexivity|]. cbn. auto. Qed.

Example C43_nonvacuous :
  resolve (parse "/a//b/./c/../d/") = Ok (mkP true ["a"; "b"; "d"]) /\ resolve (parse "/a/../..") = Err ValueError /\
  (exists base rel, epath_of [] "/data/set" = Ok base /\ epath_of [] "shards/x.tar" = Ok rel /\
     ejoin base rel = Ok (mkEP (mkP true ["data"; "set"; "shards"; "x.tar"]) PLocal None)).
Proof. split; [reflexivity|]. split; [reflexivity|]. eexists _, _. repeat split; reflexivity. Qed.

(** str() of a path names the path again and is never empty *)
Theorem C43_str ab l : Forall part_ok l -> parse (render (mkP ab l)) = mkP ab l /\ render (mkP ab l) <> "".
Proof.
  intros H. destruct ab; [split; [apply parse_render_abs; exact H|discriminate]|]. unfold render. cbn [p_abs p_parts].
  destruct l as [|x l]; [split; [reflexivity|discriminate]|]. inversion H as [|? ? [HS HK] H']; subst.
  assert (X : exists c t, x = String c t /\ Ascii.eqb c "/" = false).
  { destruct x as [|c t]; [discriminate HK|]. exists c, t. split; [reflexivity|]. apply no_slash_cons in HS. apply HS. }
  destruct X as (c & t & -> & HC).
  assert (J : exists u, join_slash (String c t :: l) = String c u) by (destruct l; cbn; eauto). destruct J as [u J].
  split; [|rewrite J; discriminate]. unfold parse. f_equal; [rewrite J; exact HC|].
  rewrite split_join; [apply filter_keep; exact H|discriminate|eapply Forall_impl; [|exact H]; intros a Ha; apply Ha].
Qed.
Print Assumptions C43_str.
Example C43_str_example : render (parse "a//./b/") = "a/b" /\ render (parse "") = "." /\ Forall part_ok ["a"; "b"].
Proof. repeat split; repeat (apply Forall_cons; [split; reflexivity|]); apply Forall_nil. Qed.

(** a string is a url exactly if it is protocol://rest, with a protocol of lower case letters and a rest *)
Definition lower_letters : list ascii := list_ascii_of_string "abcdefghijklmnopqrstuvwxyz".
Lemma is_lower_spec c : is_lower c = true <-> In c lower_letters.
Proof.
  split.
  - intros H. destruct c as [[][][][][][][][]]; try discriminate H; repeat (left; reflexivity) || (vm_compute; tauto).
  - intros H. assert (A : forallb is_lower lower_letters = true) by (vm_compute; reflexivity). rewrite forallb_forall in A. apply A. exact H.
Qed.

Theorem C43_protocol s p r : split_protocol s = Some (p, r) <->
  s = (p ++ "://" ++ r)%string /\ p <> "" /\ r <> "" /\ forall c, In c (list_ascii_of_string p) -> In c lower_letters.
Proof.
  split.
  - revert p. induction s as [|c s IH]; intros p; cbn [split_protocol]; [discriminate|]. destruct (is_lower c) eqn:EL; [|discriminate].
    assert (R : forall q, match split_protocol s with Some (p0, r0) => Some (String c p0, r0) | None => None end = Some (q, r) ->
      String c s = (q ++ "://" ++ r)%string /\ q <> "" /\ r <> "" /\ forall c0, In c0 (list_ascii_of_string q) -> In c0 lower_letters).
    { intros q. destruct (split_protocol s) as [[p0 r0]|] eqn:ES; [|discriminate]. intros [= <- ->]. destruct (IH p0 eq_refl) as (-> & A & B & C).
      split; [reflexivity|]. split; [discriminate|]. split; [exact B|]. intros c0 [<-|I]; [apply is_lower_spec; exact EL|auto]. }
    assert (Q : forall r0 : string, s = ("://" ++ r0)%string -> r0 <> "" -> Some (String c "", r0) = Some (p, r) ->
      String c s = (p ++ "://" ++ r)%string /\ p <> "" /\ r <> "" /\ forall c0, In c0 (list_ascii_of_string p) -> In c0 lower_letters).
    { intros r0 -> N [= <- <-]. split; [reflexivity|]. split; [discriminate|]. split; [exact N|]. intros c0 [<-|[]]. apply is_lower_spec. exact EL. }
    destruct s as [|c1 s1]; [apply R|].
    destruct (Ascii.ascii_dec c1 ":") as [->|N1].
    2:{ intros E. apply R. rewrite <- E. clear - N1. destruct c1 as [[][][][][][][][]]; try reflexivity; exfalso; apply N1; reflexivity. }
    destruct s1 as [|c2 s2]; [apply R|].
    destruct (Ascii.ascii_dec c2 "/") as [->|N2].
    2:{ intros E. apply R. rewrite <- E. clear - N2. destruct c2 as [[][][][][][][][]]; try reflexivity; exfalso; apply N2; reflexivity. }
    destruct s2 as [|c3 s3]; [apply R|].
    destruct (Ascii.ascii_dec c3 "/") as [->|N3].
    2:{ intros E. apply R. rewrite <- E. clear - N3. destruct c3 as [[][][][][][][][]]; try reflexivity; exfalso; apply N3; reflexivity. }
    destruct s3 as [|c4 s4]; [apply R|]. apply Q; [reflexivity|discriminate].
  - intros (-> & NP & NR & HL). induction p as [|c p IH]; [congruence|]. cbn [append split_protocol].
    rewrite (proj2 (is_lower_spec c)) by (apply HL; left; reflexivity).
    destruct p as [|c1 p].
    + cbn [append]. destruct r as [|x r]; [congruence|]. reflexivity.
    + assert (IH' : split_protocol (String c1 p ++ "://" ++ r) = Some (String c1 p, r)) by (apply IH; [discriminate|intros c0 I; apply HL; right; exact I]).
      cbn [append] in *. rewrite IH'.
      assert (L1 : is_lower c1 = true) by (apply is_lower_spec, HL; right; left; reflexivity). clear - L1.
      destruct c1 as [[][][][][][][][]]; try reflexivity; discriminate L1.
Qed.
Print Assumptions C43_protocol.
Example C43_protocol_example : split_protocol "rclone://remote/x" = Some ("rclone", "remote/x") /\ split_protocol "c:/x" = None.
Proof. split; reflexivity. Qed.
