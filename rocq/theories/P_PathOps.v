(** Property C80: paths can be taken apart, compared, listed and moved, and index files belong to their shards. *)
From Coq Require Import String Ascii.
From Coq Require Import Permutation Sorted.
From Verif Require Import Base Epath EpathProofs P_Epath PathOps.
Local Open Scope string_scope.
Local Open Scope list_scope.
Local Open Scope nat_scope.

(** a file system matches its path: what every path made from a string has *)
Definition rooted (a : epath) : Prop :=
  match e_proto a with PLocal => e_fs a = None | PRclone => exists r l, e_path a = mkP true (r :: l) /\ e_fs a = Some r end.

Lemma epath_of_rooted remotes s a : epath_of remotes s = Ok a -> rooted a.
Proof.
  unfold epath_of. destruct (split_protocol s) as [[pr pa]|]; [|intros [= <-]; reflexivity]. destruct (String.eqb pr "rclone"); [|discriminate].
  match goal with |- context [resolve ?x] => destruct (resolve x) as [q|] eqn:R end; cbn [bind]; [|discriminate].
  destruct (p_parts q) as [|r l] eqn:E; [discriminate|]. destruct (existsb _ _); [|discriminate]. intros [= <-]. cbn. exists r, l.
  split; [|reflexivity]. unfold resolve in R. destruct (p_abs (parse _)) eqn:A.
  - destruct (existsb (String.eqb "..") _).
    + destruct (resolve_loop _ _); cbn [bind] in R; [|discriminate]. injection R as <-. cbn in E. now subst.
    + injection R as <-. destruct (parse _). cbn in *. now subst.
  - destruct (p_parts (parse _)); discriminate.
Qed.

(** ** parent and name *)
Lemma no_protocol n : no_slash n -> split_protocol n = None.
Proof.
  induction n as [|c n IH]; intros H; [reflexivity|]. apply no_slash_cons in H as [H1 H2]. specialize (IH H2). cbn [split_protocol].
  destruct (is_lower c); [|reflexivity]. rewrite IH. destruct n as [|c1 n]; [reflexivity|]. apply no_slash_cons in H2 as [_ H3].
  destruct n as [|c2 n]; [destruct c1 as [[][][][][][][][]]; reflexivity|]. apply no_slash_cons in H3 as [H3 _].
  destruct c1 as [[][][][][][][][]]; try reflexivity. destruct c2 as [[][][][][][][][]]; try reflexivity; discriminate H3.
Qed.

Theorem C80_parent_name remotes a d n : p_abs (e_path a) = true -> p_parts (e_path a) = d ++ [n] -> part_ok n -> ~ In ".." (d ++ [n]) ->
  ename a = n /\ bind (epath_of remotes (ename a)) (ejoin (eparent a)) = Ok a.
Proof.
  intros HA HP [N1 N2] ND. assert (EN : ename a = n) by (unfold ename; rewrite HP; apply last_last). split; [exact EN|]. rewrite EN.
  unfold epath_of. rewrite (no_protocol N1). cbn [bind]. unfold ejoin, eparent. cbn [e_path p_abs p_parts e_proto e_fs]. rewrite HA, HP, removelast_last.
  assert (PN : parse n = mkP false [n]).
  { unfold parse. f_equal; [|rewrite N1; cbn [filter]; rewrite N2; reflexivity]. destruct n as [|c n]; [discriminate|]. apply no_slash_cons in N1. apply N1. }
  rewrite PN. cbn [p_abs]. unfold pjoin. cbn [p_abs p_parts]. unfold resolve. cbn [p_abs p_parts].
  replace (existsb (String.eqb "..") (d ++ [n])) with false.
  - cbn [bind]. destruct a as [[ab l] pr f]. cbn in *. now subst.
  - symmetry. apply no_dd_existsb. apply Forall_forall. intros x I ->. exact (ND I).
Qed.
Print Assumptions C80_parent_name.
Example C80_parent_name_nonvacuous :
  let a := mkEP (mkP true ["data"; "shards"; "x.tar"]) PLocal None in
  p_abs (e_path a) = true /\ p_parts (e_path a) = ["data"; "shards"] ++ ["x.tar"] /\ part_ok "x.tar" /\ ename a = "x.tar" /\
  url (eparent a) = Ok "/data/shards".
Proof. repeat split; reflexivity. Qed.

(** the parent of a remote is no path on a remote: its URL is not one, and joining names another remote with the first one's connection *)
Theorem C80_parent_of_remote_refuted remotes r r' : In r remotes -> In r' remotes -> part_ok r -> part_ok r' -> r <> ".." -> r' <> ".." ->
  exists a rel b, epath_of remotes ("rclone://" ++ r) = Ok a /\ epath_of remotes r' = Ok rel /\ ejoin (eparent a) rel = Ok b /\
    url b = Ok ("rclone://" ++ r')%string /\ e_fs b = Some r /\
    (exists e, bind (url (eparent a)) (epath_of remotes) = Err e \/ bind (url (eparent a)) (epath_of remotes) <> Ok (eparent a)).
Proof.
  intros HR HR' [S1 K1] [S2 K2] N1 N2.
  assert (EJ : exists c t, r = String c t /\ Ascii.eqb c "/" = false).
  { destruct r as [|c t]; [discriminate|]. apply no_slash_cons in S1. exists c, t. split; [reflexivity|apply S1]. }
  assert (EA : epath_of remotes ("rclone://" ++ r) = Ok (mkEP (mkP true [r]) PRclone (Some r))).
  { destruct EJ as (c & t & E & EC).
    assert (SP : split_protocol ("rclone://" ++ r)%string = Some ("rclone", r)) by (rewrite E; reflexivity).
    unfold epath_of. rewrite SP, String.eqb_refl.
    assert (PP : match r with String "/" _ => r | _ => ("/" ++ r)%string end = render (mkP true [r])).
    { rewrite E. unfold render. cbn [p_abs p_parts join_slash]. destruct c as [[][][][][][][][]]; try reflexivity; discriminate. }
    rewrite PP, parse_render_abs by (apply Forall_cons; [split; assumption|apply Forall_nil]). unfold resolve. cbn [p_abs p_parts].
    replace (existsb (String.eqb "..") [r]) with false by (symmetry; apply no_dd_existsb; apply Forall_cons; [exact N1|apply Forall_nil]).
    cbn [bind p_parts]. cbn iota. replace (existsb (String.eqb r) remotes) with true; [reflexivity|]. symmetry. apply existsb_exists.
    exists r. split; [exact HR|apply String.eqb_refl]. }
  assert (PN : parse r' = mkP false [r']).
  { unfold parse. f_equal; [|rewrite S2; cbn [filter]; rewrite K2; reflexivity]. destruct r' as [|c n]; [discriminate|]. apply no_slash_cons in S2. apply S2. }
  exists (mkEP (mkP true [r]) PRclone (Some r)), (mkEP (mkP false [r']) PLocal None), (mkEP (mkP true [r']) PRclone (Some r)).
  split; [exact EA|]. split; [unfold epath_of; rewrite (no_protocol S2), PN; reflexivity|]. split.
  - unfold ejoin, eparent, pjoin. cbn [e_path p_abs p_parts e_proto e_fs removelast app]. unfold resolve. cbn [p_abs p_parts].
    replace (existsb (String.eqb "..") [r']) with false; [reflexivity|]. symmetry. apply no_dd_existsb. apply Forall_cons; [exact N2|apply Forall_nil].
  - split; [reflexivity|]. split; [reflexivity|]. exists ValueError. right. unfold url, eparent. cbn. discriminate.
Qed.
Print Assumptions C80_parent_of_remote_refuted.

(** ** suffixes *)
Lemma last_dot_spec s : match last_dot s with
  | Some (a, b) => s = (a ++ "." ++ b)%string /\ last_dot b = None
  | None => forall a b, s <> (a ++ "." ++ b)%string
  end.
Proof.
  induction s as [|c s IH]; cbn [last_dot]; [intros [|? ?] b; discriminate|]. destruct (last_dot s) as [[a b]|] eqn:E.
  - destruct IH as [-> H]. split; [reflexivity|exact H].
  - destruct (Ascii.eqb_spec c ".") as [->|N]; [split; [reflexivity|exact E]|]. intros [|c' a] b H; cbn in H; injection H as E1 E2; [congruence|]. exact (IH a b E2).
Qed.
Lemma last_dot_app a b : last_dot b = None -> last_dot (a ++ "." ++ b) = Some (a, b).
Proof. intros H. induction a as [|c a IH]; cbn [append last_dot] in *; [rewrite H; reflexivity|]. rewrite IH. reflexivity. Qed.

(** [n] is [m] followed by one suffix (a dot and something without dots), or has no suffix *)
Definition unsuffixed (n m : string) : Prop :=
  (exists x, n = (m ++ "." ++ x)%string /\ m <> "" /\ x <> "" /\ last_dot x = None) \/
  (m = n /\ forall m' x, n = (m' ++ "." ++ x)%string -> last_dot x = None -> m' = "" \/ x = "").

Lemma stem_spec n : unsuffixed n (stem n).
Proof.
  unfold stem, unsuffixed. pose proof (last_dot_spec n) as H. destruct (last_dot n) as [[a b]|].
  - destruct H as [-> L]. destruct (String.eqb_spec a "") as [->|NA]; [|destruct (String.eqb_spec b "") as [->|NB]]; cbn [orb].
    + right. split; [reflexivity|]. intros m' x E Lx. left. pose proof (last_dot_app m' Lx) as Q. rewrite <- E in Q. rewrite (last_dot_app "" L) in Q. congruence.
    + right. split; [reflexivity|]. intros m' x E Lx. right. pose proof (last_dot_app m' Lx) as Q. rewrite <- E in Q. rewrite (last_dot_app a L) in Q. congruence.
    + left. exists b. auto.
  - right. split; [reflexivity|]. intros m' x E. exfalso. exact (H _ _ E).
Qed.

(** with_suffix replaces the name's last suffix, or adds one, and keeps the directory *)
Theorem C80_with_suffix a d n x : p_parts (e_path a) = d ++ [n] -> n <> "" -> no_slash x -> x <> "" ->
  exists m, unsuffixed n m /\ ewith_suffix a ("." ++ x) = Ok (mkEP (mkP (p_abs (e_path a)) (d ++ [(m ++ "." ++ x)%string])) (e_proto a) (e_fs a)).
Proof.
  intros HP HN NX X. exists (stem n). split; [apply stem_spec|]. unfold ewith_suffix, ename. rewrite HP, last_last, removelast_last.
  assert (SX : no_slash ("." ++ x)%string) by (unfold no_slash in *; cbn [append split_slash]; change (Ascii.eqb "." "/") with false; cbn iota; rewrite NX; reflexivity).
  rewrite SX. cbn [length Nat.eqb negb].
  replace (String.eqb ("." ++ x) ".") with false by (symmetry; apply String.eqb_neq; cbn; intros [= ->]; congruence).
  change (String.prefix "." ("." ++ x)) with (String.prefix "" x). replace (String.prefix "" x) with true by (destruct x; reflexivity).
  cbn [negb orb]. rewrite andb_false_r. apply String.eqb_neq in HN. rewrite HN. reflexivity.
Qed.
Print Assumptions C80_with_suffix.
Example C80_with_suffix_example :
  ewith_suffix (mkEP (mkP true ["d"; "a.b.tar"]) PLocal None) ".json" = Ok (mkEP (mkP true ["d"; "a.b.json"]) PLocal None) /\
  ewith_suffix (mkEP (mkP true ["d"; ".hidden"]) PLocal None) ".x" = Ok (mkEP (mkP true ["d"; ".hidden.x"]) PLocal None) /\
  ewith_suffix (mkEP (mkP true []) PLocal None) ".x" = Err ValueError.
Proof. repeat split; vm_compute; reflexivity. Qed.

Lemma app_str_inj_r (s : string) : forall a b, (a ++ s)%string = (b ++ s)%string -> a = b.
Proof.
  intros a b E. assert (L : String.length a = String.length b).
  { apply (f_equal String.length) in E. assert (A : forall u v, String.length (u ++ v) = String.length u + String.length v) by (induction u; intros; cbn; auto).
    rewrite !A in E. lia. }
  revert b E L. induction a as [|c a IH]; intros [|c' b] E L; try discriminate; [reflexivity|]. cbn in E. injection E as -> E. f_equal. apply IH; auto.
Qed.
Lemma stem_of m x : m <> "" -> x <> "" -> last_dot x = None -> stem (m ++ "." ++ x) = m.
Proof. intros M X L. unfold stem. rewrite (last_dot_app m L). apply String.eqb_neq in M, X. rewrite M, X. reflexivity. Qed.

(** shards called *.tar have an index file of their own, next to them; its temporary file is no index file *)
Theorem C80_index_own a b d d' m m' i j : p_parts (e_path a) = d ++ [(m ++ ".tar")%string] -> p_parts (e_path b) = d' ++ [(m' ++ ".tar")%string] -> m <> "" -> m' <> "" ->
  index_name a = Ok i -> index_name b = Ok j ->
  p_parts (e_path i) = d ++ [(m ++ ".tar.idx")%string] /\
  (p_parts (e_path i) = p_parts (e_path j) -> p_parts (e_path a) = p_parts (e_path b)) /\
  (forall t, index_tmp_name b = Ok t -> p_parts (e_path t) = d' ++ [(m' ++ ".tar.idx.tmp")%string] /\ p_parts (e_path t) <> p_parts (e_path i)).
Proof.
  intros HA HB M M'.
  assert (NE : forall u, String.eqb (u ++ ".tar") "" = false) by (intros [|? ?]; reflexivity).
  assert (G : forall p e u suf, p_parts (e_path p) = e ++ [(u ++ ".tar")%string] -> u <> "" -> suf = ".tar.idx" \/ suf = ".tar.idx.tmp" ->
    ewith_suffix p suf = Ok (mkEP (mkP (p_abs (e_path p)) (e ++ [(u ++ suf)%string])) (e_proto p) (e_fs p))).
  { intros p e u suf HP U HS. unfold ewith_suffix, ename. rewrite HP, last_last, removelast_last, NE.
    change (u ++ ".tar")%string with (u ++ "." ++ "tar")%string. rewrite (@stem_of u "tar") by (auto; discriminate).
    destruct HS as [-> | ->]; reflexivity. }
  unfold index_name, index_tmp_name. rewrite (G a d m _ HA M (or_introl eq_refl)), (G b d' m' _ HB M' (or_introl eq_refl)).
  intros [= <-] [= <-]. cbn [e_path p_parts]. split; [reflexivity|]. split.
  - intros E. apply app_inj_tail in E. destruct E as [-> E]. apply app_str_inj_r in E. subst. now rewrite HA, HB.
  - intros t. rewrite (G b d' m' _ HB M' (or_intror eq_refl)). intros [= <-]. cbn [e_path p_parts]. split; [reflexivity|].
    intros E. apply app_inj_tail in E. destruct E as [_ E].
    assert (LC : forall u v c, last (list_ascii_of_string (u ++ String c v)) " "%char = last (list_ascii_of_string (String c v)) " "%char).
    { induction u as [|h u IH]; intros v c; [reflexivity|]. rewrite <- IH. cbn [append list_ascii_of_string]. cbn [last].
      destruct (list_ascii_of_string (u ++ String c v)) eqn:Q; [destruct u; discriminate|reflexivity]. }
    apply (f_equal (fun s => last (list_ascii_of_string s) " "%char)) in E. rewrite !LC in E. vm_compute in E. discriminate.
Qed.
Print Assumptions C80_index_own.
Example C80_index_own_nonvacuous :
  index_name (mkEP (mkP true ["d"; "a.tar"]) PLocal None) = Ok (mkEP (mkP true ["d"; "a.tar.idx"]) PLocal None).
Proof. vm_compute. reflexivity. Qed.

(** Shards may also be called *.tgz (prepare looks for both): x.tar and x.tgz in one directory have the same index file, so the second
    one that is indexed overwrites the index of the first. *)
Theorem C80_index_collision_refuted p d m pr f : m <> "" ->
  let tar := mkEP (mkP p (d ++ [(m ++ ".tar")%string])) pr f in
  let tgz := mkEP (mkP p (d ++ [(m ++ ".tgz")%string])) pr f in
  eeq tar tgz = false /\ index_name tar = index_name tgz /\ index_name tar <> Err ValueError.
Proof.
  intros M tar tgz. split.
  - unfold eeq, tar, tgz. cbn [e_path p_abs p_parts]. replace (strs_eqb _ _) with false; [rewrite andb_false_r; reflexivity|]. symmetry.
    induction d as [|x d IH]; [|cbn [app strs_eqb]; rewrite String.eqb_refl; exact IH]. cbn [app strs_eqb]. rewrite andb_true_r. apply String.eqb_neq.
    clear. induction m as [|c m IH]; [discriminate|]. cbn. intros [= E]. auto.
  - unfold index_name, ewith_suffix, ename, tar, tgz. cbn [e_path p_parts p_abs e_proto e_fs]. rewrite !last_last, !removelast_last.
    assert (NE : forall u v c, String.eqb (u ++ String c v) "" = false) by (intros [|? ?]; reflexivity). rewrite !NE.
    change (m ++ ".tar")%string with (m ++ "." ++ "tar")%string. change (m ++ ".tgz")%string with (m ++ "." ++ "tgz")%string.
    rewrite !stem_of by (auto; discriminate). split; [reflexivity|]. cbn. discriminate.
Qed.
Print Assumptions C80_index_collision_refuted.

(** ** equality *)
Lemma strs_eqb_eq a : forall b, strs_eqb a b = true <-> a = b.
Proof.
  induction a as [|x a IH]; intros [|y b]; cbn [strs_eqb]; try (split; [discriminate|congruence]); [split; reflexivity|].
  rewrite andb_true_iff, String.eqb_eq, IH. split; [intros [-> ->]; reflexivity|intros [= -> ->]; auto].
Qed.
Lemma proto_eqb_eq a b : proto_eqb a b = true <-> a = b.
Proof. destruct a, b; cbn; split; intros; try reflexivity; discriminate. Qed.
Lemma eeq_iff a b : eeq a b = true <-> e_path a = e_path b /\ e_proto a = e_proto b.
Proof.
  unfold eeq. rewrite !andb_true_iff, Bool.eqb_true_iff, strs_eqb_eq, proto_eqb_eq. destruct (e_path a), (e_path b). cbn.
  split; [intros [[-> ->] ->]; auto|intros [[= -> ->] ->]; auto].
Qed.

(** two absolute paths made from strings are equal if and only if their URLs are, and then they are on the same file system *)
Theorem C80_equal_iff remotes s t a b : epath_of remotes s = Ok a -> epath_of remotes t = Ok b -> p_abs (e_path a) = true -> p_abs (e_path b) = true ->
  (eeq a b = true <-> url a = url b) /\ (eeq a b = true -> a = b).
Proof.
  intros HA HB AA AB.
  assert (EQ : eeq a b = true -> a = b).
  { intros H. apply eeq_iff in H. destruct H as [H1 H2]. apply epath_of_rooted in HA, HB. unfold rooted in *. rewrite H2, H1 in HA.
    assert (F : e_fs a = e_fs b).
    { destruct (e_proto b); [rewrite HA, HB; reflexivity|]. destruct HA as (r & l & E & ->), HB as (r' & l' & E' & ->). congruence. }
    destruct a as [pa ra fa], b as [pb rb fb]. cbn in H1, H2, F. subst. reflexivity. }
  split; [|exact EQ]. split; [intros H; rewrite (EQ H); reflexivity|]. intros H.
  assert (RT : forall q v, epath_of remotes v = Ok q -> p_abs (e_path q) = true -> exists u, url q = Ok u /\ epath_of remotes u = Ok q).
  { intros q v HQ AQ. destruct (e_proto q) eqn:EP.
    - assert (U : url q = Ok (render (e_path q))) by (unfold url; rewrite AQ, EP; reflexivity). eexists. split; [exact U|]. exact (C43_url_roundtrip_local HQ EP U).
    - assert (U : url q = Ok ("rclone://" ++ join_slash (p_parts (e_path q)))%string) by (unfold url; rewrite AQ, EP; reflexivity).
      eexists. split; [exact U|]. exact (C43_url_roundtrip_rclone HQ EP U). }
  destruct (RT a s HA AA) as (u & U1 & U2), (RT b t HB AB) as (v & V1 & V2). rewrite U1, V1 in H. injection H as ->.
  assert (a = b) by congruence. subst. apply eeq_iff. auto.
Qed.
Print Assumptions C80_equal_iff.
Example C80_equal_nonvacuous : exists a b, epath_of ["r"] "rclone://r/x/./y" = Ok a /\ epath_of ["r"] "rclone:///r//x/z/../y" = Ok b /\
  p_abs (e_path a) = true /\ p_abs (e_path b) = true /\ eeq a b = true.
Proof. eexists _, _. repeat split; vm_compute; reflexivity. Qed.

(** ** the order *)
(** [a] comes before [b] in the order that [lt] induces on sequences *)
Definition before {A} (lt : A -> A -> Prop) (a b : list A) : Prop :=
  exists c, (exists y r, a = c /\ b = c ++ y :: r) \/ (exists x y r s, a = c ++ x :: r /\ b = c ++ y :: s /\ lt x y).

Lemma lex_iff {A} (lt eq : A -> A -> bool) (E : forall x y, eq x y = true <-> x = y) : forall a b,
  lex lt eq a b = true <-> before (fun x y => lt x y = true) a b.
Proof.
  induction a as [|x a IH]; intros [|y b]; cbn [lex].
  - split; [discriminate|]. intros (c & [(y & r & _ & H)|(x & y & r & s & H & _)]); destruct c; discriminate.
  - split; [|reflexivity]. intros _. exists []. left. exists y, b. auto.
  - split; [discriminate|]. intros (c & [(y & r & _ & H)|(x' & y & r & s & _ & H & _)]); destruct c; discriminate.
  - rewrite orb_true_iff, andb_true_iff, E, IH. split.
    + intros [H|[-> (c & H)]]; [exists []; right; exists x, y, a, b; auto|]. exists (y :: c).
      destruct H as [(y' & r & -> & ->)|(x' & y' & r & s & -> & -> & H)]; [left; exists y', r; auto|right; exists x', y', r, s; auto].
    + intros ([|z c] & [(y' & r & H1 & H2)|(x' & y' & r & s & H1 & H2 & H)]); cbn in H1, H2; try discriminate.
      * injection H1 as -> ->. injection H2 as -> ->. auto.
      * injection H1 as -> ->. injection H2 as -> ->. right. split; [reflexivity|]. exists c. left. exists y', r. auto.
      * injection H1 as -> ->. injection H2 as -> ->. right. split; [reflexivity|]. exists c. right. exists x', y', r, s. auto.
Qed.

Record strict_total {A} (lt : A -> A -> bool) : Prop := {
  st_irr : forall x, lt x x = false;
  st_trans : forall x y z, lt x y = true -> lt y z = true -> lt x z = true;
  st_total : forall x y, lt x y = true \/ x = y \/ lt y x = true }.

Lemma lex_total {A} (lt eq : A -> A -> bool) (E : forall x y, eq x y = true <-> x = y) : strict_total lt -> strict_total (lex lt eq).
Proof.
  intros [I T C]. split.
  - induction x as [|x l IH]; [reflexivity|]. cbn [lex]. rewrite I, IH, andb_false_r. reflexivity.
  - induction x as [|x a IH]; intros [|y b] [|z c]; cbn [lex]; try discriminate; auto. rewrite !orb_true_iff, !andb_true_iff, !E.
    intros [H|[-> H]] [H'|[-> H']]; eauto.
  - induction x as [|x a IH]; intros [|y b]; cbn [lex]; auto. rewrite !orb_true_iff, !andb_true_iff, !E.
    destruct (C x y) as [H|[-> |H]]; auto. destruct (IH b) as [H|[-> |H]]; auto.
Qed.

Lemma slt_total : strict_total slt.
Proof.
  assert (L : strict_total (lex (fun c d => nat_of_ascii c <? nat_of_ascii d) Ascii.eqb)).
  { apply lex_total; [apply Ascii.eqb_eq|]. split.
    - intros x. apply Nat.ltb_irrefl.
    - intros x y z. rewrite !Nat.ltb_lt. lia.
    - intros x y. rewrite !Nat.ltb_lt. destruct (Nat.lt_trichotomy (nat_of_ascii x) (nat_of_ascii y)) as [H|[H|H]]; auto. right. left.
      rewrite <- (ascii_nat_embedding x), <- (ascii_nat_embedding y), H. reflexivity. }
  destruct L as [I T C]. split; unfold slt; [intros; apply I|intros x y z; apply T|]. intros x y.
  destruct (C (list_ascii_of_string x) (list_ascii_of_string y)) as [H|[H|H]]; auto. right. left.
  rewrite <- (string_of_list_ascii_of_string x), <- (string_of_list_ascii_of_string y), H. reflexivity.
Qed.

(** [s] comes before [t] by their characters *)
Definition str_before (s t : string) : Prop := before (fun c d => nat_of_ascii c < nat_of_ascii d) (list_ascii_of_string s) (list_ascii_of_string t).

Lemma before_ext {A} (P Q : A -> A -> Prop) a b : (forall x y, P x y <-> Q x y) -> before P a b <-> before Q a b.
Proof.
  intros H. split; intros (c & [X|(x & y & r & s & E1 & E2 & L)]); exists c; auto; right; exists x, y, r, s; repeat split; auto; apply H; exact L.
Qed.

(** Paths of one file system are ordered component by component, each by its characters; this is a strict total order that agrees with
    equality, so sorting (prepare sorts the shards) gives one result.  Other paths cannot be compared. *)
Theorem C80_order a b c : rooted a -> rooted b -> rooted c -> p_abs (e_path a) = true -> p_abs (e_path b) = true -> p_abs (e_path c) = true ->
  (forall r, elt a b = Ok r -> e_fs a = e_fs b /\ (r = true <-> before str_before (p_parts (e_path a)) (p_parts (e_path b)))) /\
  (e_fs a = e_fs b -> exists r, elt a b = Ok r) /\ (e_fs a <> e_fs b -> elt a b = Err AssertionError) /\
  elt a a = Ok false /\
  (elt a b = Ok true -> elt b c = Ok true -> elt a c = Ok true) /\
  (e_fs a = e_fs b -> elt a b = Ok true \/ eeq a b = true \/ elt b a = Ok true).
Proof.
  intros RA RB RC AA AB AC.
  assert (SF : forall x y, rooted x -> rooted y -> same_fs x y = true <-> e_fs x = e_fs y).
  { intros x y RX RY. unfold rooted, same_fs, fs_path in *. destruct (e_proto x), (e_proto y); cbn [proto_eqb].
    - rewrite RX, RY. cbn. split; reflexivity.
    - destruct RY as (r & l & EY & ->). rewrite RX. cbn. split; discriminate.
    - destruct RX as (r & l & EX & ->). rewrite RY. cbn. split; discriminate.
    - destruct RX as (r & l & EX & ->), RY as (r' & l' & EY & ->). rewrite EX, EY. cbn. rewrite andb_true_r, andb_true_iff, String.eqb_eq.
      split; [intros [-> _]; reflexivity|intros [= ->]; auto]. }
  assert (LE : forall x y, p_abs (e_path x) = true -> p_abs (e_path y) = true ->
    lex slt String.eqb (all_parts (e_path x)) (all_parts (e_path y)) = lex slt String.eqb (p_parts (e_path x)) (p_parts (e_path y))).
  { intros x y X Y. unfold all_parts. rewrite X, Y. cbn [lex]. rewrite String.eqb_refl. rewrite (st_irr slt_total). reflexivity. }
  assert (LT : strict_total (lex slt String.eqb)) by (apply lex_total; [apply String.eqb_eq|exact slt_total]).
  assert (OK : forall x y r, rooted x -> rooted y -> p_abs (e_path x) = true -> p_abs (e_path y) = true ->
    elt x y = Ok r <-> e_fs x = e_fs y /\ r = lex slt String.eqb (p_parts (e_path x)) (p_parts (e_path y))).
  { intros x y r RX RY X Y. unfold elt. rewrite (LE x y X Y). destruct (same_fs x y) eqn:E.
    - apply SF in E; auto. split; [intros [= <-]; auto|intros [_ ->]; reflexivity].
    - split; [discriminate|]. intros [H _]. apply SF in H; auto. congruence. }
  split; [|split; [|split; [|split; [|split]]]].
  - intros r H. apply OK in H; auto. destruct H as [H ->]. split; [exact H|]. rewrite lex_iff by apply String.eqb_eq. apply before_ext.
    intros x y. unfold slt, str_before. rewrite lex_iff by apply Ascii.eqb_eq. apply before_ext. intros u v. apply Nat.ltb_lt.
  - intros H. eexists. apply OK; auto.
  - intros H. unfold elt. destruct (same_fs a b) eqn:E; [|reflexivity]. apply SF in E; auto. congruence.
  - apply OK; auto. split; [reflexivity|]. symmetry. apply (st_irr LT).
  - intros H1 H2. apply OK in H1, H2; auto. apply OK; auto. destruct H1 as [E1 L1], H2 as [E2 L2]. split; [congruence|]. symmetry.
    eapply (st_trans LT); symmetry; eassumption.
  - intros H. destruct (st_total LT (p_parts (e_path a)) (p_parts (e_path b))) as [L|[L|L]].
    + left. apply OK; auto.
    + right. left. apply eeq_iff. split; [destruct (e_path a), (e_path b); cbn in *; congruence|]. unfold rooted in RA, RB.
      destruct (e_proto a), (e_proto b); auto; [destruct RB as (? & ? & _ & E)|destruct RA as (? & ? & _ & E)]; congruence.
    + right. right. apply OK; auto.
Qed.
Print Assumptions C80_order.
Example C80_order_nonvacuous :
  elt (mkEP (mkP true ["d"; "a"; "z"]) PLocal None) (mkEP (mkP true ["d"; "a.b"]) PLocal None) = Ok true /\
  elt (mkEP (mkP true ["d"; "Z.tar"]) PLocal None) (mkEP (mkP true ["d"; "a.tar"]) PLocal None) = Ok true /\
  rooted (mkEP (mkP true ["d"; "a"; "z"]) PLocal None).
Proof. repeat split; vm_compute; reflexivity. Qed.

(** ... which is not the order of their URLs *)
Theorem C80_order_of_urls_refuted : exists a b u v, elt a b = Ok true /\ url a = Ok u /\ url b = Ok v /\ slt v u = true.
Proof. exists (mkEP (mkP true ["a"; "z"]) PLocal None), (mkEP (mkP true ["a-b"]) PLocal None). eexists _, _. repeat split; vm_compute; reflexivity. Qed.

(** ** listing and moving *)
(** Everything that glob lists is on the same file system: on the same remote, at the place that the remote's file system named. *)
Theorem C80_glob_remote remotes fsglob r l pattern ps : part_ok r -> r <> ".." ->
  (forall f q s, In s (fsglob f q) -> p_abs (parse s) = false /\ ~ In ".." (p_parts (parse s))) ->
  let a := mkEP (mkP true (r :: l)) PRclone (Some r) in
  eglob remotes fsglob a pattern = Ok ps ->
  exists q rel, epath_of remotes pattern = Ok rel /\ ejoin a rel = Ok q /\
    Forall2 (fun s p => e_proto p = PRclone /\ e_fs p = Some r /\ e_path p = mkP true (r :: p_parts (parse s)) /\ nonfs_path p = p_parts (parse s))
      (fsglob (Some r) (nonfs_path q)) ps.
Proof.
  intros PR ND HG a H. unfold eglob, a in H. cbn [e_path p_abs e_proto e_fs] in H.
  destruct (epath_of remotes pattern) as [rel|] eqn:E; cbn [bind] in H; [|discriminate].
  destruct (ejoin (mkEP (mkP true (r :: l)) PRclone (Some r)) rel) as [q|] eqn:J; cbn [bind] in H; [|discriminate].
  exists q, rel. split; [reflexivity|]. split; [exact J|]. specialize (HG (Some r) (nonfs_path q)). revert ps H.
  induction (fsglob (Some r) (nonfs_path q)) as [|s ss IH]; intros ps H; cbn [map sequence] in H.
  - injection H as <-. constructor.
  - destruct (HG s (or_introl eq_refl)) as [HA HD].
    assert (R : resolve (pjoin (mkP true (fs_path (mkEP (mkP true (r :: l)) PRclone (Some r)))) (parse s)) = Ok (mkP true (r :: p_parts (parse s)))).
    { unfold pjoin. rewrite HA. unfold fs_path. cbn [e_proto e_path p_parts p_abs firstn app]. unfold resolve. cbn [p_abs p_parts].
      replace (existsb (String.eqb "..") (r :: p_parts (parse s))) with false; [reflexivity|]. symmetry. apply no_dd_existsb.
      apply Forall_forall. intros x [<-|I] EX; [exact (ND EX)|]. rewrite EX in I. exact (HD I). }
    rewrite R in H. cbn [bind] in H.
    match type of H with context [sequence ?m] => destruct (sequence m) as [ps'|] eqn:Q end; cbn [bind] in H; [|discriminate].
    injection H as <-. constructor; [repeat split; reflexivity|]. apply IH; [|reflexivity]. intros s' I. apply HG. now right.
Qed.
Print Assumptions C80_glob_remote.
Example C80_glob_nonvacuous :
  eglob ["r"] (fun _ q => [("bucket/x.tar")%string; "bucket/sub/y.tar"]) (mkEP (mkP true ["r"; "bucket"]) PRclone (Some "r")) "**/*.tar" =
    Ok [mkEP (mkP true ["r"; "bucket"; "x.tar"]) PRclone (Some "r"); mkEP (mkP true ["r"; "bucket"; "sub"; "y.tar"]) PRclone (Some "r")].
Proof. vm_compute. reflexivity. Qed.

(** Files are only moved within one file system, from and to the paths' places there. *)
Theorem C80_move a b f s t : rooted a -> rooted b ->
  emove a b = Ok (f, s, t) <-> p_abs (e_path a) = true /\ p_abs (e_path b) = true /\ e_fs a = e_fs b /\ f = e_fs a /\
    (match e_fs a with None => s = p_parts (e_path a) /\ t = p_parts (e_path b) | Some r => p_parts (e_path a) = r :: s /\ p_parts (e_path b) = r :: t end).
Proof.
  intros RA RB. unfold emove, same_fs, rooted, fs_path, nonfs_path in *. destruct (p_abs (e_path a)), (p_abs (e_path b)); cbn [andb];
    try (split; [discriminate|intros (X & Y & _); discriminate]).
  destruct (e_proto a), (e_proto b); cbn [proto_eqb].
  - rewrite RA, RB. cbn. split; [intros [= <- <- <-]; auto 10|intros (_ & _ & _ & -> & -> & ->); reflexivity].
  - destruct RB as (r & l & EB & ->). rewrite RA. cbn. split; [discriminate|intros (_ & _ & X & _); discriminate].
  - destruct RA as (r & l & EA & ->). rewrite RB. cbn. split; [discriminate|intros (_ & _ & X & _); discriminate].
  - destruct RA as (r & l & EA & ->), RB as (r' & l' & EB & ->). rewrite EA, EB. cbn. destruct (String.eqb_spec r r') as [->|N]; cbn [andb].
    + split; [intros [= <- <- <-]; auto 10|intros (_ & _ & _ & -> & [= ->] & [= ->]); reflexivity].
    + split; [discriminate|intros (_ & _ & [= X] & _); congruence].
Qed.
Print Assumptions C80_move.

(** the index writer's temporary file can always be moved over the index file *)
Theorem C80_index_finalised a i t : rooted a -> p_abs (e_path a) = true -> (e_proto a = PLocal \/ 1 < length (p_parts (e_path a))) ->
  index_name a = Ok i -> index_tmp_name a = Ok t -> exists m, emove t i = Ok m.
Proof.
  intros RA AA HP. unfold index_name, index_tmp_name, ewith_suffix. cbn [split_slash]. change (length (split_slash ".tar.idx") =? 1) with true.
  change (length (split_slash ".tar.idx.tmp") =? 1) with true. cbn [negb]. change (String.eqb ".tar.idx" "") with false. change (String.eqb ".tar.idx.tmp" "") with false.
  change (String.prefix "." ".tar.idx") with true. change (String.prefix "." ".tar.idx.tmp") with true. change (String.eqb ".tar.idx" ".") with false.
  change (String.eqb ".tar.idx.tmp" ".") with false. cbn [negb orb andb]. destruct (String.eqb (ename a) ""); [discriminate|]. intros [= <-] [= <-].
  unfold emove, same_fs, fs_path. cbn [e_path p_abs e_proto e_fs p_parts]. rewrite AA. cbn [andb]. unfold rooted in RA.
  destruct (e_proto a) eqn:EP; cbn [proto_eqb].
  - rewrite RA. cbn. eexists. reflexivity.
  - destruct RA as (r & l & EA & ->). destruct HP as [HP|HP]; [discriminate|]. rewrite EA in *. cbn [p_parts length] in HP.
    destruct l as [|y l]; [cbn in HP; lia|]. cbn [removelast app firstn opt_eqb]. rewrite !String.eqb_refl. cbn. rewrite ?String.eqb_refl. cbn. eexists. reflexivity.
Qed.
Print Assumptions C80_index_finalised.


(** A path that has left its remote with ".." (C43_remote_escape_refuted) is at least not mixed up with the paths that are there. *)
Theorem C80_escaped_not_moved a b r r' l l' : e_proto a = PRclone -> e_proto b = PRclone -> p_parts (e_path a) = r :: l -> p_parts (e_path b) = r' :: l' -> r <> r' ->
  elt a b = Err AssertionError /\ forall m, emove a b <> Ok m.
Proof.
  intros PA PB EA EB N. assert (F : same_fs a b = false).
  { unfold same_fs, fs_path. rewrite PA, PB, EA, EB. cbn [firstn]. apply String.eqb_neq in N. rewrite N. apply andb_false_r. }
  unfold elt, emove. rewrite F. split; [reflexivity|]. intros m. destruct (p_abs (e_path a) && p_abs (e_path b)); discriminate.
Qed.
Print Assumptions C80_escaped_not_moved.
Example C80_escaped_nonvacuous : exists base rel q, epath_of ["alpha"; "beta"] "rclone://alpha/data" = Ok base /\ epath_of ["alpha"; "beta"] "../../beta/x" = Ok rel /\
  ejoin base rel = Ok q /\ e_proto q = PRclone /\ elt base q = Err AssertionError.
Proof. eexists _, _, _. repeat split; vm_compute; reflexivity. Qed.

(** Locally, glob lists exactly the files found, in their order; the pattern is looked for below the path. *)
Theorem C80_glob_local remotes fsglob l pattern ps :
  (forall f q s, In s (fsglob f q) -> p_abs (parse s) = true /\ ~ In ".." (p_parts (parse s))) ->
  let a := mkEP (mkP true l) PLocal None in
  eglob remotes fsglob a pattern = Ok ps ->
  exists q rel, epath_of remotes pattern = Ok rel /\ ejoin a rel = Ok q /\
    ps = map (fun s => mkEP (parse s) PLocal None) (fsglob None (nonfs_path q)).
Proof.
  intros HG a H. unfold eglob, a in H. cbn [e_path p_abs e_proto e_fs] in H.
  destruct (epath_of remotes pattern) as [rel|] eqn:E; cbn [bind] in H; [|discriminate].
  destruct (ejoin (mkEP (mkP true l) PLocal None) rel) as [q|] eqn:J; cbn [bind] in H; [|discriminate].
  exists q, rel. split; [reflexivity|]. split; [exact J|]. specialize (HG None (nonfs_path q)). revert ps H.
  induction (fsglob None (nonfs_path q)) as [|s ss IH]; intros ps H; cbn [map sequence] in H |- *.
  - injection H as <-. reflexivity.
  - destruct (HG s (or_introl eq_refl)) as [HA HD]. rewrite HA in H.
    assert (R : resolve (parse s) = Ok (parse s)).
    { unfold resolve. rewrite HA. replace (existsb (String.eqb "..") (p_parts (parse s))) with false; [reflexivity|]. symmetry. apply no_dd_existsb.
      apply Forall_forall. intros x I EX. rewrite EX in I. exact (HD I). }
    rewrite R in H. cbn [bind] in H.
    match type of H with context [sequence ?m] => destruct (sequence m) as [ps'|] eqn:Q end; cbn [bind] in H; [|discriminate].
    injection H as <-. f_equal. apply IH; [|reflexivity]. intros s' I. apply HG. now right.
Qed.
Print Assumptions C80_glob_local.
Example C80_glob_local_nonvacuous :
  eglob [] (fun _ q => if strs_eqb q ["data"; "**"; "*.tar"] then ["/data/x.tar"; "/data/sub/y.tar"] else []) (mkEP (mkP true ["data"]) PLocal None) "**/*.tar" =
    Ok [mkEP (mkP true ["data"; "x.tar"]) PLocal None; mkEP (mkP true ["data"; "sub"; "y.tar"]) PLocal None].
Proof. vm_compute. reflexivity. Qed.

(** A suffix is a dot and something after it, without slashes; no suffix can be set on a root. *)
Theorem C80_suffix_rejected a suf : suf <> "" ->
  (exists q, ewith_suffix a suf = Ok q) <-> ename a <> "" /\ exists x, suf = ("." ++ x)%string /\ x <> "" /\ no_slash x.
Proof.
  intros NE. unfold ewith_suffix. destruct (String.eqb_spec suf "") as [|_]; [contradiction|]. cbn [negb andb].
  assert (SL : length (split_slash suf) = 1 <-> no_slash suf).
  { split; [|intros ->; reflexivity]. clear. unfold no_slash. induction suf as [|c s IH]; [reflexivity|]. cbn [split_slash].
    destruct (Ascii.eqb c "/"); [intros H; exfalso; cbn in H; pose proof (@split_slash_nonnil s); destruct (split_slash s); [congruence|discriminate]|].
    pose proof (@split_slash_nonnil s). destruct (split_slash s) as [|x [|y r]]; [congruence| |discriminate]. intros _. specialize (IH eq_refl). congruence. }
  destruct (length (split_slash suf) =? 1) eqn:L; cbn [negb].
  - apply Nat.eqb_eq in L. apply SL in L. destruct suf as [|c x]; [congruence|]. pose proof (no_slash_cons L) as [_ NX].
    change (String.prefix "." (String c x)) with (if ascii_dec "." c then String.prefix "" x else false).
    destruct (ascii_dec "." c) as [<-|NC].
    + replace (String.prefix "" x) with true by (destruct x; reflexivity). cbn [negb orb]. destruct (String.eqb_spec (String "." x) ".") as [EX|NX'].
      * injection EX as ->. split; [intros [q H]; discriminate|]. intros (_ & x & E & X & _). injection E as <-. congruence.
      * destruct (String.eqb_spec (ename a) "") as [EN|EN]; [split; [intros [q H]; discriminate|intros [H _]; congruence]|].
        split; [intros _; split; [exact EN|]; exists x; repeat split; auto; intros ->; congruence|eauto].
    + cbn [negb orb]. split; [intros [q H]; discriminate|]. intros (_ & y & E & _). injection E as -> _. congruence.
  - apply Nat.eqb_neq in L. split; [intros [q H]; discriminate|]. intros (_ & x & -> & _ & NX). exfalso. apply L. apply SL.
    unfold no_slash in *. cbn [append split_slash]. change (Ascii.eqb "." "/") with false. cbn iota. rewrite NX. reflexivity.
Qed.
Print Assumptions C80_suffix_rejected.

(** ** the order of the shards *)
Lemma ins_comm {A} (lt : A -> A -> bool) : strict_total lt -> forall x y l, ins lt x (ins lt y l) = ins lt y (ins lt x l).
Proof.
  intros [I T C] x y. assert (AS : forall u v, lt u v = true -> lt v u = false).
  { intros u v H. destruct (lt v u) eqn:E; [|reflexivity]. rewrite <- (I u). symmetry. eapply T; eauto. }
  induction l as [|z l IH]; cbn [ins].
  - destruct (C x y) as [H|[-> |H]]; [|reflexivity|]; rewrite H, (AS _ _ H); reflexivity.
  - destruct (lt z y) eqn:ZY, (lt z x) eqn:ZX; cbn [ins]; rewrite ?ZY, ?ZX.
    + rewrite IH. reflexivity.
    + assert (E : lt x y = true).
      { destruct (C x y) as [H|[H|H]]; [exact H|congruence|]. rewrite (T z y x ZY H) in ZX. discriminate. }
      rewrite E. reflexivity.
    + assert (E : lt y x = true).
      { destruct (C x y) as [H|[H|H]]; [|congruence|exact H]. rewrite (T z x y ZX H) in ZY. discriminate. }
      rewrite E. reflexivity.
    + destruct (C x y) as [H|[-> |H]]; [|reflexivity|]; rewrite H, (AS _ _ H); cbn [ins]; rewrite ?ZX, ?ZY; reflexivity.
Qed.
Lemma sort_perm {A} (lt : A -> A -> bool) : strict_total lt -> forall l l', Permutation l l' -> sort lt l = sort lt l'.
Proof.
  intros ST l l' P. induction P as [|x l l' P IH|x y l|l m n P1 IH1 P2 IH2]; cbn [sort fold_right]; [reflexivity| | |congruence].
  - unfold sort in IH. now rewrite IH.
  - apply ins_comm. exact ST.
Qed.
Lemma ins_permutation {A} (lt : A -> A -> bool) x : forall l, Permutation (x :: l) (ins lt x l).
Proof.
  induction l as [|y l IH]; cbn [ins]; [apply Permutation_refl|]. destruct (lt y x); [|apply Permutation_refl].
  eapply perm_trans; [apply perm_swap|]. apply perm_skip. exact IH.
Qed.
Lemma sort_permutation {A} (lt : A -> A -> bool) l : Permutation l (sort lt l).
Proof.
  induction l as [|x l IH]; [apply perm_nil|]. cbn [sort fold_right]. eapply perm_trans; [apply perm_skip; exact IH|]. apply ins_permutation.
Qed.
Lemma sort_sorted {A} (lt : A -> A -> bool) : strict_total lt -> forall l, StronglySorted (fun x y => lt y x = false) (sort lt l).
Proof.
  intros [I T C] l. assert (AS : forall u v, lt u v = true -> lt v u = false).
  { intros u v H. destruct (lt v u) eqn:E; [|reflexivity]. rewrite <- (I u). symmetry. eapply T; eauto. }
  induction l as [|x l IH]; [constructor|]. cbn [sort fold_right]. fold (sort lt l). revert IH. generalize (sort lt l) as s. clear l.
  induction s as [|y s IH]; intros H; cbn [ins]; [constructor; constructor|]. inversion H as [|? ? H1 H2]; subst. destruct (lt y x) eqn:E.
  - constructor; [apply IH; exact H1|]. apply Forall_forall. intros z Hz.
    apply (Permutation_in (l' := x :: s)) in Hz; [|apply Permutation_sym, ins_permutation]. destruct Hz as [<-|Hz]; [apply AS; exact E|].
    rewrite Forall_forall in H2. auto.
  - constructor; [exact H|]. apply Forall_forall. intros z [<-|Hz]; [exact E|]. rewrite Forall_forall in H2. specialize (H2 z Hz). cbn beta in H2.
    destruct (lt z x) eqn:ZX; [|reflexivity]. destruct (C y z) as [Q|[Q|Q]]; [|subst; congruence|congruence].
    rewrite (T y z x Q ZX) in E. discriminate.
Qed.

(** Whatever order the file system lists the files in, the shards are the same, in the same order -- so the same split is made of them;
    they are exactly the files found, sorted by their components. *)
Theorem C80_shard_order base tars tgzs names :
  shard_list base tars tgzs = Ok names ->
  (exists rel, names = map join_slash rel /\ Permutation (tars ++ tgzs) (map (app base) rel) /\
     StronglySorted (fun p q => ~ before str_before q p) (map (app base) rel)) /\
  forall tars' tgzs', Permutation (tars ++ tgzs) (tars' ++ tgzs') -> shard_list base tars' tgzs' = Ok names.
Proof.
  assert (LT : strict_total (lex slt String.eqb)) by (apply lex_total; [apply String.eqb_eq|exact slt_total]).
  intros H. split.
  - unfold shard_list in H. pose proof (sort_permutation (lex slt String.eqb) (tars ++ tgzs)) as P. pose proof (sort_sorted LT (tars ++ tgzs)) as SO.
    assert (G : forall s nm, sequence (map (fun p => match strip_prefix base p with Some r => Ok (join_slash r) | None => Err ValueError end) s) = Ok nm ->
      exists rel, nm = map join_slash rel /\ s = map (app base) rel).
    { induction s as [|p s IH]; intros nm E; cbn [map sequence] in E; [injection E as <-; exists []; auto|].
      destruct (strip_prefix base p) as [r|] eqn:R; cbn [bind] in E; [|discriminate].
      match type of E with context [sequence ?m] => destruct (sequence m) as [nm'|] eqn:Q end; cbn [bind] in E; [|discriminate]. injection E as <-.
      destruct (IH nm' eq_refl) as (rel & -> & ->). exists (r :: rel). split; [reflexivity|]. cbn [map]. f_equal. apply strip_prefix_some. exact R. }
    destruct (G _ _ H) as (rel & -> & E). exists rel. split; [reflexivity|]. rewrite <- E. split; [exact P|].
    revert SO. generalize (sort (lex slt String.eqb) (tars ++ tgzs)). clear. induction l as [|x l IH]; intros S; constructor; inversion S; subst; auto.
    eapply Forall_impl; [|eassumption]. intros y Hy B. cbn beta in Hy.
    assert (X : lex slt String.eqb y x = true); [|congruence]. rewrite lex_iff by apply String.eqb_eq. revert B. apply before_ext.
    intros u v. unfold slt, str_before. rewrite lex_iff by apply Ascii.eqb_eq. apply before_ext. intros c d. apply Nat.ltb_lt.
  - intros tars' tgzs' P. unfold shard_list in *. rewrite <- (sort_perm LT P). exact H.
Qed.
Print Assumptions C80_shard_order.
Example C80_shard_order_nonvacuous :
  shard_list ["data"] [["data"; "b.tar"]; ["data"; "a"; "z.tar"]; ["data"; "a-b"; "x.tar"]] [["data"; "B.tgz"]] = Ok ["B.tgz"; "a/z.tar"; "a-b/x.tar"; "b.tar"].
Proof. vm_compute. reflexivity. Qed.
