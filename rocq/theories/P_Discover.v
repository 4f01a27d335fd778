(** C72 Paths are ordered values, and `energon prepare` finds the tar files in one order. *)
From Coq Require Import String Ascii Permutation Sorting.Sorted.
From Verif Require Import Base Epath EpathProofs Discover P_Epath.
Local Open Scope string_scope.
Local Open Scope list_scope.
Local Open Scope nat_scope.

(** * Specification *)

(** dictionary order of names *)
Inductive name_before : string -> string -> Prop :=
| nb_end c t : name_before "" (String c t)
| nb_char c d s t : nat_of_ascii c < nat_of_ascii d -> name_before (String c s) (String d t)
| nb_same c s t : name_before s t -> name_before (String c s) (String c t).

(** dictionary order of paths, component by component *)
Inductive before : list string -> list string -> Prop :=
| b_end y b : before [] (y :: b)
| b_name x y a b : name_before x y -> before (x :: a) (y :: b)
| b_same x a b : before a b -> before (x :: a) (x :: b).

(** the two paths lie on the same file system *)
Definition same_fs (a b : epath) : Prop :=
  e_fs a = e_fs b /\ e_proto a = e_proto b /\ fs_path a = fs_path b.

(** a directory that `energon prepare` can be called with: absolute, made of names, without ".." *)
Definition plain_parts (l : list string) : Prop := Forall part_ok l /\ ~ In ".." l.
Definition directory (a : epath) : Prop :=
  p_abs (e_path a) = true /\ plain_parts (p_parts (e_path a)) /\ (e_proto a = PRclone -> p_parts (e_path a) <> []).

(** what the file system calls the file [rel] below directory [a] *)
Definition reported (a : epath) (rel : list string) : string :=
  match e_proto a with
  | PLocal => ("/" ++ join_slash (p_parts (e_path a) ++ rel))%string
  | PRclone => join_slash (tl (p_parts (e_path a)) ++ rel)
  end.

(** the file system holds exactly the tar files [tars] and [tgzs] below [a], listed in this order *)
Definition lists (fsglob : string -> list string) (a : epath) (tars tgzs : list (list string)) : Prop :=
  fsglob (reported a ["**"; "*.tar"]) = map (reported a) tars /\
  fsglob (reported a ["**"; "*.tgz"]) = map (reported a) tgzs.

Definition in_order (l : list (list string)) : Prop := StronglySorted (fun x y => x = y \/ before x y) l.

(** * Order of names *)

Lemma eqb_iff c d : Ascii.eqb c d = true <-> c = d.
Proof. apply Ascii.eqb_eq. Qed.

Lemma code_inj c d : nat_of_ascii c = nat_of_ascii d -> c = d.
Proof. intros H. rewrite <- (ascii_nat_embedding c), <- (ascii_nat_embedding d), H. reflexivity. Qed.

Lemma str_lt_iff a : forall b, str_lt a b = true <-> name_before a b.
Proof.
  induction a as [|c a IH]; intros [|d b]; cbn [str_lt].
  - split; [discriminate|inversion 1].
  - split; [constructor|reflexivity].
  - split; [discriminate|inversion 1].
  - destruct (Ascii.eqb c d) eqn:E.
    + apply eqb_iff in E. subst d. rewrite IH. split; [apply nb_same|]. inversion 1; subst; [lia|assumption].
    + rewrite Nat.ltb_lt. split; [apply nb_char|]. inversion 1; subst; [assumption|].
      exfalso. assert (Ascii.eqb d d = true) by (apply eqb_iff; reflexivity). congruence.
Qed.

Lemma name_irrefl a : ~ name_before a a.
Proof. induction a as [|c a IH]; inversion 1; subst; [lia|auto]. Qed.

Lemma name_trans a b c : name_before a b -> name_before b c -> name_before a c.
Proof.
  intros H. revert c. induction H as [d t|x y s t HN|x s t H IH]; intros r H2; inversion H2; subst.
  - constructor.
  - constructor.
  - apply nb_char. lia.
  - apply nb_char. exact HN.
  - apply nb_char. assumption.
  - apply nb_same. apply IH. assumption.
Qed.

Lemma name_total a : forall b, name_before a b \/ a = b \/ name_before b a.
Proof.
  induction a as [|c a IH]; intros [|d b]; auto.
  - left. constructor.
  - right. right. constructor.
  - destruct (Nat.lt_trichotomy (nat_of_ascii c) (nat_of_ascii d)) as [H|[H|H]].
    + left. apply nb_char. exact H.
    + apply code_inj in H. subst d. destruct (IH b) as [H|[-> |H]]; [left; apply nb_same; exact H|auto|right; right; apply nb_same; exact H].
    + right. right. apply nb_char. exact H.
Qed.

(** * Order of paths *)

Lemma parts_lt_iff a : forall b, parts_lt a b = true <-> before a b.
Proof.
  induction a as [|x a IH]; intros [|y b]; cbn [parts_lt].
  - split; [discriminate|inversion 1].
  - split; [constructor|reflexivity].
  - split; [discriminate|inversion 1].
  - destruct (String.eqb x y) eqn:E.
    + apply String.eqb_eq in E. subst y. rewrite IH. split; [apply b_same|].
      inversion 1; subst; [exfalso; eapply name_irrefl; eassumption|assumption].
    + rewrite str_lt_iff. split; [apply b_name|]. inversion 1; subst; [assumption|].
      exfalso. rewrite String.eqb_refl in E. discriminate.
Qed.

Lemma before_irrefl a : ~ before a a.
Proof. induction a as [|x a IH]; inversion 1; subst; [eapply name_irrefl; eassumption|auto]. Qed.

Lemma before_trans a b c : before a b -> before b c -> before a c.
Proof.
  intros H. revert c. induction H as [y b|x y a b HN|x a b H IH]; intros r H2; inversion H2; subst.
  - constructor.
  - constructor.
  - apply b_name. eapply name_trans; eassumption.
  - apply b_name. exact HN.
  - apply b_name. assumption.
  - apply b_same. apply IH. assumption.
Qed.

Lemma before_total a : forall b, before a b \/ a = b \/ before b a.
Proof.
  induction a as [|x a IH]; intros [|y b]; auto.
  - left. constructor.
  - right. right. constructor.
  - destruct (name_total x y) as [H|[-> |H]]; [left; apply b_name; exact H| |right; right; apply b_name; exact H].
    destruct (IH b) as [H|[-> |H]]; [left; apply b_same; exact H|auto|right; right; apply b_same; exact H].
Qed.

Lemma before_app p a b : before (p ++ a) (p ++ b) <-> before a b.
Proof.
  induction p as [|x p IH]; [reflexivity|]. cbn [app]. rewrite <- IH. split; [|apply b_same].
  inversion 1; subst; [exfalso; eapply name_irrefl; eassumption|assumption].
Qed.

Lemma opt_eqb_iff a b : opt_eqb a b = true <-> a = b.
Proof.
  destruct a, b; cbn; try (split; congruence). rewrite String.eqb_eq. split; congruence.
Qed.
Lemma proto_eqb_iff a b : proto_eqb a b = true <-> a = b.
Proof. destruct a, b; cbn; split; congruence. Qed.
Lemma same_fs_part_iff a b : same_fs_part a b = true <-> fs_path a = fs_path b.
Proof.
  assert (L : forall p : epath, length (fs_path p) <= 1).
  { intros p. unfold fs_path. destruct (e_proto p); [cbn; lia|]. rewrite firstn_length. lia. }
  unfold same_fs_part. pose proof (L a) as La. pose proof (L b) as Lb.
  destruct (fs_path a) as [|x [|? ?]], (fs_path b) as [|y [|? ?]]; cbn [length] in La, Lb; try lia; try (split; congruence).
  rewrite String.eqb_eq. split; congruence.
Qed.

(** [a < b] raises on different file systems; otherwise it says whether [a] precedes [b] *)
Theorem C72_less_than a b :
  (same_fs a b -> exists x, elt a b = Ok x /\ (x = true <-> before (all_parts (e_path a)) (all_parts (e_path b)))) /\
  (~ same_fs a b -> elt a b = Err AssertionError).
Proof.
  unfold elt, same_fs. split.
  - intros (H1 & H2 & H3). apply opt_eqb_iff in H1. apply proto_eqb_iff in H2. apply same_fs_part_iff in H3.
    rewrite H1, H2, H3. cbn [negb]. eexists. split; [reflexivity|]. apply parts_lt_iff.
  - intros N. destruct (opt_eqb _ _) eqn:E1; [|reflexivity]. destruct (proto_eqb _ _) eqn:E2; [|reflexivity].
    destruct (same_fs_part a b) eqn:E3; [|reflexivity]. exfalso. apply N.
    apply opt_eqb_iff in E1. apply proto_eqb_iff in E2. apply same_fs_part_iff in E3. auto.
Qed.
Print Assumptions C72_less_than.

Lemma parts_eqb_iff a : forall b, parts_eqb a b = true <-> a = b.
Proof.
  induction a as [|x a IH]; intros [|y b]; cbn; try (split; congruence). rewrite andb_true_iff, String.eqb_eq, IH. split; [intros [-> ->]; reflexivity|intros [= -> ->]; auto].
Qed.

Lemma eeq_iff a b : eeq a b = true <-> e_path a = e_path b /\ e_proto a = e_proto b.
Proof.
  unfold eeq. rewrite !andb_true_iff, eqb_true_iff, parts_eqb_iff, proto_eqb_iff.
  destruct (e_path a) as [x l], (e_path b) as [y m]. cbn. split; [intros [[-> ->] ->]; auto|intros [[= -> ->] ->]; auto].
Qed.

Lemma name_ok_not_slash l : Forall part_ok l -> hd_error l <> Some "/".
Proof. intros H. destruct l as [|x l]; cbn; [discriminate|]. inversion H as [|? ? [HN _] _]; subst. intros [= ->]. discriminate. Qed.

Lemma all_parts_inj p q : Forall part_ok (p_parts p) -> Forall part_ok (p_parts q) -> all_parts p = all_parts q -> p = q.
Proof.
  intros Hp Hq. apply name_ok_not_slash in Hp. apply name_ok_not_slash in Hq. unfold all_parts.
  destruct p as [[|] l], q as [[|] m]; cbn [p_abs p_parts app] in *; intros E; try (injection E as ->; reflexivity); subst; try reflexivity;
    exfalso; cbn in *; congruence.
Qed.

(** On one file system, [<] is a strict total order that agrees with [==] *)
Theorem C72_strict_total_order a b c : same_fs a b -> same_fs b c ->
  Forall part_ok (p_parts (e_path a)) -> Forall part_ok (p_parts (e_path b)) ->
  elt a a = Ok false /\
  (elt a b = Ok true -> elt b c = Ok true -> elt a c = Ok true) /\
  (elt a b = Ok true -> elt b a = Ok false) /\
  (eeq a b = true <-> elt a b = Ok false /\ elt b a = Ok false).
Proof.
  intros F1 F2 Pa Pb.
  assert (SYM : forall x y, same_fs x y -> same_fs y x) by (unfold same_fs; intros x y (? & ? & ?); auto).
  assert (TR : forall x y z, same_fs x y -> same_fs y z -> same_fs x z) by (unfold same_fs; intros x y z (? & ? & ?) (? & ? & ?); repeat split; congruence).
  assert (G : forall x y, same_fs x y -> (elt x y = Ok true <-> before (all_parts (e_path x)) (all_parts (e_path y))) /\
                                          (elt x y = Ok false <-> ~ before (all_parts (e_path x)) (all_parts (e_path y)))).
  { intros x y H. destruct (proj1 (C72_less_than x y) H) as (r & -> & Hr). split.
    - rewrite <- Hr. split; congruence.
    - rewrite <- Hr. destruct r; split; congruence. }
  assert (F0 : same_fs a a) by (eapply TR; eauto).
  repeat split.
  - apply (G a a F0). apply before_irrefl.
  - intros H1 H2. apply (G a c); [eauto|]. apply (G a b F1) in H1. apply (G b c F2) in H2. eapply before_trans; eassumption.
  - intros H1. apply (G b a); [eauto|]. apply (G a b F1) in H1. intros H2. eapply before_irrefl. eapply before_trans; eassumption.
  - apply (G a b F1). apply eeq_iff in H. destruct H as [-> _]. apply before_irrefl.
  - apply (G b a (SYM _ _ F1)). apply eeq_iff in H. destruct H as [-> _]. apply before_irrefl.
  - intros [H1 H2]. apply (G a b F1) in H1. apply (G b a (SYM _ _ F1)) in H2. apply eeq_iff. split; [|apply F1].
    apply all_parts_inj; auto. destruct (before_total (all_parts (e_path a)) (all_parts (e_path b))) as [H|[H|H]]; tauto.
Qed.
Print Assumptions C72_strict_total_order.

(** [==] is an equivalence; equal paths have equal hashes; for absolute paths it is equality of the printed url *)
Theorem C72_equality a b c h :
  eeq a a = true /\ (eeq a b = true -> eeq b a = true) /\ (eeq a b = true -> eeq b c = true -> eeq a c = true) /\
  (eeq a b = true -> ehash h a = ehash h b).
Proof.
  rewrite !eeq_iff. unfold ehash. repeat split; intuition congruence.
Qed.
Print Assumptions C72_equality.

Theorem C72_equality_is_url remotes s t a b :
  epath_of remotes s = Ok a -> epath_of remotes t = Ok b -> p_abs (e_path a) = true -> p_abs (e_path b) = true ->
  (eeq a b = true <-> url a = url b).
Proof.
  intros Ha Hb Aa Ab. rewrite eeq_iff. split.
  - intros [E1 E2]. unfold url. rewrite E1, E2. reflexivity.
  - assert (W : forall x, p_abs (e_path x) = true -> exists u, url x = Ok u).
    { intros x Hx. unfold url. rewrite Hx. destruct (e_proto x); eauto. }
    destruct (W a Aa) as [u Hu]. intros E. rewrite Hu in E.
    assert (R : forall s x u, epath_of remotes s = Ok x -> url x = Ok u -> epath_of remotes u = Ok x).
    { intros s' x u' H1 H2. destruct (e_proto x) eqn:P; [eapply C43_url_roundtrip_local|eapply C43_url_roundtrip_rclone]; eassumption. }
    pose proof (R _ _ _ Ha Hu) as R1. pose proof (R _ _ _ Hb (eq_sym E)) as R2. rewrite R1 in R2. injection R2 as ->. auto.
Qed.
Print Assumptions C72_equality_is_url.

(** the parent of a file in a directory is the directory *)
Theorem C72_parent_of_join a name q : p_abs (e_path a) = true -> ~ In ".." (p_parts (e_path a)) -> name <> ".." ->
  ejoin a (mkEP (mkP false [name]) PLocal None) = Ok q -> eparent q = a.
Proof.
  intros A N D. unfold ejoin, pjoin. cbn [e_path p_abs p_parts]. rewrite A, resolve_eq, (@resolve_loop_plain _ []).
  - cbn [bind rev app]. intros [= <-]. unfold eparent. cbn [e_path p_abs p_parts e_proto e_fs]. rewrite removelast_last.
    destruct a as [[ab l] pr f]. cbn in *. subst. reflexivity.
  - apply Forall_app. split; [|repeat constructor; exact D]. apply Forall_forall. intros x I E. subst. auto.
Qed.
Print Assumptions C72_parent_of_join.

(** but the parent of a remote's root is a path whose url cannot be read back *)
Theorem C72_parent_refuted : exists remotes a u, epath_of remotes "rclone://alpha" = Ok a /\
  url (eparent a) = Ok u /\ u = "rclone://" /\
  exists b, epath_of remotes u = Ok b /\ e_proto b = PLocal /\ p_abs (e_path b) = false.
Proof. exists ["alpha"]. eexists _, _. repeat split; try (vm_compute; reflexivity). eexists. repeat split; vm_compute; reflexivity. Qed.
Print Assumptions C72_parent_refuted.

(** * Finding the tar files *)

Lemma each_map {A B C : Type} (f : B -> result C) (g : A -> B) (h : A -> C) l :
  Forall (fun x => f (g x) = Ok (h x)) l -> each f (map g l) = Ok (map h l).
Proof. induction 1 as [|x l H _ IH]; [reflexivity|]. cbn [map each]. rewrite H. cbn [bind]. rewrite IH. reflexivity. Qed.

(** the path of the file [rel] below [a] *)
Definition file (a : epath) (rel : list string) : epath := mkEP (mkP true (p_parts (e_path a) ++ rel)) (e_proto a) (e_fs a).

Lemma parse_join_rel l : l <> [] -> Forall part_ok l -> parse (join_slash l) = mkP false l.
Proof.
  intros N H. unfold parse. rewrite split_join; [|exact N|eapply Forall_impl; [|exact H]; intros x Hx; apply Hx].
  rewrite filter_keep by exact H. f_equal. destruct l as [|x l]; [congruence|]. inversion H as [|? ? [H1 H2] _]; subst.
  destruct x as [|c x]; [discriminate|]. apply no_slash_cons in H1. destruct l; cbn [join_slash append]; apply H1.
Qed.

Lemma resolve_plain l : ~ In ".." l -> resolve (mkP true l) = Ok (mkP true l).
Proof.
  intros N. rewrite resolve_eq, (@resolve_loop_plain l []); [reflexivity|]. apply Forall_forall. intros x I E. subst. auto.
Qed.

Lemma plain_app a b : plain_parts a -> plain_parts b -> plain_parts (a ++ b).
Proof. intros [A1 A2] [B1 B2]. split; [apply Forall_app; auto|]. intros I. apply in_app_or in I. tauto. Qed.

Section Find.
  Variables (fsglob : string -> list string) (a : epath).
  Hypothesis HD : directory a.

  Lemma eglob_files pat rel rels : epath_of [] pat = Ok (mkEP (mkP false rel) PLocal None) ->
    plain_parts rel -> fsglob (reported a rel) = map (reported a) rels -> Forall (fun r => r <> [] /\ plain_parts r) rels ->
    eglob fsglob a pat = Ok (map (file a) rels).
  Proof.
    destruct HD as (HA & HP & HN). intros HE HR HG HF. unfold eglob. rewrite HA. cbn [negb]. rewrite HE. cbn [bind].
    unfold ejoin, pjoin. cbn [e_path p_abs p_parts]. rewrite HA. rewrite resolve_plain by (apply plain_app; assumption). cbn [bind].
    unfold nonfs_path. cbn [e_proto e_path p_parts].
    replace (match e_proto a with
             | PLocal => ("/" ++ join_slash (match e_proto a with PLocal => p_parts (e_path a) ++ rel | PRclone => tl (p_parts (e_path a) ++ rel) end))%string
             | PRclone => join_slash (match e_proto a with PLocal => p_parts (e_path a) ++ rel | PRclone => tl (p_parts (e_path a) ++ rel) end)
             end) with (reported a rel).
    2: { unfold reported. destruct (e_proto a); [reflexivity|]. destruct (p_parts (e_path a)); [exfalso; apply HN; reflexivity|reflexivity]. }
    rewrite HG. apply each_map. eapply Forall_impl; [|exact HF]. intros r [N P]. unfold reported, file.
    destruct (e_proto a) eqn:EP.
    - change ("/" ++ join_slash (p_parts (e_path a) ++ r))%string with (render (mkP true (p_parts (e_path a) ++ r))).
      rewrite parse_render_abs by (apply plain_app; assumption). cbn [p_abs]. rewrite resolve_plain by (apply plain_app; assumption). reflexivity.
    - unfold fs_path. rewrite EP. destruct (p_parts (e_path a)) as [|x l] eqn:EL; [exfalso; apply HN; reflexivity|].
      cbn [tl firstn]. destruct HP as [HP1 HP2]. inversion HP1; subst. destruct P as [P1 P2].
      rewrite parse_join_rel.
      + unfold pjoin. cbn [p_abs p_parts app]. rewrite resolve_plain; [reflexivity|].
        change (x :: l ++ r) with ((x :: l) ++ r). intros I. apply in_app_or in I. tauto.
      + destruct l; [exact N|discriminate].
      + apply Forall_app. auto.
  Qed.

  Lemma file_same_fs r s : r <> [] -> s <> [] -> same_fs (file a r) (file a s).
  Proof.
    intros Hr Hs. unfold same_fs, file, fs_path. cbn [e_fs e_proto e_path p_parts]. repeat split. destruct (e_proto a) eqn:E; [reflexivity|].
    destruct HD as (_ & _ & HN). destruct (p_parts (e_path a)); [exfalso; apply HN; auto|reflexivity].
  Qed.

  Lemma elt_file r s : r <> [] -> s <> [] -> elt (file a r) (file a s) = Ok (parts_lt r s).
  Proof.
    intros Hr Hs. destruct (proj1 (C72_less_than _ _) (file_same_fs Hr Hs)) as (x & -> & Hx). f_equal.
    unfold all_parts, file in Hx. cbn [e_path p_abs p_parts] in Hx.
    change (["/"] ++ p_parts (e_path a) ++ r) with (("/" :: p_parts (e_path a)) ++ r) in Hx.
    change (["/"] ++ p_parts (e_path a) ++ s) with (("/" :: p_parts (e_path a)) ++ s) in Hx.
    rewrite before_app, <- parts_lt_iff in Hx. clear - Hx. destruct x, (parts_lt r s); intuition congruence.
  Qed.

  Lemma einsert_files r rs : r <> [] -> Forall (fun x => x <> []) rs -> in_order rs ->
    exists rs', einsert (file a r) (map (file a) rs) = Ok (map (file a) rs') /\ Permutation rs' (r :: rs) /\ in_order rs'.
  Proof.
    intros N. induction rs as [|s rs IH]; intros F O.
    - exists [r]. split; [reflexivity|]. split; [reflexivity|]. repeat constructor.
    - inversion F as [|? ? Fs Frs]; subst. inversion O as [|? ? Ors Os]; subst. cbn [map einsert]. rewrite elt_file by assumption. cbn [bind].
      destruct (parts_lt r s) eqn:E.
      + exists (r :: s :: rs). split; [reflexivity|]. split; [reflexivity|]. apply parts_lt_iff in E.
        constructor; [exact O|]. constructor; [auto|]. eapply Forall_impl; [|exact Os]. cbn. intros x [<- |H]; [auto|]. right. eapply before_trans; eassumption.
      + destruct (IH Frs Ors) as (rs' & H1 & H2 & H3). rewrite H1. cbn [bind]. exists (s :: rs'). split; [reflexivity|].
        split; [rewrite H2; apply perm_swap|]. constructor; [exact H3|].
        assert (G : s = r \/ before s r).
        { destruct (before_total s r) as [H|[H|H]]; auto. apply parts_lt_iff in H. congruence. }
        eapply Permutation_Forall; [symmetry; exact H2|]. constructor; [exact G|exact Os].
  Qed.

  Lemma esort_files rs : forall acc, Forall (fun x => x <> []) rs -> Forall (fun x => x <> []) acc -> in_order acc ->
    exists rs', esort_into (map (file a) acc) (map (file a) rs) = Ok (map (file a) rs') /\ Permutation rs' (acc ++ rs) /\ in_order rs'.
  Proof.
    induction rs as [|r rs IH]; intros acc F Fa O.
    - exists acc. rewrite app_nil_r. split; [reflexivity|]. split; [reflexivity|exact O].
    - inversion F; subst. cbn [map esort_into]. destruct (@einsert_files r acc) as (acc' & H3 & H4 & H5); auto.
      rewrite H3. cbn [bind]. destruct (IH acc') as (rs' & G1 & G2 & G3); auto.
      + eapply Permutation_Forall; [symmetry; exact H4|]. constructor; assumption.
      + exists rs'. split; [exact G1|]. split; [|exact G3]. rewrite G2, H4. cbn [app]. apply Permutation_middle.
  Qed.

  Lemma rel_file r : r <> [] -> plain_parts r -> bind (erelative_to (file a r) a) (fun l => Ok (render (mkP false l))) = Ok (join_slash r).
  Proof.
    destruct HD as (HA & HP & HN). intros N P.
    rewrite (@C43_relative_to_join a (mkEP (mkP false r) PLocal None) (file a r)); auto; cbn [e_path p_parts p_abs]; auto.
    - cbn [bind]. unfold render. cbn [p_abs p_parts]. destruct r; [congruence|reflexivity].
    - apply HP.
    - apply P.
    - unfold ejoin, pjoin. cbn [e_path p_abs p_parts]. rewrite HA, resolve_plain by (apply plain_app; assumption). reflexivity.
  Qed.
End Find.

Lemma sorted_unique l : forall m, in_order l -> in_order m -> Permutation l m -> l = m.
Proof.
  unfold in_order. induction l as [|x l IH]; intros m Ol Om P; [apply Permutation_nil in P; auto|].
  destruct m as [|y m]; [apply Permutation_sym, Permutation_nil in P; discriminate|].
  inversion Ol as [|? ? Ol' Fx]; subst. inversion Om as [|? ? Om' Fy]; subst.
  assert (x = y) as ->.
  { assert (I1 : In x (y :: m)) by (eapply Permutation_in; [exact P|left; reflexivity]).
    assert (I2 : In y (x :: l)) by (eapply Permutation_in; [symmetry; exact P|left; reflexivity]).
    destruct I1 as [E|I1]; [auto|]. destruct I2 as [E|I2]; [auto|].
    rewrite Forall_forall in Fx, Fy. destruct (Fx _ I2) as [E|H1]; [auto|]. destruct (Fy _ I1) as [E|H2]; [auto|].
    exfalso. eapply before_irrefl. eapply before_trans; eassumption. }
  f_equal. apply IH; auto. eapply Permutation_cons_inv. exact P.
Qed.

(** `energon prepare` finds every tar file once, in dictionary order, however the file system lists them, and drops exactly the
    excluded ones *)
Theorem C72_discover fsglob a excl tars tgzs :
  directory a -> lists fsglob a tars tgzs -> Forall (fun r => r <> [] /\ plain_parts r) (tars ++ tgzs) ->
  exists rs, Permutation rs (tars ++ tgzs) /\ in_order rs /\
    discover fsglob a excl = Ok (filter (fun s => negb (excl s)) (map join_slash rs)).
Proof.
  intros HD [H1 H2] F. apply Forall_app in F. destruct F as [F1 F2].
  assert (ST : forall x, x = "*.tar" \/ x = "*.tgz" -> plain_parts ["**"; x]).
  { intros x [-> | ->]; (split; [repeat (apply Forall_cons; [split; reflexivity|]); apply Forall_nil|cbn; intuition discriminate]). }
  unfold discover.
  rewrite (@eglob_files fsglob a HD "**/*.tar" ["**"; "*.tar"] tars); auto. cbn [bind].
  rewrite (@eglob_files fsglob a HD "**/*.tgz" ["**"; "*.tgz"] tgzs); auto. cbn [bind].
  rewrite <- map_app. unfold esorted.
  assert (FA : Forall (fun r => r <> [] /\ plain_parts r) (tars ++ tgzs)) by (apply Forall_app; auto).
  destruct (@esort_files a HD (tars ++ tgzs) []) as (rs & S1 & S2 & S3); [|constructor|constructor|].
  { eapply Forall_impl; [|exact FA]. intros r Hr. apply Hr. }
  cbn [map app] in S1, S2. rewrite S1. cbn [bind].
  rewrite (@each_map _ _ _ (fun p => bind (erelative_to p a) (fun l => Ok (render (mkP false l)))) (file a) join_slash).
  - cbn [bind]. exists rs. auto.
  - eapply Permutation_Forall; [symmetry; exact S2|]. eapply Forall_impl; [|exact FA]. intros r [N P]. apply rel_file; assumption.
Qed.
Print Assumptions C72_discover.

(** so the list does not depend on the order of the listing *)
Theorem C72_order_independent fsglob fsglob' a excl tars tgzs tars' tgzs' :
  directory a -> lists fsglob a tars tgzs -> lists fsglob' a tars' tgzs' -> Permutation (tars ++ tgzs) (tars' ++ tgzs') ->
  Forall (fun r => r <> [] /\ plain_parts r) (tars ++ tgzs) ->
  discover fsglob a excl = discover fsglob' a excl.
Proof.
  intros HD L L' P F. destruct (@C72_discover fsglob a excl tars tgzs HD L F) as (rs & R1 & R2 & ->).
  assert (F' : Forall (fun r => r <> [] /\ plain_parts r) (tars' ++ tgzs')) by (eapply Permutation_Forall; eassumption).
  destruct (@C72_discover fsglob' a excl tars' tgzs' HD L' F') as (rs' & R1' & R2' & ->).
  rewrite (@sorted_unique rs rs'); auto. rewrite R1, R1'. exact P.
Qed.
Print Assumptions C72_order_independent.

(** the names written to the metadata lead back to the files: [a / name] is the file *)
Theorem C72_names_lead_back remotes a r : directory a -> r <> [] -> plain_parts r ->
  exists rel q, epath_of remotes (join_slash r) = Ok rel /\ ejoin a rel = Ok q /\
    p_abs (e_path q) = true /\ p_parts (e_path q) = p_parts (e_path a) ++ r /\ e_proto q = e_proto a /\ e_fs q = e_fs a.
Proof.
  intros (HA & HP & HN) N P. exists (mkEP (mkP false r) PLocal None), (file a r).
  assert (SP : split_protocol (join_slash r) = None).
  { destruct (split_protocol (join_slash r)) as [[pr rest]|] eqn:E; [exfalso|reflexivity].
    assert (G : forall s p t, split_protocol s = Some (p, t) -> In "" (split_slash s)).
    { clear. induction s as [|c s IH]; intros p t; cbn [split_protocol]; [discriminate|]. destruct (is_lower c) eqn:L; [|discriminate].
      assert (Ascii.eqb c "/" = false) as NC.
      { destruct (Ascii.eqb c "/") eqn:E; [|reflexivity]. apply Ascii.eqb_eq in E. subst. discriminate. }
      assert (REC : In "" (split_slash s) -> s = "" \/ In "" (tl (split_slash s)) \/ hd_error (split_slash s) = Some "").
      { destruct (split_slash s) as [|y l]; cbn; [tauto|]. intros [-> |I]; auto. }
      intros H. cbn [split_slash]. rewrite NC.
      destruct s as [|c1 s1]; [discriminate|].
      assert (K : (exists s3 d, String c1 s1 = String ":" (String "/" (String "/" (String d s3)))) \/
                  (exists p', split_protocol (String c1 s1) = Some (p', t))).
      { destruct (Ascii.eqb c1 ":") eqn:E1.
        - apply Ascii.eqb_eq in E1. subst c1. destruct s1 as [|c2 s2]; [right; cbn in H |- *; discriminate|].
          destruct (Ascii.eqb c2 "/") eqn:E2.
          + apply Ascii.eqb_eq in E2. subst c2. destruct s2 as [|c3 s3]; [right; discriminate|].
            destruct (Ascii.eqb c3 "/") eqn:E3.
            * apply Ascii.eqb_eq in E3. subst c3. destruct s3 as [|d s3]; [right; discriminate|]. left. eauto.
            * right. exfalso. destruct c3 as [[][][][][][][][]]; discriminate.
          + right. exfalso. destruct c2 as [[][][][][][][][]]; discriminate.
        - right. destruct (split_protocol (String c1 s1)) as [[p' t']|] eqn:E.
          + exists p'. destruct c1 as [[][][][][][][][]]; try discriminate; injection H as <- <-; reflexivity.
          + exfalso. destruct c1 as [[][][][][][][][]]; discriminate. }
      destruct K as [(s3 & d & ->)|(p' & K)].
      - destruct (split_slash (String d s3)) as [|y l] eqn:ES; [exfalso; eapply split_slash_nonnil; eassumption|].
        assert (X : split_slash (String ":" (String "/" (String "/" (String d s3)))) = ":" :: "" :: y :: l).
        { cbn [split_slash] in ES |- *. cbn [Ascii.eqb Bool.eqb]. destruct (Ascii.eqb d "/"); rewrite ES; reflexivity. }
        rewrite X. right. left. reflexivity.
      - pose proof (IH _ _ K) as I. destruct (split_slash (String c1 s1)) as [|y l] eqn:ES; [destruct I|].
        destruct I as [E|I]; [|right; exact I]. subst y. exfalso. revert K ES. cbn [split_protocol split_slash].
        destruct (is_lower c1) eqn:L1; [|discriminate]. intros _. destruct (Ascii.eqb c1 "/") eqn:E2.
        + apply Ascii.eqb_eq in E2. subst c1. discriminate.
        + destruct (split_slash s1); discriminate. }
    apply G in E. destruct P as [P _]. rewrite split_join in E; [|exact N|eapply Forall_impl; [|exact P]; intros x Hx; apply Hx].
    rewrite Forall_forall in P. destruct (P _ E) as [_ K]. discriminate. }
  unfold epath_of. rewrite SP, parse_join_rel by (try exact N; apply P). split; [reflexivity|].
  unfold ejoin, pjoin. cbn [e_path p_abs p_parts]. rewrite HA, resolve_plain by (apply plain_app; assumption). cbn [bind].
  unfold file. cbn. auto 10.
Qed.
Print Assumptions C72_names_lead_back.

(** A directory given with "..", as in `energon prepare ../data`, is not found again among its own files: the command fails
    whenever there is a tar file (the files come back without "..", and relative_to raises) *)
Definition dotdot_dir : epath := eabsolute ["home"; "me"] (mkEP (parse "../data") PLocal None).
Theorem C72_dotdot_refuted fsglob excl :
  fsglob "/home/data/**/*.tar" = ["/home/data/x.tar"] -> fsglob "/home/data/**/*.tgz" = [] ->
  epath_of [] "../data" = Ok (mkEP (parse "../data") PLocal None) /\ discover fsglob dotdot_dir excl = Err ValueError.
Proof.
  intros H1 H2. split; [reflexivity|].
  assert (G1 : eglob fsglob dotdot_dir "**/*.tar" = Ok [mkEP (mkP true ["home"; "data"; "x.tar"]) PLocal None]).
  { change (eglob fsglob dotdot_dir "**/*.tar") with
      (each (fun s => if p_abs (parse s) then bind (resolve (parse s)) (fun p => Ok (mkEP p PLocal None)) else Err AssertionError)
            (fsglob "/home/data/**/*.tar")). rewrite H1. vm_compute. reflexivity. }
  assert (G2 : eglob fsglob dotdot_dir "**/*.tgz" = Ok []).
  { change (eglob fsglob dotdot_dir "**/*.tgz") with
      (each (fun s => if p_abs (parse s) then bind (resolve (parse s)) (fun p => Ok (mkEP p PLocal None)) else Err AssertionError)
            (fsglob "/home/data/**/*.tgz")). rewrite H2. reflexivity. }
  unfold discover. rewrite G1, G2. reflexivity.
Qed.
Print Assumptions C72_dotdot_refuted.

Lemma each_forall {A B : Type} (f : A -> result B) (Q : B -> Prop) : (forall x y, f x = Ok y -> Q y) ->
  forall l r, each f l = Ok r -> Forall Q r.
Proof.
  intros H. induction l as [|x l IH]; cbn [each]; intros r E; [injection E as <-; constructor|].
  destruct (f x) as [y|] eqn:E1; cbn [bind] in E; [|discriminate]. destruct (each f l) as [r'|]; cbn [bind] in E; [|discriminate].
  injection E as <-. constructor; eauto.
Qed.

Lemma einsert_perm x : forall l r, einsert x l = Ok r -> Permutation r (x :: l).
Proof.
  induction l as [|y l IH]; cbn [einsert]; intros r E; [injection E as <-; reflexivity|].
  destruct (elt x y) as [[|]|]; cbn [bind] in E; [injection E as <-; reflexivity| |discriminate].
  destruct (einsert x l) as [r'|]; cbn [bind] in E; [|discriminate]. injection E as <-. rewrite (IH _ eq_refl). apply perm_swap.
Qed.

Lemma esort_perm l : forall acc r, esort_into acc l = Ok r -> Permutation r (l ++ acc).
Proof.
  induction l as [|x l IH]; cbn [esort_into]; intros acc r E; [injection E as <-; reflexivity|].
  destruct (einsert x acc) as [acc'|] eqn:E1; cbn [bind] in E; [|discriminate]. rewrite (IH _ _ E).
  rewrite (einsert_perm E1). symmetry. apply Permutation_middle.
Qed.

Lemma strip_prefix_app a : forall b l, strip_prefix a b = Some l -> b = a ++ l.
Proof.
  induction a as [|x a IH]; intros b l E; cbn [strip_prefix] in E; [injection E as ->; reflexivity|].
  destruct b as [|y b]; [discriminate|]. destruct (String.eqb x y) eqn:Q; [|discriminate]. apply String.eqb_eq in Q. subst.
  cbn [app]. f_equal. auto.
Qed.

(** in general: no tar file is ever found below a local directory given with ".." - if the command comes through at all, the file
    system listed nothing *)
Theorem C72_dotdot_finds_nothing fsglob a excl names :
  e_proto a = PLocal -> In ".." (p_parts (e_path a)) -> discover fsglob a excl = Ok names ->
  names = [] /\ eglob fsglob a "**/*.tar" = Ok [] /\ eglob fsglob a "**/*.tgz" = Ok [].
Proof.
  intros HP HI H. unfold discover in H.
  assert (G : forall pat t, eglob fsglob a pat = Ok t -> Forall (fun p => ~ In ".." (p_parts (e_path p))) t).
  { intros pat t E. unfold eglob in E. destruct (negb (p_abs (e_path a))); [discriminate|].
    destruct (epath_of [] pat) as [rel|]; cbn [bind] in E; [|discriminate].
    destruct (ejoin a rel) as [q|]; cbn [bind] in E; [|discriminate]. rewrite HP in E. revert E. apply each_forall.
    intros x y E. destruct (p_abs (parse x)) eqn:A; [|discriminate]. destruct (parse x) as [ab l]. cbn in A. subst ab.
    pose proof (C43_resolve_normalises l) as R. destruct (resolve (mkP true l)) as [p|]; cbn [bind] in E; [|discriminate].
    injection E as <-. apply R. }
  destruct (eglob fsglob a "**/*.tar") as [t1|] eqn:E1; cbn [bind] in H; [|discriminate].
  destruct (eglob fsglob a "**/*.tgz") as [t2|] eqn:E2; cbn [bind] in H; [|discriminate].
  apply G in E1, E2. unfold esorted in H. destruct (esort_into [] (t1 ++ t2)) as [ts|] eqn:ES; cbn [bind] in H; [|discriminate].
  apply esort_perm in ES. rewrite app_nil_r in ES.
  destruct ts as [|p ts].
  - cbn [each bind filter] in H. injection H as <-. apply Permutation_nil in ES. apply app_eq_nil in ES as [-> ->]. auto.
  - exfalso. assert (N : ~ In ".." (p_parts (e_path p))).
    { assert (I : In p (t1 ++ t2)) by (eapply Permutation_in; [exact ES|left; reflexivity]). rewrite Forall_forall in E1, E2.
      apply in_app_or in I as [I|I]; auto. }
    cbn [each] in H. destruct (erelative_to p a) as [l|] eqn:ER; cbn [bind] in H; [|discriminate]. apply N.
    unfold erelative_to in ER.
    repeat match type of ER with (if ?c then _ else _) = _ => destruct c; [discriminate|] end.
    destruct (strip_prefix (p_parts (e_path a)) (p_parts (e_path p))) as [l'|] eqn:SPX; [|discriminate].
    rewrite (strip_prefix_app SPX). apply in_or_app. left. exact HI.
Qed.
Print Assumptions C72_dotdot_finds_nothing.

(** two paths can be equal although they name files of different remotes: joining ".." leaves the remote of the first path in place *)
Theorem C72_equal_other_remote_refuted : exists remotes base rel q b,
  epath_of remotes "rclone://alpha/data" = Ok base /\ epath_of remotes "../../beta/x" = Ok rel /\ ejoin base rel = Ok q /\
  epath_of remotes "rclone://beta/x" = Ok b /\ eeq q b = true /\ e_fs q <> e_fs b /\ elt q b = Err AssertionError.
Proof. exists ["alpha"; "beta"]. eexists _, _, _, _. repeat split; try (vm_compute; reflexivity). vm_compute. discriminate. Qed.
Print Assumptions C72_equal_other_remote_refuted.

Definition ex_dir : epath := mkEP (mkP true ["data"]) PLocal None.
Definition ex_glob (s : string) : list string :=
  if String.eqb s "/data/**/*.tar" then ["/data/b/0.tar"; "/data/a.tar"] else if String.eqb s "/data/**/*.tgz" then ["/data/b.tgz"] else [].
Example C72_nonvacuous :
  directory ex_dir /\ lists ex_glob ex_dir [["b"; "0.tar"]; ["a.tar"]] [["b.tgz"]] /\
  discover ex_glob ex_dir (fun _ => false) = Ok ["a.tar"; "b/0.tar"; "b.tgz"] /\
  discover ex_glob ex_dir (String.eqb "b/0.tar") = Ok ["a.tar"; "b.tgz"] /\
  elt (mkEP (parse "/a") PLocal None) (mkEP (parse "/a/b") PLocal None) = Ok true.
Proof.
  split.
  { split; [reflexivity|]. split; [|discriminate]. split; [repeat (apply Forall_cons; [split; reflexivity|]); apply Forall_nil|cbn; intuition discriminate]. }
  split; [split; reflexivity|]. repeat split; vm_compute; reflexivity.
Qed.
