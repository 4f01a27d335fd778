(** C63: preparing a dataset, and being interrupted. *)
From Coq Require Import String Ascii.
From Verif Require Import Base PyFloat PyFloatProofs PyFloatMono Files FilesProofs P_Files Tar TarSpec TarProofs P_Tar Split P_Splits PrepareRun.
From Verif Require Prepare P_Prepare.
Local Open Scope string_scope.
Local Open Scope list_scope.
Local Open Scope nat_scope.

(** ** Names *)
(** x.tar, in any directory *)
Definition tar_name (n : string) : Prop := exists x, n = (x ++ ".tar")%string /\ x <> "" /\ forall y, x <> (y ++ "/")%string.

Lemma cut_tar x : forall b, (x <> "" \/ b = false) -> (forall y, x <> (y ++ "/")%string) -> cut_suffix b (x ++ ".tar") = Some x.
Proof.
  induction x as [|c x IH]; intros b HB HS.
  - destruct HB as [HB | ->]; [congruence|]. reflexivity.
  - cbn [append cut_suffix]. rewrite IH; [reflexivity| |].
    + destruct x as [|c' x]; [|left; discriminate]. right. destruct (Ascii.eqb_spec c "/") as [->|]; [|reflexivity]. exfalso. now apply (HS "").
    + intros y E. apply (HS (String c y)). cbn. now rewrite E.
Qed.
Lemma stem_tar x : x <> "" -> (forall y, x <> (y ++ "/")%string) -> stem (x ++ ".tar") = x.
Proof. intros A B. unfold stem. now rewrite (@cut_tar x true (or_introl A) B). Qed.
Lemma stem_inj a b : tar_name a -> tar_name b -> stem a = stem b -> a = b.
Proof. intros (x & -> & A1 & A2) (y & -> & B1 & B2). rewrite !stem_tar by assumption. now intros ->. Qed.

(** the rule of pathlib's with_suffix, on its own: what is cut off is the last dot and a non-empty text without dots and slashes, when
    something of the file's name is left *)
Definition suffix_text (x : string) : Prop :=
  x <> "" /\ (forall a b, x <> (a ++ String "/" b)%string) /\ (forall a b, x <> (a ++ String "." b)%string).
Definition splits_off (s p x : string) : Prop :=
  s = (p ++ String "." x)%string /\ suffix_text x /\ p <> "" /\ (forall y, p <> (y ++ "/")%string).

Lemma has_char_no c x : has_char c x = false <-> forall a b, x <> (a ++ String c b)%string.
Proof.
  unfold has_char. induction x as [|d x IH]; cbn [cut].
  - split; [|reflexivity]. intros _ [|? ?] b; discriminate.
  - unfold ceqb. destruct (Ascii.eqb_spec d c) as [->|NE].
    + split; [discriminate|]. intros H. exfalso. now apply (H "" x).
    + destruct (cut c x) as [[? ?]|].
      * split; [discriminate|]. intros H. apply IH. intros a b ->. now apply (H (String d a) b).
      * split; [|reflexivity]. intros _ [|e a] b E; injection E as E1 E2; [congruence|]. subst. now apply (proj1 IH eq_refl a b).
Qed.

Lemma cut_suffix_spec s : forall b p, cut_suffix b s = Some p <->
  exists x, s = (p ++ String "." x)%string /\ suffix_text x /\ (p = "" -> b = false) /\ (forall y, p <> (y ++ "/")%string).
Proof.
  induction s as [|c s IH]; intros b p; cbn [cut_suffix].
  - split; [discriminate|]. intros (x & E & _). destruct p; discriminate.
  - destruct (cut_suffix (Ascii.eqb c "/") s) as [p'|] eqn:EC.
    + split.
      * intros [= <-]. apply IH in EC as (x & -> & SX & HB & HS). exists x. split; [reflexivity|]. split; [exact SX|]. split; [discriminate|].
        intros [|d y] E; cbn in E; injection E as E1 E2; [|now apply (HS y)]. subst. now specialize (HB eq_refl).
      * intros (x & E & SX & HB & HS). destruct p as [|d p]; cbn in E; injection E as E1 E2.
        -- exfalso. apply IH in EC as (x' & -> & _). subst x. destruct SX as (_ & _ & SX). now apply (SX p' x').
        -- subst d. f_equal. f_equal. enough (Some p' = Some p) by congruence. rewrite <- EC. apply IH. exists x. split; [exact E2|]. split; [exact SX|]. split.
           ++ intros ->. destruct (Ascii.eqb_spec c "/") as [->|]; [|reflexivity]. exfalso. now apply (HS "").
           ++ intros y ->. now apply (HS (String c y)).
    + split.
      * intros H. destruct (Ascii.eqb_spec c "."%char) as [->|]; [|discriminate]. destruct b; [discriminate|]. cbn [andb negb] in H.
        destruct (String.eqb_spec s "") as [|NE]; [discriminate|]. cbn [andb negb] in H.
        destruct (has_char "/" s) eqn:H1; [discriminate|]. destruct (has_char "." s) eqn:H2; [discriminate|]. injection H as <-.
        exists s. split; [reflexivity|]. split; [split; [exact NE|split; now apply has_char_no]|]. split; [auto|]. intros [|? ?]; discriminate.
      * intros (x & E & SX & HB & HS). destruct p as [|d p]; cbn in E; injection E as E1 E2.
        -- subst. destruct SX as (X1 & X2 & X3). rewrite (HB eq_refl). rewrite <- has_char_no in X2, X3. rewrite X2, X3.
           destruct (String.eqb_spec x "") as [|_]; [contradiction|]. reflexivity.
        -- exfalso. subst d. enough (cut_suffix (Ascii.eqb c "/") s = Some p) by congruence. apply IH. exists x. split; [exact E2|]. split; [exact SX|]. split.
           ++ intros ->. destruct (Ascii.eqb_spec c "/") as [->|]; [|reflexivity]. exfalso. now apply (HS "").
           ++ intros y ->. now apply (HS (String c y)).
Qed.

Theorem C63_index_name s : (forall p x, splits_off s p x -> stem s = p) /\ ((forall p x, ~ splits_off s p x) -> stem s = s).
Proof.
  unfold stem. split.
  - intros p x (-> & SX & NE & HS). enough (cut_suffix true (p ++ String "." x) = Some p) as -> by reflexivity.
    apply cut_suffix_spec. exists x. split; [reflexivity|]. split; [exact SX|]. split; [congruence|exact HS].
  - intros H. destruct (cut_suffix true s) as [p|] eqn:E; [|reflexivity]. exfalso. apply cut_suffix_spec in E as (x & -> & SX & HB & HS).
    apply (H p x). split; [reflexivity|]. split; [exact SX|]. split; [|exact HS]. intros ->. now specialize (HB eq_refl).
Qed.
Print Assumptions C63_index_name.
Example C63_index_name_nonvacuous : splits_off "a/b.c.tar" "a/b.c" "tar" /\ stem "a/.tar" = "a/.tar" /\ stem "a.d/b" = "a.d/b".
Proof.
  split; [|split; reflexivity]. split; [reflexivity|]. split; [split; [discriminate|split; apply has_char_no; reflexivity]|]. split; [discriminate|].
  intros y E. assert (F : has_char "/" (y ++ "/")%string = true) by (destruct (has_char "/" (y ++ "/")%string) eqn:Q; [reflexivity|]; rewrite has_char_no in Q; now specialize (Q y "")).
  destruct y as [|c1 [|c2 [|c3 [|c4 [|c5 [|c6 y]]]]]]; cbn in E; try discriminate. 
Qed.

(** ** Effects *)
Definition proj (s : string) (l : list op) : list fsop :=
  flat_map (fun o => match o with OIdx t x => if String.eqb s t then [x] else [] | _ => [] end) l.
Lemma proj_app s a b : proj s (a ++ b) = proj s a ++ proj s b.
Proof. apply flat_map_app. Qed.
Lemma effects_idx l : forall d s, d_idx (effects l d) s = fs_runs (proj s l) (d_idx d s).
Proof.
  induction l as [|o l IH]; intros d s; [reflexivity|]. unfold effects in *. cbn [fold_left]. rewrite IH. destruct o as [t x|m|m b]; cbn [step d_idx proj flat_map]; try reflexivity.
  destruct (String.eqb_spec s t) as [->|]; cbn [app]; reflexivity.
Qed.
Lemma effects_app a b d : effects (a ++ b) d = effects b (effects a d).
Proof. apply fold_left_app. Qed.
Definition only_idx (l : list op) : Prop := Forall (fun o => exists s x, o = OIdx s x) l.
Lemma effects_file_idx l : only_idx l -> forall d m, d_file (effects l d) m = d_file d m.
Proof. induction 1 as [|o l (s & x & ->) H IH]; intros d m; [reflexivity|]. unfold effects in *. cbn [fold_left]. now rewrite IH. Qed.
Lemma proj_write s m pi : proj s (write_file m pi) = [].
Proof. unfold write_file. cbn [proj flat_map app]. induction pi as [|b pi IH]; [reflexivity|]. exact IH. Qed.
Lemma Forall_firstn' {A} (P : A -> Prop) l : forall k, Forall P l -> Forall P (firstn k l).
Proof. induction l as [|x l IH]; intros [|k] H; try constructor; inversion H; subst; auto. Qed.
Definition touches (m : mfile) (o : op) : Prop := match o with OIdx _ _ => False | OOpen n | OWrite n _ => n = m end.
Lemma effects_untouched m l : Forall (fun o => ~ touches m o) l -> forall d, d_file (effects l d) m = d_file d m.
Proof.
  induction 1 as [|o l H _ IH]; intros d; [reflexivity|]. unfold effects in *. cbn [fold_left]. rewrite IH. destruct o as [s x|n|n b]; cbn in *; [reflexivity| |];
  (destruct (mfile_eqb m n) eqn:E; [|reflexivity]; exfalso; apply H; destruct m, n; (reflexivity || discriminate)).
Qed.
Lemma write_untouched m n pi : n <> m -> Forall (fun o => ~ touches m o) (write_file n pi).
Proof. intros N. constructor; [exact N|]. induction pi as [|b pi IH]; constructor; [exact N|exact IH]. Qed.
Lemma mfile_refl m : mfile_eqb m m = true.
Proof. now destruct m. Qed.
Lemma write_done m pi d : d_file (effects (write_file m pi) d) m = Some (concat pi).
Proof.
  unfold write_file, effects. cbn [fold_left].
  assert (G : forall pi d c, d_file d m = Some c -> d_file (fold_left step (map (OWrite m) pi) d) m = Some (c ++ concat pi)).
  { clear. induction pi as [|b pi IH]; intros d c E; cbn [map fold_left concat]; [now rewrite app_nil_r|].
    rewrite (IH _ (c ++ b)); [now rewrite app_assoc|]. cbn [step d_file]. rewrite mfile_refl, E. reflexivity. }
  rewrite (G pi _ []); [reflexivity|]. cbn [step d_file]. now rewrite mfile_refl.
Qed.

(** ** The pool *)
Lemma nth_mid {A} (a b : list A) x j : nth_error (a ++ x :: b) j = if j =? List.length a then Some x else if j <? List.length a then nth_error a j else nth_error b (j - List.length a - 1).
Proof.
  destruct (Nat.eqb_spec j (List.length a)) as [->|N]; [rewrite nth_error_app2 by lia; now rewrite Nat.sub_diag|].
  destruct (Nat.ltb_spec j (List.length a)) as [L|L]; [now rewrite nth_error_app1 by lia|]. rewrite nth_error_app2 by lia.
  destruct (j - List.length a) as [|q] eqn:E; [lia|]. cbn [nth_error]. f_equal. lia.
Qed.
Lemma interleaved_proj s ls t : interleaved ls t ->
  (forall i l, nth_error ls i = Some l -> (forall j l', j <> i -> nth_error ls j = Some l' -> proj s l' = []) -> proj s t = proj s l) /\
  ((forall l, In l ls -> proj s l = []) -> proj s t = []).
Proof.
  induction 1 as [ls F|a x l b t H [IH1 IH2]].
  - split; [|reflexivity]. intros i l E _. apply nth_error_In in E. rewrite Forall_forall in F. now rewrite <- (F l E).
  - assert (PX : forall m : list op, proj s (x :: m) = proj s [x] ++ proj s m) by (intros m; change (x :: m) with ([x] ++ m); apply proj_app).
    split.
    + intros i l0 E O. rewrite (PX t). destruct (Nat.eq_dec i (List.length a)) as [->|N].
      * rewrite nth_mid, Nat.eqb_refl in E. injection E as <-. rewrite (PX l). f_equal. apply (IH1 (List.length a)); [rewrite nth_mid, Nat.eqb_refl; reflexivity|].
        intros j l' NJ EJ. apply (O j l' NJ). rewrite nth_mid in EJ |- *. destruct (Nat.eqb_spec j (List.length a)); [congruence|exact EJ].
      * assert (Q : proj s (x :: l) = []) by (apply (O (List.length a)); [congruence|rewrite nth_mid, Nat.eqb_refl; reflexivity]).
        rewrite (PX l) in Q. apply app_eq_nil in Q. destruct Q as [Q1 Q2]. rewrite Q1. cbn [app]. apply (IH1 i).
        -- rewrite nth_mid in E |- *. destruct (Nat.eqb_spec i (List.length a)); [congruence|exact E].
        -- intros j l' NJ EJ. rewrite nth_mid in EJ. destruct (Nat.eqb_spec j (List.length a)) as [->|NJ']; [injection EJ as <-; exact Q2|].
           apply (O j l' NJ). rewrite nth_mid. destruct (Nat.eqb_spec j (List.length a)); [congruence|exact EJ].
    + intros A. rewrite (PX t). assert (Q : proj s (x :: l) = []) by (apply A; apply in_or_app; right; now left).
      rewrite (PX l) in Q. apply app_eq_nil in Q. destruct Q as [Q1 Q2]. rewrite Q1. apply IH2. intros l' I. apply in_app_iff in I. destruct I as [I|[<-|I]]; [apply A; apply in_or_app; now left|exact Q2|apply A; apply in_or_app; right; now right].
Qed.
Lemma interleaved_idx ls t : interleaved ls t -> Forall only_idx ls -> only_idx t.
Proof.
  induction 1 as [ls F|a x l b t H IH]; intros O; [constructor|]. apply Forall_app in O. destruct O as [Oa Ob]. inversion Ob as [|? ? Ol Ob']; subst. inversion Ol; subst.
  constructor; [assumption|]. apply IH. apply Forall_app. split; [assumption|]. constructor; assumption.
Qed.
Lemma proj_tagged s t l : proj s (map (OIdx t) l) = if String.eqb s t then l else [].
Proof. destruct (String.eqb_spec s t) as [->|N]; induction l as [|x l IH]; cbn; try reflexivity; [rewrite String.eqb_refl; cbn; now f_equal|]. apply String.eqb_neq in N. rewrite N. exact IH. Qed.
Lemma proj_firstn s l : forall k, exists j, proj s (firstn k l) = firstn j (proj s l) /\ (List.length l <= k -> List.length (proj s l) <= j).
Proof.
  induction l as [|o l IH]; intros [|k].
  - exists 0. split; [reflexivity|cbn; lia].
  - exists 0. split; [reflexivity|cbn; lia].
  - exists 0. split; [reflexivity|cbn; lia].
  - destruct (IH k) as (j & E & L). cbn [firstn proj flat_map]. fold (proj s (firstn k l)). fold (proj s l).
    destruct o as [t x|m|m b]; [destruct (String.eqb s t)|..].
    + exists (S j). cbn [app firstn]. rewrite E. split; [reflexivity|]. cbn [List.length]. intros; assert (List.length l <= k) by lia. apply L in H0. lia.
    + exists j. split; [exact E|]. cbn [List.length app]. intros. apply L. lia.
    + exists j. split; [exact E|]. cbn [List.length app]. intros. apply L. lia.
    + exists j. split; [exact E|]. cbn [List.length app]. intros. apply L. lia.
Qed.

(** the effects on the index file of one archive: those of its own process *)
Lemma work_proj {Dat} late (ar : string -> option (list (member Dat))) paths rs work p : Forall tar_name paths -> NoDup paths ->
  Forall2 (fun p r => shard_run late (ar p) (fst r) (snd r)) paths rs ->
  interleaved (map (fun pr => map (OIdx (stem (fst pr))) (fst (snd pr))) (combine paths rs)) work -> tar_name p ->
  (exists ops c, proj (stem p) work = ops /\ shard_run late (ar p) ops c /\ In (p, (ops, c)) (combine paths rs)) \/ (~ In p paths /\ proj (stem p) work = []).
Proof.
  intros TN ND F IL TP. destruct (interleaved_proj (stem p) IL) as [A B].
  set (g := fun pr : string * (list fsop * nat) => map (OIdx (stem (fst pr))) (fst (snd pr))) in *.
  assert (L : List.length paths = List.length rs) by (clear - F; induction F; cbn; congruence).
  destruct (in_dec String.string_dec p paths) as [I|NI].
  - left. apply In_nth_error in I. destruct I as [i E].
    assert (exists r, nth_error rs i = Some r) as [r Er] by (destruct (nth_error rs i) eqn:Q; [eauto|]; exfalso; apply nth_error_None in Q; assert (i < List.length paths) by (apply nth_error_Some; congruence); lia).
    assert (EC : nth_error (combine paths rs) i = Some (p, r)).
    { clear - E Er. revert rs i E Er. induction paths as [|q paths IH]; intros [|r' rs] [|i] E Er; try discriminate; cbn in *; [congruence|]. eauto. }
    exists (fst r), (snd r). split; [|split].
    + rewrite (A i (g (p, r))).
      * unfold g. cbn [fst snd]. rewrite proj_tagged, String.eqb_refl. reflexivity.
      * rewrite nth_error_map, EC. reflexivity.
      * intros j l' NJ EJ. rewrite nth_error_map in EJ. destruct (nth_error (combine paths rs) j) as [[q r']|] eqn:Q; [|discriminate]. injection EJ as <-. unfold g. cbn [fst snd].
        rewrite proj_tagged. destruct (String.eqb_spec (stem p) (stem q)) as [ES|]; [|reflexivity]. exfalso.
        assert (EQ : nth_error paths j = Some q).
        { clear - Q. revert rs j Q. induction paths as [|q' paths IH]; intros [|r'' rs] [|j] Q; try discriminate; cbn in *; [congruence|]. eauto. }
        assert (TQ : tar_name q) by (rewrite Forall_forall in TN; apply TN; eapply nth_error_In; eauto).
        apply NJ. eapply (proj1 (NoDup_nth_error paths) ND); [apply nth_error_Some; congruence|]. rewrite EQ, E. f_equal. symmetry. now apply stem_inj.
    + clear - F E Er. revert i E Er. induction F as [|q r' paths rs H F IH]; intros [|i] E Er; try discriminate; cbn in *; [|eauto]. injection E as ->. injection Er as ->. destruct r. exact H.
    + destruct r. apply nth_error_In in EC. exact EC.
  - right. split; [exact NI|]. apply B. intros l Il. apply in_map_iff in Il. destruct Il as ([q r] & <- & Iq). unfold g. cbn [fst snd]. rewrite proj_tagged.
    destruct (String.eqb_spec (stem p) (stem q)) as [ES|]; [|reflexivity]. exfalso. apply NI. apply in_combine_l in Iq.
    assert (TQ : tar_name q) by (rewrite Forall_forall in TN; auto). now rewrite (stem_inj TP TQ ES).
Qed.

Lemma shard_crash {Dat} late (a : option (list (member Dat))) ops c n f : shard_run late a ops c ->
  fs_final (fs_runs (firstn n ops) f) = fs_final f \/ (exists ms, a = Some ms /\ fs_final (fs_runs (firstn n ops) f) = Some (index_file ms)).
Proof.
  intros H. destruct H as [ms ops W|a|a offs k ops W|a b ops W|ms b ops L W|ms b ops L W].
  - destruct (writer_crash n f W) as [E|(_ & _ & E)]; [now left|right; exists ms; auto].
  - left. now rewrite firstn_nil.
  - destruct (writer_crash n f W) as [E|(E & _)]; [now left|discriminate].
  - left. apply no_rename_final. apply Forall_firstn'. constructor; [discriminate|eapply writes_no_rename; eauto].
  - left. apply no_rename_final. apply Forall_firstn'. constructor; [discriminate|eapply writes_no_rename; eauto].
  - left. apply no_rename_final. apply Forall_firstn'. constructor; [discriminate|]. apply Forall_app. split; [eapply writes_no_rename; eauto|constructor; [discriminate|constructor]].
Qed.

(** ** What is claimed *)
(** a shard of an opened split part is served: its archive can be read, the count is its number of samples and reading any part of it
    through the index on the disk returns the right samples *)
Definition served {Dat} (ar : string -> option (list (member Dat))) (d : disk) (sh : shard) : Prop :=
  exists ms idx, ar (sh_name sh) = Some ms /\ fs_final (d_idx d (stem (sh_name sh))) = Some idx /\
    sh_offset sh = 0 /\ sh_count sh = List.length (archive_samples ms) /\
    forall pf o c n, o + c <= sh_count sh -> exists pos,
      read_from ms idx (fun _ => false) pf (mkShard (sh_name sh) o c) 0 0 n =
        Ok (number (expected (sh_name sh) pf) o (firstn n (slice o (o + c) (archive_samples ms))), pos).

Definition archives_ok {Dat} (ar : string -> option (list (member Dat))) : Prop :=
  forall p ms, ar p = Some ms -> (forall m, In m ms -> 0 < m_size m) /\ (Z.of_nat (tar_size ms) < 2 ^ 64)%Z.

Lemma served_by_index {Dat} (ar : string -> option (list (member Dat))) d sh ms : archives_ok ar -> ar (sh_name sh) = Some ms ->
  fs_final (d_idx d (stem (sh_name sh))) = Some (index_file ms) -> sh_offset sh = 0 -> sh_count sh = count_of ms -> served ar d sh.
Proof.
  intros OK E F O C. exists ms, (index_file ms). destruct (OK _ _ E) as [H1 H2]. destruct (C17_index_counts_samples ms) as [HC _].
  split; [exact E|]. split; [exact F|]. split; [exact O|]. split; [congruence|].
  intros pf o c n L. apply C17_subshard_read; [exact H1|exact H2|]. rewrite <- C. exact L.
Qed.

Lemma sequence_in {A B} (f : A -> result B) l : forall r y, sequence (map f l) = Ok r -> In y r -> exists x, In x l /\ f x = Ok y.
Proof.
  induction l as [|x l IH]; intros r y E I; cbn in E; [injection E as <-; destruct I|].
  destruct (f x) as [b|] eqn:F; [|discriminate]. cbn in E. destruct (sequence (map f l)) as [r'|] eqn:S'; [|discriminate]. cbn in E. injection E as <-.
  destruct I as [<-|I]; [exists x; auto using in_eq|]. destruct (IH r' y eq_refl I) as (x' & A1 & A2). exists x'. split; [now right|exact A2].
Qed.
Lemma from_config_counts be counts sp part m sh : from_config be counts sp part = MOk m -> In sh (mt_shards m) ->
  In (sh_name sh, sh_count sh) counts /\ sh_offset sh = 0.
Proof.
  unfold from_config. intros H I. destruct (lookup part (sp_parts sp)) as [pats|]; [|discriminate]. destruct (expand be (sp_exclude sp)) as [ex|]; [|discriminate].
  destruct (expand be pats) as [nm|]; [|discriminate]. destruct (List.length _ =? 0); [discriminate|].
  destruct (sequence _) as [shs|] eqn:E; [|discriminate]. injection H as <-. cbn [mt_shards] in I.
  destruct (sequence_in E I) as (x & _ & F). unfold shard_info in F. destruct (lookup x counts) as [c|] eqn:L; [|discriminate]. injection F as <-. cbn. split; [|reflexivity].
  clear - L. induction counts as [|[k v] counts IH]; cbn in *; [discriminate|]. unfold seqb in *. destruct (String.eqb_spec k x) as [->|]; [injection L as ->; auto|auto].
Qed.

Lemma combine_fun {A B} (a : list A) : forall (b : list B) x y z, NoDup a -> In (x, y) (combine a b) -> In (x, z) (combine a b) -> y = z.
Proof.
  induction a as [|k a IH]; intros [|v b] x y z ND I J; try (cbn in I; contradiction). cbn [combine In] in I, J. inversion ND as [|? ? N1 N2]; subst.
  destruct I as [I|I], J as [J|J].
  - congruence.
  - injection I as -> ->. apply in_combine_l in J. contradiction.
  - injection J as -> ->. apply in_combine_l in I. contradiction.
  - eapply IH; eauto.
Qed.

Lemma sr_nonzero {Dat} (a : option (list (member Dat))) ops c : shard_run false a ops c -> c <> 0 ->
  exists ms, a = Some ms /\ c = count_of ms /\ writer_run (map Z.of_nat (index_of ms)) None ops.
Proof. intros H N. destruct H as [ms ops W|a|a offs k ops W|a b ops W|ms b ops L W|ms b ops L W]; try contradiction; try discriminate. eauto. Qed.

Section Claims.
  Context {Dat : Type}.
  Variables (enc_info : list (string * nat) -> bytes) (enc_split : splits -> bytes).
  Variables (be : string -> result (list string)) (dec_info : bytes -> option (list (string * nat))) (dec_split : bytes -> option splits) (dec_dataset : bytes -> bool).
  Notation run := (@prepare_run Dat enc_info enc_split).
  Notation opened := (open_part be dec_info dec_split dec_dataset).

  Lemma work_only_idx late ar paths infos parts work main : run late ar paths infos parts work main -> only_idx work.
  Proof.
    intros H. destruct H as [rs parts work main F IL MR]. eapply interleaved_idx; [exact IL|]. apply Forall_forall. intros l I. apply in_map_iff in I. destruct I as (pr & <- & _).
    apply Forall_forall. intros o Io. apply in_map_iff in Io. destruct Io as (x & <- & _). eauto.
  Qed.
  Lemma main_proj infos parts main s : main_run enc_info enc_split infos parts main -> proj s main = [].
  Proof. intros H. destruct H; rewrite ?proj_app, ?proj_write; reflexivity. Qed.
  Lemma proj_prefix_nil s l k : proj s l = [] -> proj s (firstn k l) = [].
  Proof. intros E. destruct (proj_firstn s l k) as (j & -> & _). now rewrite E, firstn_nil. Qed.

  (** once the processes are done, every shard with a count has a right index *)
  Lemma index_done ar paths infos parts work main d0 p c more : Forall tar_name paths -> NoDup paths -> run false ar paths infos parts work main ->
    In (p, c) (counts_of infos) -> (forall s, proj s more = []) ->
    exists ms, ar p = Some ms /\ c = count_of ms /\ fs_final (d_idx (effects (work ++ more) d0) (stem p)) = Some (index_file ms).
  Proof.
    intros TN ND H I NM. inversion H as [rs parts' work' main' F IL MR]; subst.
    unfold counts_of in I. apply in_map_iff in I. destruct I as (si & E & I). injection E as <- <-.
    unfold Prepare.usable_shards in I. apply filter_In in I. destruct I as [I NZ]. apply in_map_iff in I. destruct I as ([q [ops c]] & <- & I). cbn [fst snd Prepare.sh_name Prepare.sh_count] in *.
    assert (TQ : tar_name q) by (rewrite Forall_forall in TN; apply TN; eapply in_combine_l; eauto).
    destruct (work_proj TN ND F IL TQ) as [(ops' & c' & E & SR & I') | [NI _]]; [|exfalso; apply NI; eapply in_combine_l; eauto].
    pose proof (combine_fun ND I I') as Q. injection Q as <- <-.
    apply sr_nonzero in SR; [|intros ->; discriminate]. destruct SR as (ms & EA & EC & W).
    exists ms. split; [exact EA|]. split; [exact EC|]. rewrite effects_app, effects_idx, NM. cbn [fs_runs fold_left].
    rewrite effects_idx, E. rewrite (C21_index_complete _ W). reflexivity.
  Qed.

  Lemma served_listed ar paths infos parts work main d0 sh more be' sp part m : archives_ok ar -> Forall tar_name paths -> NoDup paths ->
    run false ar paths infos parts work main -> (forall s, proj s more = []) ->
    from_config be' (counts_of infos) sp part = MOk m -> In sh (mt_shards m) -> served ar (effects (work ++ more) d0) sh.
  Proof.
    intros OK TN ND H NM FC I. destruct (from_config_counts FC I) as [IC O]. destruct (index_done d0 TN ND H IC NM) as (ms & EA & EC & EF).
    eapply served_by_index; eauto.
  Qed.

  (** A first preparation that is interrupted at any point (all processes stop; in any order of their effects; with any archives
      unreadable): the dataset cannot be opened, or everything the preparation would have written except dataset.yaml is there, and all
      its shards are served. *)
  Theorem C63_interrupted ar paths infos parts work main d0 k part r :
    (forall x, dec_info (enc_info x) = Some x) -> (forall x, dec_split (enc_split x) = Some x) ->
    archives_ok ar -> Forall tar_name paths -> NoDup paths -> d_file d0 FDataset = None ->
    run false ar paths infos parts work main ->
    let d := effects (firstn k (work ++ main)) d0 in
    opened d part = Some r ->
    exists ps, parts = Ok ps /\ r = from_config be (counts_of infos) (mkSplits ps []) part /\
      forall m sh, r = MOk m -> In sh (mt_shards m) -> served ar d sh.
  Proof.
    intros RI RS OK TN ND N0 H d HO.
    assert (OI : only_idx work) by (eapply work_only_idx; eauto).
    assert (NI : forall l, only_idx l -> forall m, Forall (fun o => ~ touches m o) l).
    { intros l F m. eapply Forall_impl; [|exact F]. intros o (s & x & ->). cbn. auto. }
    assert (DN : d_file d FDataset <> None) by (unfold open_part in HO; destruct (d_file d FDataset); [discriminate|]; discriminate).
    assert (MR : main_run enc_info enc_split infos parts main) by (destruct H; assumption).
    assert (ABS : forall l, Forall (fun o => ~ touches FDataset o) l -> firstn k (work ++ main) = l -> False).
    { intros l F E. apply DN. unfold d. rewrite E. rewrite (effects_untouched F). exact N0. }
    destruct MR as [parts|e pi Ei|ps pi pp Ei Es|ps pi pp pd Ei Es].
    - exfalso. rewrite app_nil_r in ABS. eapply ABS; [|reflexivity]. apply Forall_firstn'. auto.
    - exfalso. eapply ABS; [|reflexivity]. apply Forall_firstn'. apply Forall_app. split; [auto|now apply write_untouched].
    - exfalso. eapply ABS; [|reflexivity]. apply Forall_firstn'. apply Forall_app. split; [auto|]. apply Forall_app. split; now apply write_untouched.
    - exists ps. split; [reflexivity|].
      set (A := work ++ write_file FInfo pi ++ write_file FSplit pp) in *.
      assert (EM : work ++ write_file FInfo pi ++ write_file FSplit pp ++ write_file FDataset pd = A ++ write_file FDataset pd) by (unfold A; now rewrite <- !app_assoc).
      destruct (Nat.le_gt_cases k (List.length A)) as [L|L].
      { exfalso. eapply ABS; [|reflexivity]. rewrite EM, firstn_app. replace (k - List.length A) with 0 by lia. rewrite firstn_O, app_nil_r.
        apply Forall_firstn'. unfold A. apply Forall_app. split; [auto|]. apply Forall_app. split; now apply write_untouched. }
      assert (EK : firstn k (work ++ write_file FInfo pi ++ write_file FSplit pp ++ write_file FDataset pd) = A ++ firstn (k - List.length A) (write_file FDataset pd)).
      { rewrite EM, firstn_app, firstn_all2 by lia. reflexivity. }
      set (C := firstn (k - List.length A) (write_file FDataset pd)) in *.
      assert (UC : forall m, m <> FDataset -> Forall (fun o => ~ touches m o) C) by (intros m N; apply Forall_firstn'; now apply write_untouched, not_eq_sym).
      assert (DI : d_file d FInfo = Some (enc_info (counts_of infos))).
      { unfold d. rewrite EK, effects_app. rewrite (effects_untouched (UC FInfo ltac:(discriminate))). unfold A. rewrite !effects_app.
        rewrite (effects_untouched (@write_untouched FInfo FSplit pp ltac:(discriminate))). rewrite write_done. now rewrite Ei. }
      assert (DS : d_file d FSplit = Some (enc_split (mkSplits ps []))).
      { unfold d. rewrite EK, effects_app. rewrite (effects_untouched (UC FSplit ltac:(discriminate))). unfold A. rewrite !effects_app. rewrite write_done. now rewrite Es. }
      unfold open_part in HO. rewrite DI, DS, RI, RS in HO. destruct (d_file d FDataset) as [b|]; [|discriminate]. destruct (dec_dataset b); [|discriminate]. injection HO as <-.
      split; [reflexivity|]. intros m sh FC I.
      assert (ED : d = effects (work ++ (write_file FInfo pi ++ write_file FSplit pp ++ C)) d0) by (unfold d; rewrite EK; unfold A; now rewrite <- !app_assoc).
      rewrite ED. eapply served_listed; eauto. intros s. rewrite !proj_app, !proj_write. cbn [app]. unfold C. apply proj_prefix_nil. apply proj_write.
  Qed.

  (** A completed preparation with split ratios: every part with a shard opens and all its shards are served; together the parts have
      every archive that was read once, except those assigned to no part (C22).  For shard names that braceexpand leaves as they are. *)
  Theorem C63_prepared ar paths infos shuffled ratios ps work main d0 :
    (forall x, dec_info (enc_info x) = Some x) -> (forall x, dec_split (enc_split x) = Some x) ->
    archives_ok ar -> Forall tar_name paths -> NoDup paths ->
    run false ar paths infos (Ok ps) work main -> main <> [] ->
    Permutation shuffled (map Prepare.sh_name (Prepare.usable_shards infos)) -> Prepare.ratio_split shuffled ratios = Ok ps ->
    NoDup (map fst ratios) -> (forall p r, In (p, r) ratios -> is_double r) -> (forall n, In n shuffled -> be n = Ok [n]) ->
    let d := effects (work ++ main) d0 in
    (exists b, d_file d FDataset = Some b /\ dec_dataset b = true) ->
    map Prepare.sh_name infos = paths /\
    (forall s, In s infos -> Prepare.sh_count s <> 0 -> exists ms, ar (Prepare.sh_name s) = Some ms /\ Prepare.sh_count s = List.length (archive_samples ms)) /\
    exists lost loaded,
      Forall2 (fun p shards => opened d (fst p) = Some (match shards with [] => MEmpty | _ => MOk (mkMeta [] shards) end) /\
                               map sh_name shards = snd p /\ Forall (served ar d) shards) ps loaded /\
      map fst ps = map fst ratios /\
      Permutation (concat loaded ++ lost) (map (fun s => mkShard (Prepare.sh_name s) 0 (Prepare.sh_count s)) (Prepare.usable_shards infos)).
  Proof.
    intros RI RS OK TN ND H NM HP HR HF HD HB d (b & Db & Ob).
    assert (EP : map Prepare.sh_name infos = paths).
    { destruct H as [rs parts work main F IL MR]. rewrite map_map. cbn [Prepare.sh_name].
      clear - F. induction F as [|p r paths rs H F IH]; cbn; [reflexivity|]. now f_equal. }
    split; [exact EP|]. split.
    { intros s I NZ. destruct (@index_done ar paths infos (Ok ps) work main d0 (Prepare.sh_name s) (Prepare.sh_count s) [] TN ND H) as (ms & EA & EC & _).
      - unfold counts_of. apply in_map_iff. exists s. split; [reflexivity|]. apply filter_In. split; [exact I|]. now apply Nat.eqb_neq in NZ; rewrite NZ.
      - reflexivity.
      - exists ms. split; [exact EA|]. rewrite EC. apply C17_index_counts_samples. }
    assert (NU : NoDup (map Prepare.sh_name (Prepare.usable_shards infos))).
    { rewrite <- EP in ND. clear - ND. unfold Prepare.usable_shards. induction infos as [|s l IH]; cbn [filter map]; [constructor|]. inversion ND as [|? ? A B]; subst.
      destruct (negb _); cbn [map]; [|auto]. constructor; [|auto]. intros I. apply A. apply in_map_iff in I. destruct I as (t & <- & I). apply filter_In in I. apply in_map_iff. exists t. tauto. }
    destruct (C59_prepared_parts HP NU HF HD HB HR) as (lost & loaded & F & E1 & E2).
    exists lost, loaded. split; [|auto].
    assert (OPN : forall part, opened d part = Some (from_config be (counts_of infos) (mkSplits ps []) part) /\ exists more, d = effects (work ++ more) d0 /\ forall s, proj s more = []).
    { intros part. assert (MR : main_run enc_info enc_split infos (Ok ps) main) by (inversion H; assumption).
      inversion MR as [parts E3 E4|e pi Ei E3|ps' pi pp Ei Es E3 E4|ps' pi pp pd Ei Es E3 E4]; subst; try congruence.
      - split.
        + unfold open_part. rewrite Db, Ob. unfold d in *. rewrite !effects_app. rewrite write_done.
          rewrite (effects_untouched (@write_untouched FInfo FSplit pp ltac:(discriminate))). rewrite write_done. now rewrite Ei, Es, RI, RS.
        + exists (write_file FInfo pi ++ write_file FSplit pp). split; [reflexivity|]. intros s. now rewrite proj_app, !proj_write.
      - split.
        + unfold open_part. rewrite Db, Ob. unfold d in *. rewrite !effects_app.
          rewrite (effects_untouched (@write_untouched FInfo FDataset pd ltac:(discriminate))), (effects_untouched (@write_untouched FSplit FDataset pd ltac:(discriminate))).
          rewrite write_done. rewrite (effects_untouched (@write_untouched FInfo FSplit pp ltac:(discriminate))). rewrite write_done. now rewrite Ei, Es, RI, RS.
        + eexists. split; [reflexivity|]. intros s. now rewrite !proj_app, !proj_write. }
    clear - F OPN OK TN ND H. induction F as [|p shs ps' loaded [A B] F IH]; constructor; [|exact IH].
    destruct (OPN (fst p)) as [O (more & Ed & NM)]. split; [rewrite O; f_equal; exact A|]. split; [exact B|].
    apply Forall_forall. intros sh I. rewrite Ed. destruct shs as [|s0 shs]; [destruct I|]. eapply served_listed with (m := mkMeta [] (s0 :: shs)); eauto.
  Qed.

  (** Preparing again, or indexing again, with unchanged archives, and interrupted at any point or failing in any way: every shard that
      was served still is, and as long as .info.yaml is not opened for writing the split parts are as before. *)
  Theorem C63_again late ar paths infos parts work main d0 k : archives_ok ar -> Forall tar_name paths -> NoDup paths ->
    run late ar paths infos parts work main ->
    let d := effects (firstn k (work ++ main)) d0 in
    (forall sh, tar_name (sh_name sh) -> served ar d0 sh -> served ar d sh) /\
    (k <= List.length work \/ main = [] -> forall part, opened d part = opened d0 part).
  Proof.
    intros OK TN ND H d. split.
    - intros sh TS (ms & idx & EA & EF & EO & EC & ER).
      assert (MP : proj (stem (sh_name sh)) main = []) by (destruct H; eapply main_proj; eassumption).
      destruct (proj_firstn (stem (sh_name sh)) (work ++ main) k) as (j & EJ & _). rewrite proj_app, MP, app_nil_r in EJ.
      assert (ED : d_idx d (stem (sh_name sh)) = fs_runs (firstn j (proj (stem (sh_name sh)) work)) (d_idx d0 (stem (sh_name sh)))) by (unfold d; rewrite effects_idx, EJ; reflexivity).
      destruct H as [rs parts work main F IL MR].
      destruct (work_proj TN ND F IL TS) as [(ops & c & E & SR & I) | [NI E]].
      + rewrite E in ED. destruct (shard_crash j (d_idx d0 (stem (sh_name sh))) SR) as [Q|(ms' & EA' & Q)].
        * exists ms, idx. rewrite ED, Q. auto.
        * rewrite EA in EA'. injection EA' as <-. eapply served_by_index; eauto; [now rewrite ED|]. rewrite EC. symmetry. apply C17_index_counts_samples.
      + rewrite E, firstn_nil in ED. exists ms, idx. rewrite ED. auto.
    - intros HK part. assert (OI : only_idx work) by (eapply work_only_idx; eauto).
      assert (PI : only_idx (firstn k (work ++ main))).
      { destruct HK as [HK | ->]; [rewrite firstn_app; replace (k - List.length work) with 0 by lia; rewrite firstn_O, app_nil_r|rewrite app_nil_r]; now apply Forall_firstn'. }
      unfold open_part, d. now rewrite !(effects_file_idx PI).
  Qed.
End Claims.

(** ** What does not hold *)
(** If writing the end of an index, closing it or renaming it fails, the count is reported already: the run completes, the shard is
    listed, and there is no index to read it with. *)
Theorem C63_late_failure_refuted enc_info enc_split dec_info dec_split dec_dataset :
  (forall x, dec_info (enc_info x) = Some x) -> (forall x, dec_split (enc_split x) = Some x) -> (exists b, dec_dataset b = true) ->
  exists (ar : string -> option (list (member nat))) paths infos parts work main,
    archives_ok ar /\ Forall tar_name paths /\ NoDup paths /\ prepare_run enc_info enc_split true ar paths infos parts work main /\
    forall d0, (forall s, fs_final (d_idx d0 s) = None) ->
      let d := effects (work ++ main) d0 in
      exists m sh, open_part (fun n => Ok [n]) dec_info dec_split dec_dataset d "train" = Some (MOk m) /\ In sh (mt_shards m) /\
        sh_count sh = 3 /\ fs_final (d_idx d (stem (sh_name sh))) = None /\ ~ served ar d sh.
Proof.
  intros RI RS (b & Hb).
  set (ar := fun p : string => if String.eqb p "a.tar" then Some ex_tar else None).
  exists ar, ["a.tar"], [Prepare.mkShard "a.tar" 3], (Ok [("train", ["a.tar"])]), [OIdx "a" CreateTmp; OIdx "a" UnlinkTmp],
    (write_file FInfo [enc_info [("a.tar", 3)]] ++ write_file FSplit [enc_split (mkSplits [("train", ["a.tar"])] [])] ++ write_file FDataset [b]).
  split; [|split; [|split; [|split]]].
  - intros p ms E. unfold ar in E. destruct (String.eqb p "a.tar"); [|discriminate]. injection E as <-. split; [|vm_compute; reflexivity].
    intros m I. unfold ex_tar in I. cbn [In] in I. repeat (destruct I as [<-|I]; [cbn; lia|]). destruct I.
  - constructor; [|constructor]. exists "a". split; [reflexivity|]. split; [discriminate|]. intros [|c [|c' y]]; cbn; try discriminate.
  - constructor; [intros []|constructor].
  - assert (SR : Forall2 (fun p r => shard_run true (ar p) (fst r) (snd r)) ["a.tar"] [([CreateTmp; UnlinkTmp], 3)]).
    { constructor; [|constructor]. cbn [fst snd]. change (ar "a.tar") with (Some ex_tar). change 3 with (count_of ex_tar). apply (@sr_late_unlink nat true ex_tar [] []); [reflexivity|constructor]. }
    refine (@prep nat enc_info enc_split true ar ["a.tar"] [([CreateTmp; UnlinkTmp], 3)] (Ok [("train", ["a.tar"])]) _ _ SR _ _).
    + cbn. apply (@il_step []). apply (@il_step []). constructor. repeat constructor.
    + apply mr_dataset; cbn [concat]; now rewrite app_nil_r.
  - intros d0 H0 d.
    assert (IX : d_idx d "a" = mkFs (fs_final (d_idx d0 "a")) None) by (unfold d; rewrite effects_idx; cbn; destruct (d_idx d0 "a"); reflexivity).
    exists (mkMeta [] [mkShard "a.tar" 0 3]), (mkShard "a.tar" 0 3). split; [|split; [now left|split; [reflexivity|]]].
    + assert (DI : d_file d FInfo = Some (enc_info [("a.tar", 3)])).
      { unfold d. rewrite !effects_app. rewrite (effects_untouched (@write_untouched FInfo FDataset _ ltac:(discriminate))), (effects_untouched (@write_untouched FInfo FSplit _ ltac:(discriminate))).
        rewrite write_done. cbn [concat]. now rewrite app_nil_r. }
      assert (DS : d_file d FSplit = Some (enc_split (mkSplits [("train", ["a.tar"])] []))).
      { unfold d. rewrite !effects_app. rewrite (effects_untouched (@write_untouched FSplit FDataset _ ltac:(discriminate))). rewrite write_done. cbn [concat]. now rewrite app_nil_r. }
      assert (DD : d_file d FDataset = Some b) by (unfold d; rewrite !effects_app, write_done; cbn [concat]; now rewrite app_nil_r).
      unfold open_part. rewrite DI, DS, DD, Hb, RI, RS. reflexivity.
    + cbn [sh_name]. change (stem "a.tar") with "a". rewrite IX. cbn [fs_final]. split; [apply H0|].
      intros (ms & idx & _ & F & _). cbn [sh_name] in F. change (stem "a.tar") with "a" in F. rewrite IX in F. cbn [fs_final] in F. rewrite H0 in F. discriminate.
Qed.

(** When a prepared dataset is prepared again and this is interrupted while .info.yaml is written, what was written of it can be a YAML
    file of the right form with a smaller number: the part opens and most of the shard's samples are missing.  Nothing has changed: the
    same archives, the same counts as before. *)
Definition twelve : list (member nat) := map (fun i => mkM ("a/" ++ digits 3 i ++ ".jpg")%string true 2 i) (seq 0 12).
Theorem C63_torn_info_refuted enc_split dec_split dec_dataset b : (forall x, dec_split (enc_split x) = Some x) -> dec_dataset b = true ->
  exists (ar : string -> option (list (member nat))) paths infos parts work main d0 k m m' sh sh',
    archives_ok ar /\ Forall tar_name paths /\ NoDup paths /\ prepare_run dump_info enc_split false ar paths infos parts work main /\
    yaml_info (dump_info (counts_of infos)) = Some (counts_of infos) /\
    (* before *)
    d0 = effects (work ++ main) (mkDisk (fun _ => mkFs None None) (fun n => match n with FDataset => Some b | _ => None end)) /\
    open_part (fun n => Ok [n]) yaml_info dec_split dec_dataset d0 "train" = Some (MOk m) /\ mt_shards m = [sh] /\ served ar d0 sh /\
    (* and then *)
    open_part (fun n => Ok [n]) yaml_info dec_split dec_dataset (effects (firstn k (work ++ main)) d0) "train" = Some (MOk m') /\ mt_shards m' = [sh'] /\
    sh_name sh' = sh_name sh /\ sh_count sh = 12 /\ sh_count sh' = 1.
Proof.
  intros RS Hb.
  set (ar := fun p : string => if String.eqb p "a.tar" then Some twelve else None).
  set (txt := dump_info [("a.tar", 12)]).
  set (idx := flat_map pack (map Z.of_nat (index_of twelve))).
  set (work := map (OIdx "a") [CreateTmp; WriteTmp idx; RenameTmp]).
  set (es := enc_split (mkSplits [("train", ["a.tar"])] [])).
  set (main := write_file FInfo [firstn 24 txt; skipn 24 txt] ++ write_file FSplit [es]).
  assert (OK : archives_ok ar).
  { intros p ms E. unfold ar in E. destruct (String.eqb p "a.tar"); [|discriminate]. injection E as <-. split; [|vm_compute; reflexivity].
    intros m I. unfold twelve in I. apply in_map_iff in I. destruct I as (i & <- & _). cbn. lia. }
  assert (TN : Forall tar_name ["a.tar"]).
  { constructor; [|constructor]. exists "a". split; [reflexivity|]. split; [discriminate|]. intros [|c [|c' y]]; cbn; discriminate. }
  assert (ND : NoDup ["a.tar"]) by (constructor; [intros []|constructor]).
  assert (RUN : prepare_run dump_info enc_split false ar ["a.tar"] [Prepare.mkShard "a.tar" 12] (Ok [("train", ["a.tar"])]) work main).
  { assert (SR : Forall2 (fun p r => shard_run false (ar p) (fst r) (snd r)) ["a.tar"] [([CreateTmp; WriteTmp idx; RenameTmp], 12)]).
    { constructor; [|constructor]. cbn [fst snd]. change (ar "a.tar") with (Some twelve). replace 12 with (count_of twelve) by (vm_compute; reflexivity). apply sr_ok.
      apply (@wr_ok _ [WriteTmp idx]). rewrite <- (app_nil_r (flat_map pack (map Z.of_nat (index_of twelve)))). apply wo_cons. constructor. }
    refine (@prep nat dump_info enc_split false ar ["a.tar"] [([CreateTmp; WriteTmp idx; RenameTmp], 12)] (Ok [("train", ["a.tar"])]) _ _ SR _ _).
    + unfold work. cbn. apply (@il_step []). apply (@il_step []). apply (@il_step []). constructor. repeat constructor.
    + apply mr_ok; cbn [concat]; [|now rewrite app_nil_r]. rewrite app_nil_r. apply firstn_skipn. }
  set (e0 := mkDisk (fun _ => mkFs None None) (fun n => match n with FDataset => Some b | _ => None end)).
  set (d0 := effects (work ++ main) e0).
  assert (DI : d_file d0 FInfo = Some txt).
  { unfold d0. rewrite effects_app. unfold main. rewrite effects_app, (effects_untouched (@write_untouched FInfo FSplit _ ltac:(discriminate))), write_done. cbn [concat]. now rewrite app_nil_r, firstn_skipn. }
  assert (DS : d_file d0 FSplit = Some es) by (unfold d0, main; rewrite !effects_app, write_done; cbn [concat]; now rewrite app_nil_r).
  assert (DD : d_file d0 FDataset = Some b) by (unfold d0, main; rewrite !effects_app; rewrite (effects_untouched (@write_untouched FDataset FSplit _ ltac:(discriminate))), (effects_untouched (@write_untouched FDataset FInfo _ ltac:(discriminate))); reflexivity).
  assert (YI : yaml_info txt = Some [("a.tar", 12)]) by (vm_compute; reflexivity).
  assert (Y2 : yaml_info (firstn 24 txt) = Some [("a.tar", 1)]) by (vm_compute; reflexivity).
  exists ar, ["a.tar"], [Prepare.mkShard "a.tar" 12], (Ok [("train", ["a.tar"])]), work, main, d0, 5, (mkMeta [] [mkShard "a.tar" 0 12]), (mkMeta [] [mkShard "a.tar" 0 1]), (mkShard "a.tar" 0 12), (mkShard "a.tar" 0 1).
  split; [exact OK|]. split; [exact TN|]. split; [exact ND|]. split; [exact RUN|]. split; [vm_compute; reflexivity|]. split; [reflexivity|].
  split. { unfold open_part. rewrite DI, DS, DD, Hb, YI. unfold es. rewrite RS. reflexivity. }
  split; [reflexivity|]. split.
  { eapply served_by_index with (ms := twelve); [exact OK|reflexivity| |reflexivity|vm_compute; reflexivity].
    cbn [sh_name]. change (stem "a.tar") with "a". unfold d0. rewrite effects_idx. reflexivity. }
  split; [|auto].
  assert (EF : firstn 5 (work ++ main) = work ++ [OOpen FInfo; OWrite FInfo (firstn 24 txt)]) by reflexivity.
  rewrite EF, effects_app. set (d1 := effects work d0).
  assert (U : forall m, d_file d1 m = d_file d0 m) by (intros m; apply effects_untouched; repeat constructor; intros []).
  unfold open_part, effects. cbn [fold_left step d_file mfile_eqb option_map app]. rewrite !U, DS, DD, Hb, Y2. unfold es. rewrite RS. reflexivity.
Qed.

(** Archives whose names differ only in the suffix have one index file: after a completed run a.tar is read with the index of a.tgz. *)
Theorem C63_same_stem_refuted enc_info enc_split (b : bytes) :
  exists (ar : string -> option (list (member nat))) paths infos parts work main ms,
    archives_ok ar /\ NoDup paths /\ prepare_run enc_info enc_split false ar paths infos parts work main /\
    In (Prepare.mkShard "a.tar" 12) infos /\ ar "a.tar" = Some ms /\ List.length (archive_samples ms) = 12 /\
    forall d0, exists idx e, fs_final (d_idx (effects (work ++ main) d0) (stem "a.tar")) = Some idx /\
      read_from ms idx (fun _ => false) (fun _ => true) (mkShard "a.tar" 4 1) 0 0 1 = Err e.
Proof.
  set (ar := fun p : string => if String.eqb p "a.tar" then Some twelve else if String.eqb p "a.tgz" then Some ex_tar else None).
  set (ops := fun ms : list (member nat) => [CreateTmp; WriteTmp (flat_map pack (map Z.of_nat (index_of ms))); RenameTmp]).
  assert (SO : forall ms, shard_run false (Some ms) (ops ms) (count_of ms)).
  { intros ms. apply sr_ok. apply (@wr_ok _ [WriteTmp (flat_map pack (map Z.of_nat (index_of ms)))]). rewrite <- (app_nil_r (flat_map pack (map Z.of_nat (index_of ms)))) at 1. apply wo_cons. constructor. }
  exists ar, ["a.tar"; "a.tgz"], [Prepare.mkShard "a.tar" 12; Prepare.mkShard "a.tgz" 3], (Ok [("train", ["a.tar"; "a.tgz"])]),
    (map (OIdx "a") (ops twelve ++ ops ex_tar)),
    (write_file FInfo [enc_info [("a.tar", 12); ("a.tgz", 3)]] ++ write_file FSplit [enc_split (mkSplits [("train", ["a.tar"; "a.tgz"])] [])] ++ write_file FDataset [b]), twelve.
  split; [|split; [|split; [|split; [|split; [|split]]]]].
  - intros p ms E. unfold ar in E. destruct (String.eqb p "a.tar"); [injection E as <-|destruct (String.eqb p "a.tgz"); [injection E as <-|discriminate]]; (split; [|vm_compute; reflexivity]).
    + intros m I. unfold twelve in I. apply in_map_iff in I. destruct I as (i & <- & _). cbn. lia.
    + intros m I. unfold ex_tar in I. cbn [In] in I. repeat (destruct I as [<-|I]; [cbn; lia|]). destruct I.
  - constructor; [intros [E|[]]; discriminate|]. constructor; [intros []|constructor].
  - refine (@prep nat enc_info enc_split false ar ["a.tar"; "a.tgz"] [(ops twelve, 12); (ops ex_tar, 3)] (Ok [("train", ["a.tar"; "a.tgz"])]) _ _ _ _ _).
    + constructor; [|constructor; [|constructor]]; cbn [fst snd].
      * change (ar "a.tar") with (Some twelve). replace 12 with (count_of twelve) by (vm_compute; reflexivity). apply SO.
      * change (ar "a.tgz") with (Some ex_tar). change 3 with (count_of ex_tar). apply SO.
    + cbn [combine map fst snd]. change (stem "a.tar") with "a". change (stem "a.tgz") with "a". unfold ops. cbn [map app].
      do 3 apply (@il_step []). do 3 apply (@il_step [_] _ _ []). constructor. repeat constructor.
    + apply mr_dataset; cbn [concat]; now rewrite app_nil_r.
  - now left.
  - reflexivity.
  - vm_compute. reflexivity.
  - intros d0. exists (index_file ex_tar). eexists. split.
    + rewrite effects_app, effects_idx. rewrite !proj_app, !proj_write. cbn [app fs_runs fold_left]. rewrite effects_idx. change (stem "a.tar") with "a". rewrite proj_tagged, String.eqb_refl. reflexivity.
    + vm_compute. reflexivity.
Qed.

(** ** The extensions found *)
Lemma mem_In' x s : mem x s = true <-> In x s.
Proof. unfold mem, seqb. rewrite existsb_exists. split; [intros (y & I & E); apply String.eqb_eq in E; now subst|intros I; exists x; split; [exact I|apply String.eqb_refl]]. Qed.
Lemma add_to_in x s y : In y (add_to x s) <-> y = x \/ In y s.
Proof. unfold add_to. destruct (mem x s) eqn:M; [apply mem_In' in M; split; [tauto|intros [->|]; tauto]|]. rewrite in_app_iff. cbn. split; [intros [|[|[]]]; auto|intros [|]; auto]. Qed.
Lemma add_to_nodup x s : NoDup s -> NoDup (add_to x s).
Proof.
  intros H. unfold add_to. destruct (mem x s) eqn:M; [exact H|]. apply (Permutation_NoDup (Permutation_cons_append s x)). constructor; [|exact H].
  intros I. apply mem_In' in I. congruence.
Qed.
Lemma add_to_len x s : List.length (add_to x s) <= S (List.length s).
Proof. unfold add_to. destruct (mem x s); [lia|]. rewrite app_length. cbn. lia. Qed.
Lemma add_all_spec l : forall s, NoDup s -> NoDup (fold_left (fun s x => add_to x s) l s) /\
  (forall y, In y (fold_left (fun s x => add_to x s) l s) <-> In y l \/ In y s) /\ List.length (fold_left (fun s x => add_to x s) l s) <= List.length l + List.length s.
Proof.
  induction l as [|x l IH]; intros s ND; cbn [fold_left]; [split; [exact ND|split; [cbn; tauto|cbn; lia]]|].
  destruct (IH (add_to x s) (add_to_nodup x ND)) as (A & B & C). split; [exact A|]. split.
  - intros y. rewrite B, add_to_in. cbn. intuition.
  - pose proof (add_to_len x s). cbn [List.length]. lia.
Qed.
(** the extensions of the parts of an archive's samples *)
Definition has_part {Dat} (ms : list (member Dat)) (x : string) : Prop := exists g e, In g (archive_samples ms) /\ In e g /\ en_ext e = x.
Definition exts {Dat} (ms : list (member Dat)) : list string := flat_map (fun m => match part_of m with Some (_, x) => [x] | None => [] end) ms.
Lemma exts_spec {Dat} (ms : list (member Dat)) x : In x (exts ms) <-> has_part ms x.
Proof.
  assert (E : In x (exts ms) <-> exists e, In e (entries (locate 0 ms)) /\ en_ext e = x).
  { generalize 0. induction ms as [|m ms IH]; intros off; cbn [exts flat_map locate entries]; [split; [intros []|intros (e & [] & _)]|].
    fold (exts ms). fold (@entries Dat (locate (off + m_size m) ms)). rewrite in_app_iff, (IH (off + m_size m)). cbn [fst snd].
    destruct (part_of m) as [[b y]|]; cbn [In app].
    - split; [intros [[->|[]]|(e & I & <-)]; eauto|]. intros (e & [<-|I] & Q); [cbn in Q; auto|right; eauto].
    - split; [intros [[]|?]; assumption|right; assumption]. }
  rewrite E. rewrite <- (runs_concat (entries (locate 0 ms))). fold (archive_samples ms). unfold has_part. split.
  - intros (e & I & <-). apply in_concat in I. destruct I as (g & A & B). eauto.
  - intros (g & e & A & B & C). exists e. split; [apply in_concat; eauto|exact C].
Qed.
Lemma capped_spec max l : forall s, NoDup s -> List.length s <= max ->
  let r := fold_left (fun s x => if List.length s <? max then add_to x s else s) l s in
  NoDup r /\ List.length r <= max /\ incl s r /\ (forall y, In y r -> In y l \/ In y s) /\
  (forall U, List.length U <= max -> incl s U -> incl l U -> incl l r).
Proof.
  induction l as [|x l IH]; intros s ND L; cbn [fold_left].
  - split; [exact ND|]. split; [exact L|]. split; [apply incl_refl|]. split; [auto|]. intros U _ _ _ y [].
  - destruct (Nat.ltb_spec (List.length s) max) as [LT|GE].
    + destruct (IH (add_to x s) (add_to_nodup x ND)) as (A & B & C & D & E); [pose proof (add_to_len x s); lia|].
      split; [exact A|]. split; [exact B|]. split; [intros y I; apply C, add_to_in; auto|]. split.
      * intros y I. destruct (D y I) as [|I']; [cbn; auto|]. apply add_to_in in I'. destruct I' as [->|]; cbn; auto.
      * intros U LU IS IL y [<-|I]; [apply C, add_to_in; now left|]. apply (E U LU); [|intros z Iz; apply IL; now right|exact I].
        intros z Iz. apply add_to_in in Iz. destruct Iz as [->|]; [apply IL; now left|auto].
    + destruct (IH s ND L) as (A & B & C & D & E). split; [exact A|]. split; [exact B|]. split; [exact C|]. split; [intros y I; destruct (D y I); cbn; auto|].
      intros U LU IS IL y I. apply C. apply (NoDup_length_incl ND (l' := U)); [lia|exact IS|]. now apply IL.
Qed.
Lemma found_in_exts {Dat} max (ms : list (member Dat)) : found_in max ms = fold_left (fun s x => if List.length s <? max then add_to x s else s) (exts ms) [].
Proof.
  unfold found_in. generalize (@nil string). induction ms as [|m ms IH]; intros s; cbn [fold_left exts flat_map]; [reflexivity|].
  fold (exts ms). rewrite fold_left_app, IH. f_equal. destruct (part_of m) as [[b x]|]; reflexivity.
Qed.
Lemma found_all_spec max sets : forall s, NoDup s -> (forall l, In l sets -> List.length l <= max) -> List.length s <= max + max - 1 ->
  let r := fold_left (fun s l => if List.length s <? max then fold_left (fun s x => add_to x s) l s else s) sets s in
  NoDup r /\ List.length r <= max + max - 1 /\ incl s r /\ (forall y, In y r -> In y s \/ exists l, In l sets /\ In y l) /\
  (forall U, List.length U <= max -> incl s U -> (forall l, In l sets -> incl l U) -> forall l, In l sets -> incl l r).
Proof.
  induction sets as [|l sets IH]; intros s ND HL L; cbn [fold_left].
  - split; [exact ND|]. split; [exact L|]. split; [apply incl_refl|]. split; [auto|]. intros U _ _ _ l [].
  - destruct (Nat.ltb_spec (List.length s) max) as [LT|GE].
    + destruct (add_all_spec l ND) as (A1 & B1 & C1). pose proof (HL l (or_introl eq_refl)).
      destruct (IH (fold_left (fun s x => add_to x s) l s) A1) as (A & B & C & D & E); [intros; apply HL; now right|lia|].
      split; [exact A|]. split; [exact B|]. split; [intros y I; apply C, B1; auto|]. split.
      * intros y I. destruct (D y I) as [I'|(l' & P & Q)]; [|right; exists l'; cbn; auto]. apply B1 in I'. destruct I'; [right; exists l; cbn; auto|auto].
      * intros U LU IS IL l' [<-|I]; [intros y Iy; apply C, B1; auto|]. apply (E U LU); [|intros z Iz; apply IL; now right|exact I].
        intros z Iz. apply B1 in Iz. destruct Iz as [Iz|]; [eapply IL; [now left|exact Iz]|auto].
    + destruct (IH s ND) as (A & B & C & D & E); [intros; apply HL; now right|exact L|]. split; [exact A|]. split; [exact B|]. split; [exact C|].
      split; [intros y I; destruct (D y I) as [|(l' & P & Q)]; [auto|right; exists l'; cbn; auto]|].
      intros U LU IS IL l' I. intros y Iy. apply C. apply (NoDup_length_incl ND (l' := U)); [lia|exact IS|]. eapply IL; eauto.
Qed.

(** The parts reported for a dataset: only such that some sample has, at most 99 of them, and all of them if there are at most 50. *)
Theorem C63_parts_found {Dat} (archives : list (list (member Dat))) :
  let found := found_all 50 (map (found_in 50) archives) in
  NoDup found /\ List.length found <= 99 /\
  (forall x, In x found -> exists ms, In ms archives /\ has_part ms x) /\
  (forall U, List.length U <= 50 -> (forall ms x, In ms archives -> has_part ms x -> In x U) ->
     forall ms x, In ms archives -> has_part ms x -> In x found).
Proof.
  intros found.
  assert (FI : forall ms : list (member Dat), let r := found_in 50 ms in NoDup r /\ List.length r <= 50 /\ (forall y, In y r -> In y (exts ms)) /\
    (forall U, List.length U <= 50 -> incl (exts ms) U -> incl (exts ms) r)).
  { intros ms. rewrite found_in_exts. destruct (@capped_spec 50 (exts ms) [] (NoDup_nil _)) as (A & B & _ & D & E); [cbn [List.length]; lia|].
    split; [exact A|]. split; [exact B|]. split; [intros y I; destruct (D y I) as [|[]]; assumption|]. intros U LU I. apply (E U LU); [intros ? []|exact I]. }
  destruct (@found_all_spec 50 (map (found_in 50) archives) [] (NoDup_nil _)) as (A & B & _ & D & E).
  { intros l I. apply in_map_iff in I. destruct I as (ms & <- & _). apply FI. }
  { cbn [List.length]. lia. }
  split; [exact A|]. split; [exact B|]. split.
  - intros x I. destruct (D x I) as [[]|(l & Il & Ix)]. apply in_map_iff in Il. destruct Il as (ms & <- & Im). exists ms. split; [exact Im|]. apply exts_spec. now apply FI.
  - intros U LU HU ms x I P.
    assert (IX : incl (exts ms) U) by (intros y Iy; apply (HU ms); [exact I|now apply exts_spec]).
    apply (E U LU) with (l := found_in 50 ms).
    + intros ? [].
    + intros l Il y Iy. apply in_map_iff in Il. destruct Il as (ms' & <- & Im). apply (HU ms'); [exact Im|]. apply exts_spec. now apply FI.
    + apply in_map_iff. eauto.
    + destruct (FI ms) as (_ & _ & _ & G). apply (G U LU IX). now apply exts_spec.
Qed.
(** "But at most 50" is not so: *)
Theorem C63_at_most_50_refuted : exists archives : list (list (member nat)), List.length (found_all 50 (map (found_in 50) archives)) = 99.
Proof.
  exists [map (fun i => mkM ("a." ++ digits 3 i)%string true 2 i) (seq 0 49); map (fun i => mkM ("a." ++ digits 3 i)%string true 2 i) (seq 49 60)].
  vm_compute. reflexivity.
Qed.

(** ** Examples *)
(** two archives, one of them unreadable, interleaved; the run completes with dataset.yaml: meets all hypotheses of the theorems above *)
Example C63_nonvacuous (enc_info : list (string * nat) -> bytes) (enc_split : splits -> bytes) (b : bytes) :
  let ar := fun p : string => if String.eqb p "x/a.tar" then Some ex_tar else None in
  let offs := map Z.of_nat (index_of ex_tar) in
  let infos := [Prepare.mkShard "x/a.tar" 3; Prepare.mkShard "x/b.tar" 0] in
  let ps := [("train", ["x/a.tar"])] in
  archives_ok ar /\ Forall tar_name ["x/a.tar"; "x/b.tar"] /\ NoDup ["x/a.tar"; "x/b.tar"] /\
  Prepare.ratio_split ["x/a.tar"] [("train", rnd 1 1)] = Ok ps /\
  prepare_run enc_info enc_split false ar ["x/a.tar"; "x/b.tar"] infos (Ok ps)
    [OIdx "x/a" CreateTmp; OIdx "x/b" CreateTmp; OIdx "x/a" (WriteTmp (flat_map pack offs)); OIdx "x/b" UnlinkTmp; OIdx "x/a" RenameTmp]
    (write_file FInfo [enc_info [("x/a.tar", 3)]] ++ write_file FSplit [enc_split (mkSplits ps [])] ++ write_file FDataset [b]).
Proof.
  intros ar offs infos ps.
  assert (TN : forall x, x = "x/a" \/ x = "x/b" -> tar_name (x ++ ".tar")).
  { intros x H. exists x. split; [reflexivity|]. split; [destruct H; subst; discriminate|]. intros y E. destruct y as [|c1 [|c2 [|c3 [|c4 y]]]]; destruct H; subst; discriminate. }
  split; [|split; [|split; [|split]]].
  - intros p ms E. unfold ar in E. destruct (String.eqb p "x/a.tar"); [|discriminate]. injection E as <-. split; [|vm_compute; reflexivity].
    intros m I. unfold ex_tar in I. cbn [In] in I. repeat (destruct I as [<-|I]; [cbn; lia|]). destruct I.
  - constructor; [apply (TN "x/a"); auto|constructor; [apply (TN "x/b"); auto|constructor]].
  - constructor; [intros [E|[]]; discriminate|]. constructor; [intros []|constructor].
  - vm_compute. reflexivity.
  - refine (@prep nat enc_info enc_split false ar ["x/a.tar"; "x/b.tar"] [([CreateTmp; WriteTmp (flat_map pack offs); RenameTmp], 3); ([CreateTmp; UnlinkTmp], 0)] (Ok ps) _ _ _ _ _).
    + constructor; [|constructor; [|constructor]]; cbn [fst snd].
      * change (ar "x/a.tar") with (Some ex_tar). change 3 with (count_of ex_tar). apply sr_ok. apply (@wr_ok _ [WriteTmp (flat_map pack offs)]).
        pose proof (@wo_cons (flat_map pack offs) [] [] wo_nil) as Q. rewrite app_nil_r in Q. exact Q.
      * apply (@sr_failed nat false _ offs 0). apply (@wr_exc _ 0 []). constructor.
    + cbn [combine map fst snd]. change (stem "x/a.tar") with "x/a". change (stem "x/b.tar") with "x/b".
      apply (@il_step []). apply (@il_step [_] _ _ []). apply (@il_step []). apply (@il_step [_] _ _ []). apply (@il_step []). constructor. repeat constructor.
    + apply mr_dataset; cbn [concat]; now rewrite app_nil_r.
Qed.

Print Assumptions C63_interrupted.
Print Assumptions C63_prepared.
Print Assumptions C63_again.
Print Assumptions C63_late_failure_refuted.
Print Assumptions C63_torn_info_refuted.
Print Assumptions C63_same_stem_refuted.
Print Assumptions C63_parts_found.
Print Assumptions C63_at_most_50_refuted.
