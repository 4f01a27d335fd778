(** C17: which members of a tar file belong to a sample, and how their names are taken apart, stated with the two regular
    expressions of config.py:6-7 written out as concatenations. *)
From Coq Require Import String Ascii.
From Verif Require Import Base Tar.
Local Open Scope string_scope.
Local Open Scope list_scope.
Local Open Scope nat_scope.

Fixpoint no_char (c : ascii) (s : string) : Prop :=
  match s with "" => True | String x s' => x <> c /\ no_char c s' end.

(** the first expression: start, group 1 = (anything ending in a slash, or nothing) and at least one non-dot; a dot; group 2 =
    non-slashes; end (names without newlines) *)
Definition matches_name (s base ext : string) : Prop :=
  exists dir stem, s = (dir ++ stem ++ "." ++ ext)%string /\ base = (dir ++ stem)%string /\
    (dir = "" \/ exists d, dir = (d ++ "/")%string) /\ stem <> "" /\ no_char "."%char stem /\ no_char "/"%char ext.

(** the second, at the start of the name: two underscores, non-slashes, two underscores, then the end or a slash *)
Definition matches_meta (s : string) : Prop :=
  exists m rest, s = ("__" ++ m ++ "__" ++ rest)%string /\ no_char "/"%char m /\ (rest = "" \/ exists r, rest = String "/" r).

(* ---------------- strings ---------------- *)
Lemma sapp_assoc a b c : ((a ++ b) ++ c = a ++ (b ++ c))%string.
Proof. induction a as [|x a IH]; cbn; [reflexivity | now rewrite IH]. Qed.
Lemma sapp_nil_r a : (a ++ "" = a)%string.
Proof. induction a as [|x a IH]; cbn; [reflexivity | now rewrite IH]. Qed.
Lemma sapp_nonempty a b : b <> "" -> (a ++ b)%string <> "".
Proof. destruct a; cbn; [auto | discriminate]. Qed.
Lemma no_char_app c a b : no_char c (a ++ b) <-> no_char c a /\ no_char c b.
Proof. induction a as [|x a IH]; cbn; [tauto|]. rewrite IH. tauto. Qed.
Lemma sapp_inv_head a b c : (a ++ b = a ++ c)%string -> b = c.
Proof. induction a as [|x a IH]; cbn; intros H; [exact H|]. injection H. exact IH. Qed.
Lemma ceqb_true x y : ceqb x y = true <-> x = y.
Proof. apply Ascii.eqb_eq. Qed.

Lemma cut_some c : forall s a b, cut c s = Some (a, b) -> s = (a ++ String c b)%string /\ no_char c a.
Proof.
  induction s as [|x s IH]; intros a b E; cbn in E; [discriminate|]. destruct (ceqb x c) eqn:Ex.
  - apply ceqb_true in Ex as ->. injection E as <- <-. split; [reflexivity | exact I].
  - destruct (cut c s) as [[a' b']|]; [|discriminate]. injection E as <- <-. destruct (IH a' b' eq_refl) as [-> N].
    split; [reflexivity|]. split; [|exact N]. intros ->. unfold ceqb in Ex. now rewrite Ascii.eqb_refl in Ex.
Qed.
Lemma cut_none c : forall s, cut c s = None -> no_char c s.
Proof.
  induction s as [|x s IH]; intros E; cbn in *; [exact I|]. destruct (ceqb x c) eqn:Ex; [discriminate|].
  split; [intros ->; unfold ceqb in Ex; now rewrite Ascii.eqb_refl in Ex|]. apply IH. destruct (cut c s) as [[? ?]|]; [discriminate | reflexivity].
Qed.
Lemma cut_of c : forall a b, no_char c a -> cut c (a ++ String c b) = Some (a, b).
Proof.
  induction a as [|x a IH]; intros b N; cbn.
  - unfold ceqb. now rewrite Ascii.eqb_refl.
  - destruct N as [N1 N2]. destruct (ceqb x c) eqn:Ex; [apply ceqb_true in Ex; contradiction|]. now rewrite IH.
Qed.
Lemma cut_no c s : no_char c s -> cut c s = None.
Proof.
  induction s as [|x s IH]; intros N; cbn; [reflexivity|]. destruct N as [N1 N2].
  destruct (ceqb x c) eqn:Ex; [apply ceqb_true in Ex; contradiction|]. now rewrite IH.
Qed.

Lemma dir_file_spec : forall s d f, dir_file s = (d, f) ->
  s = (d ++ f)%string /\ no_char slash f /\ (d = "" \/ exists d', d = (d' ++ "/")%string).
Proof.
  induction s as [|c s IH]; intros d f E; cbn in E.
  - injection E as <- <-. repeat split; auto.
  - destruct (dir_file s) as [d0 f0]. destruct (IH d0 f0 eq_refl) as [-> [N D]]. destruct d0 as [|c0 d0].
    + destruct (ceqb c slash) eqn:Ec.
      * apply ceqb_true in Ec as ->. injection E as <- <-. cbn. repeat split; auto. right. now exists "".
      * injection E as <- <-. cbn. repeat split; auto. intros ->. discriminate.
    + injection E as <- <-. split; [reflexivity|]. split; [exact N|]. right.
      destruct D as [D | [d' D]]; [discriminate|]. exists (String c d'). cbn. now rewrite D.
Qed.

Lemma dir_file_no : forall f, no_char slash f -> dir_file f = ("", f).
Proof.
  induction f as [|c f IH]; intros N; cbn; [reflexivity|]. destruct N as [N1 N2]. rewrite IH by exact N2.
  destruct (ceqb c slash) eqn:Ec; [apply ceqb_true in Ec; contradiction | reflexivity].
Qed.

Lemma dir_file_of : forall d f, no_char slash f -> (d = "" \/ exists d', d = (d' ++ "/")%string) -> dir_file (d ++ f) = (d, f).
Proof.
  intros d f N [-> | [d' ->]]; [now apply dir_file_no|]. rewrite sapp_assoc. induction d' as [|c d' IH].
  - cbn. rewrite dir_file_no by exact N. reflexivity.
  - cbn [append dir_file]. cbn [append] in IH. rewrite IH. destruct d'; reflexivity.
Qed.

Lemma drop_last_snoc : forall s c, drop_last (s ++ String c "") = s.
Proof.
  induction s as [|x s IH]; intros c; [reflexivity|]. cbn [append drop_last]. rewrite IH.
  destruct s; reflexivity.
Qed.

(** last slash of a string that contains one *)
Lemma split_last : forall s, no_char slash s \/ exists d f, s = (d ++ String slash f)%string /\ no_char slash f.
Proof.
  intros s. destruct (dir_file s) as [d f] eqn:E. destruct (dir_file_spec E) as [-> [N [-> | [d' ->]]]].
  - left. exact N.
  - right. exists d', f. split; [|exact N]. now rewrite sapp_assoc.
Qed.

(** two ways to write a string with a slash-free rest after a slash-terminated or empty prefix agree *)
Lemma dir_unique d f d' f' : (d ++ f = d' ++ f')%string -> no_char slash f -> no_char slash f' ->
  (d = "" \/ exists x, d = (x ++ "/")%string) -> (d' = "" \/ exists x, d' = (x ++ "/")%string) -> d = d' /\ f = f'.
Proof.
  intros E N N' D D'. pose proof (dir_file_of N D) as H. rewrite E, (dir_file_of N' D') in H. now injection H as -> ->.
Qed.

(** The names are taken apart as the regular expression says: base name and extension, for every name. *)
Theorem C17_member_name : forall s base ext, split_name s = Some (base, ext) <-> matches_name s base ext.
Proof.
  intros s base ext. unfold split_name. destruct (dir_file s) as [d f] eqn:Edf.
  destruct (dir_file_spec Edf) as [Es [Nf Dd]]. subst s. split.
  - destruct (cut dot f) as [[stem e]|] eqn:Ec; [|discriminate]. destruct (cut_some Ec) as [-> Ns].
    assert (Ne : no_char slash e) by (apply no_char_app in Nf as [_ [_ Ne]]; exact Ne).
    destruct stem as [|c stem].
    + destruct d as [|c d]; [discriminate|]. set (d0 := String c d) in *.
      destruct Dd as [Dd | [d' Dd]]; [discriminate|]. rewrite Dd in *. change "/" with (String slash "") at 1. rewrite drop_last_snoc.
      destruct (dir_file d') as [dd cc] eqn:E2. destruct (dir_file_spec E2) as [-> [Nc Ddd]].
      unfold has_char. destruct (cut dot cc) as [[? ?]|] eqn:E3; [discriminate|]. intros H. injection H as <- <-.
      apply cut_none in E3. exists dd, (cc ++ "/")%string. repeat split.
      * now rewrite !sapp_assoc.
      * now rewrite sapp_assoc.
      * exact Ddd.
      * apply sapp_nonempty. discriminate.
      * apply no_char_app. split; [exact E3|]. split; [discriminate | exact I].
      * exact Ne.
    + intros H. injection H as <- <-. exists d, (String c stem). repeat split; auto.
      * discriminate.
      * apply Ns.
      * apply Ns.
  - intros [dir [stem [E [-> [Dd' [Hs [Ns Ne]]]]]]].
    destruct (split_last stem) as [Nsl | [a [b [-> Nb]]]].
    + (* the stem has no slash *)
      assert (Nf' : no_char slash (stem ++ "." ++ ext)).
      { apply no_char_app. split; [exact Nsl|]. cbn. split; [discriminate | exact Ne]. }
      destruct (dir_unique E Nf Nf' Dd Dd') as [-> ->].
      change ("." ++ ext)%string with (String dot ext). rewrite cut_of by exact Ns.
      destruct stem as [|c stem]; [contradiction | reflexivity].
    + (* the stem ends with a/, then b *)
      assert (Nf' : no_char slash (b ++ "." ++ ext)).
      { apply no_char_app. split; [exact Nb|]. cbn. split; [discriminate | exact Ne]. }
      assert (E' : (d ++ f = (dir ++ a ++ "/") ++ (b ++ "." ++ ext))%string).
      { rewrite E, !sapp_assoc. reflexivity. }
      assert (Dd2 : (dir ++ a ++ "/")%string = "" \/ exists x, (dir ++ a ++ "/")%string = (x ++ "/")%string).
      { right. exists (dir ++ a)%string. now rewrite sapp_assoc. }
      destruct (dir_unique E' Nf Nf' Dd Dd2) as [-> ->].
      apply no_char_app in Ns as [Na [_ Nb']]. change ("." ++ ext)%string with (String dot ext). rewrite cut_of by exact Nb'.
      destruct b as [|c b].
      * (* the file name begins with the dot *)
        assert (Hd : exists c0 d0, (dir ++ a ++ "/")%string = String c0 d0).
        { destruct (dir ++ a ++ "/")%string as [|c0 d0] eqn:Q; [|eauto]. exfalso. revert Q. apply sapp_nonempty, sapp_nonempty. discriminate. }
        destruct Hd as [c0 [d0 Hd]]. rewrite Hd, <- Hd.
        rewrite <- (sapp_assoc dir a "/"). change "/" with (String slash "") at 1. rewrite drop_last_snoc.
        destruct (split_last a) as [Na' | [a1 [a2 [-> Na2]]]].
        -- rewrite (dir_file_of Na' Dd'). unfold has_char. rewrite (@cut_no dot _ Na). f_equal. f_equal. now rewrite sapp_assoc.
        -- assert (Q : (dir ++ a1 ++ String slash a2)%string = ((dir ++ a1 ++ "/") ++ a2)%string) by now rewrite !sapp_assoc.
           rewrite Q, dir_file_of; [|exact Na2 | right; exists (dir ++ a1)%string; now rewrite sapp_assoc].
           apply no_char_app in Na as [_ [_ Na2']]. unfold has_char. rewrite (@cut_no dot _ Na2'). f_equal. f_equal.
           now rewrite !sapp_assoc.
      * f_equal. f_equal. now rewrite !sapp_assoc.
Qed.

Lemma ends_uu_spec : forall s, ends_uu s = true <-> exists m, s = (m ++ "__")%string.
Proof.
  induction s as [|a s IH].
  - split; [discriminate|]. intros [m H]. destruct m; discriminate.
  - destruct s as [|b s].
    + split; [discriminate|]. intros [m H]. destruct m as [|? [|? m]]; discriminate.
    + destruct s as [|c s].
      * cbn [ends_uu]. rewrite Bool.andb_true_iff, !ceqb_true. split.
        -- intros [-> ->]. now exists "".
        -- intros [m H]. destruct m as [|? [|? [|? m]]]; try discriminate. injection H as -> ->. auto.
      * assert (E : ends_uu (String a (String b (String c s))) = ends_uu (String b (String c s))) by reflexivity.
        rewrite E, IH. split.
        -- intros [m ->]. now exists (String a m).
        -- intros [m H]. destruct m as [|x m]; [discriminate|]. injection H as -> H. now exists m.
Qed.

Lemma first_comp_spec s : no_char slash (first_comp s) /\ exists rest, s = (first_comp s ++ rest)%string /\ (rest = "" \/ exists r, rest = String "/" r).
Proof.
  unfold first_comp. destruct (cut slash s) as [[a b]|] eqn:E.
  - destruct (cut_some E) as [-> N]. split; [exact N|]. exists (String slash b). split; [reflexivity | right; now exists b].
  - apply cut_none in E. split; [exact E|]. exists "". split; [now rewrite sapp_nil_r | now left].
Qed.

(** Members are skipped as the other regular expression says. *)
Theorem C17_member_skipped : forall s, skip_meta s = true <-> matches_meta s.
Proof.
  intros s. unfold skip_meta, matches_meta. destruct (first_comp_spec s) as [N [rest [Es R]]]. split.
  - destruct (first_comp s) as [|a [|b t]] eqn:Ef; try discriminate.
    rewrite !Bool.andb_true_iff, !ceqb_true. intros [[-> ->] H]. apply ends_uu_spec in H as [m ->].
    exists m, rest. split; [rewrite Es; cbn; now rewrite sapp_assoc|]. split; [|exact R].
    cbn in N. destruct N as [_ [_ N]]. apply no_char_app in N as [N _]. exact N.
  - intros [m [rest' [E [Nm R']]]].
    assert (Ef : first_comp s = ("__" ++ m ++ "__")%string).
    { unfold first_comp. rewrite E. destruct R' as [-> | [r ->]].
      - rewrite cut_no; [now rewrite sapp_nil_r|]. apply no_char_app. split; [repeat split; discriminate|].
        apply no_char_app. split; [exact Nm | repeat split; discriminate].
      - replace ("__" ++ m ++ "__" ++ String "/" r)%string with (("__" ++ m ++ "__") ++ String slash r)%string by now rewrite !sapp_assoc.
        rewrite cut_of; [reflexivity|]. apply no_char_app. split; [repeat split; discriminate|].
        apply no_char_app. split; [exact Nm | repeat split; discriminate]. }
    rewrite Ef. cbn [append]. rewrite !Bool.andb_true_iff. repeat split. apply ends_uu_spec. now exists m.
Qed.

(** "part of a sample" for the indexer and the reader (prepare.py:79-91, single_shard_reader.py:122-140) *)
Theorem C17_parts : forall (Dat : Type) (m : member Dat) base ext,
  part_of m = Some (base, ext) <-> m_reg m = true /\ ~ matches_meta (m_name m) /\ matches_name (m_name m) base ext.
Proof.
  intros Dat m base ext. unfold part_of. rewrite <- C17_member_skipped, <- C17_member_name.
  destruct (m_reg m); cbn [negb]; [|split; [discriminate | intros [H _]; discriminate]].
  destruct (skip_meta (m_name m)); split.
  - discriminate.
  - intros [_ [H _]]. now exfalso; apply H.
  - intros H. split; [reflexivity|]. split; [discriminate | exact H].
  - intros [_ [_ H]]. exact H.
Qed.

(** The match is unique, so base name and extension are functions of the name. *)
Theorem C17_name_unique : forall s b e b' e', matches_name s b e -> matches_name s b' e' -> b = b' /\ e = e'.
Proof.
  intros s b e b' e' H H'. apply C17_member_name in H, H'. rewrite H in H'. injection H' as -> ->. auto.
Qed.

Example C17_names :
  split_name "imgs.v2/0001.left.jpg" = Some ("imgs.v2/0001", "left.jpg") /\
  split_name "a/.json" = Some ("a/", "json") /\ split_name "a.b/.json" = None /\ split_name ".json" = None /\
  split_name "readme" = None /\ skip_meta "__key__/x.y" = true /\ skip_meta "___" = false /\ skip_meta "a/__b__" = false.
Proof. repeat split. Qed.
