From Coq Require Import String Ascii Relations.
From Verif Require Import Base Epath.
Local Open Scope string_scope.
Local Open Scope list_scope.
Local Open Scope nat_scope.

Notation dd := ".."%string.

(** specification of path normalisation: cancelling "name/.." *)
Inductive cancel : list string -> list string -> Prop :=
| cancel_intro a x b : x <> dd -> cancel (a ++ x :: dd :: b) (a ++ b).
Definition cancels := clos_refl_trans_1n _ cancel.

Lemma cancels_trans a b c : cancels a b -> cancels b c -> cancels a c.
Proof.
  intros H. induction H as [x|x y z Hxy _ IH]; intros HC; [exact HC|].
  eapply Relation_Operators.rt1n_trans; [exact Hxy|exact (IH HC)].
Qed.

Lemma cancels_refl a : cancels a a.
Proof. constructor. Qed.

Lemma resolve_loop_spec l : forall acc, Forall (fun x => x <> dd) acc ->
  match resolve_loop acc l with
  | Ok r => cancels (rev acc ++ l) r /\ Forall (fun x => x <> dd) r
  | Err e => e = ValueError /\ exists r, cancels (rev acc ++ l) (dd :: r)
  end.
Proof.
  induction l as [|x l IH]; intros acc HA; cbn [resolve_loop].
  - rewrite app_nil_r. split; [constructor|]. apply Forall_rev. exact HA.
  - destruct (String.eqb x dd) eqn:E.
    + apply String.eqb_eq in E. subst x. destruct acc as [|y acc].
      * split; [reflexivity|]. exists l. constructor.
      * inversion HA; subst. specialize (IH acc H2).
        assert (C : cancels (rev (y :: acc) ++ dd :: l) (rev acc ++ l)).
        { cbn [rev]. rewrite <- app_assoc. cbn [app]. eapply Relation_Operators.rt1n_trans; [|apply cancels_refl]. constructor. auto. }
        destruct (resolve_loop acc l) as [r|e].
        -- destruct IH as [A B]. split; [|exact B]. eapply cancels_trans; eauto.
        -- destruct IH as [A [r B]]. split; [exact A|]. exists r. eapply cancels_trans; eauto.
    + apply String.eqb_neq in E. specialize (IH (x :: acc)). cbn [rev] in IH. rewrite <- app_assoc in IH. cbn [app] in IH.
      apply IH. constructor; auto.
Qed.

Lemma resolve_loop_plain l : forall acc, Forall (fun x => x <> dd) l -> resolve_loop acc l = Ok (rev acc ++ l).
Proof.
  induction l as [|x l IH]; intros acc H; cbn [resolve_loop]; [rewrite app_nil_r; reflexivity|].
  inversion H; subst. apply String.eqb_neq in H2. rewrite H2, IH by assumption. cbn [rev]. rewrite <- app_assoc. reflexivity.
Qed.

Lemma resolve_loop_app l1 : forall acc l2, resolve_loop acc (l1 ++ l2) =
  bind (resolve_loop acc l1) (fun r => resolve_loop (rev r) l2).
Proof.
  induction l1 as [|x l1 IH]; intros acc l2; cbn [resolve_loop app].
  - cbn [bind]. rewrite rev_involutive. reflexivity.
  - destruct (String.eqb x dd); [destruct acc; [reflexivity|apply IH]|apply IH].
Qed.

Lemma no_dd_existsb l : existsb (String.eqb dd) l = false <-> Forall (fun x => x <> dd) l.
Proof.
  induction l as [|x l IH]; cbn [existsb]; [split; auto|]. rewrite orb_false_iff, IH. split.
  - intros [A B]. constructor; auto. apply String.eqb_neq in A. congruence.
  - intros H. inversion H; subst. split; auto. apply String.eqb_neq. congruence.
Qed.

(** resolve in one formula *)
Lemma resolve_eq l : resolve (mkP true l) = bind (resolve_loop [] l) (fun r => Ok (mkP true r)).
Proof.
  unfold resolve. cbn [p_abs p_parts]. destruct (existsb (String.eqb dd) l) eqn:E; [reflexivity|].
  apply no_dd_existsb in E. rewrite resolve_loop_plain by exact E. reflexivity.
Qed.

Lemma strip_prefix_app a b : strip_prefix a (a ++ b) = Some b.
Proof. induction a as [|x a IH]; cbn; [reflexivity|]. rewrite String.eqb_refl. exact IH. Qed.

Lemma strip_prefix_some a : forall c b, strip_prefix a c = Some b -> c = a ++ b.
Proof.
  induction a as [|x a IH]; intros [|y c] b; cbn; try congruence. destruct (String.eqb x y) eqn:E; [|discriminate].
  apply String.eqb_eq in E. subst y. intros H. f_equal. apply IH. exact H.
Qed.

(** ** strings *)
Definition no_slash (s : string) : Prop := split_slash s = [s].

Definition part_ok (s : string) : Prop := no_slash s /\ keep_part s = true.

Lemma split_slash_nonnil s : split_slash s <> [].
Proof. destruct s as [|c s]; cbn; [discriminate|]. destruct (Ascii.eqb c "/"); [discriminate|]. destruct (split_slash s); discriminate. Qed.

Lemma no_slash_cons c s : no_slash (String c s) -> Ascii.eqb c "/" = false /\ no_slash s.
Proof.
  unfold no_slash. cbn. destruct (Ascii.eqb c "/"); [discriminate|].
  destruct (split_slash s) as [|x [|y r]] eqn:E; try discriminate; [exfalso; eapply split_slash_nonnil; eauto|].
  intros [= ->]. auto.
Qed.

Lemma split_slash_app x s : no_slash x -> split_slash (x ++ String "/" s) = x :: split_slash s.
Proof.
  induction x as [|c x IH]; intros H; [reflexivity|]. apply no_slash_cons in H. destruct H as [H1 H2].
  cbn [append split_slash]. rewrite H1, IH by exact H2. reflexivity.
Qed.

Lemma split_join l : l <> [] -> Forall no_slash l -> split_slash (join_slash l) = l.
Proof.
  induction l as [|x l IH]; [congruence|]. intros _ H. inversion H; subst. destruct l as [|y l].
  - cbn. assumption.
  - change (join_slash (x :: y :: l)) with (x ++ String "/" (join_slash (y :: l)))%string.
    rewrite split_slash_app by assumption. f_equal. apply IH; [discriminate|assumption].
Qed.

Lemma filter_keep l : Forall part_ok l -> filter keep_part l = l.
Proof. induction 1 as [|x l [H1 H2] H IH]; [reflexivity|]. cbn. rewrite H2, IH. reflexivity. Qed.

Lemma parse_render_abs l : Forall part_ok l -> parse (render (mkP true l)) = mkP true l.
Proof.
  intros H. unfold parse, render. cbn [p_abs p_parts append]. f_equal. cbn [split_slash]. cbn [Ascii.eqb].
  destruct l as [|x l]; [reflexivity|]. rewrite split_join; [|discriminate|eapply Forall_impl; [|exact H]; intros a Ha; apply Ha].
  change (filter keep_part (x :: l) = x :: l). apply filter_keep. exact H.
Qed.

Lemma parse_parts_ok s : Forall part_ok (p_parts (parse s)).
Proof.
  cbn [parse p_parts]. assert (G : Forall no_slash (split_slash s)).
  { induction s as [|c s IH]; cbn; [repeat constructor|]. destruct (Ascii.eqb c "/") eqn:E; [constructor; [reflexivity|exact IH]|].
    destruct (split_slash s) as [|x r] eqn:ES; [repeat constructor; unfold no_slash; cbn; rewrite E; reflexivity|].
    inversion IH; subst. constructor; [|assumption]. unfold no_slash in *. cbn. rewrite E, H1. reflexivity. }
  induction G as [|x l H G IH]; [constructor|]. cbn [filter]. destruct (keep_part x) eqn:E; [constructor; auto|exact IH].
  split; auto.
Qed.
