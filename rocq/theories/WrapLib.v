(** Lemmas about the vocabulary of WrapSpec. *)
From Verif Require Import Base Dataset DatasetProofs Wrap WrapProofs WrapRun WrapTrace WrapSpec.

Lemma clean_not_raise {P} (l : list (event (sample P))) : clean l <-> Forall (fun e => not_raise e) l.
Proof. reflexivity. Qed.

Lemma no_done_Yield {P} (l : list (sample P)) i e : map Yield l = i ++ [Done] ++ e -> False.
Proof.
  revert i; induction l as [|x l IH]; intros [|y i] H; try discriminate. injection H as _ H. eapply IH; exact H.
Qed.

Lemma epoch_split {P} (xs : list (sample P)) : forall p q, map Yield xs ++ [Done] = p ++ Done :: q -> p = map Yield xs /\ q = [].
Proof.
  induction xs as [|x xs IH]; intros [|y p] q H; cbn in H; try discriminate.
  - injection H as <-. auto.
  - injection H as _ H. destruct p; discriminate.
  - injection H as <- H. destruct (IH _ _ H) as [-> ->]. auto.
Qed.

Lemma Yield_inj {P} (xs ys : list (sample P)) : map (@Yield _) xs = map Yield ys -> xs = ys.
Proof. revert ys; induction xs as [|x xs IH]; intros [|y ys] H; try discriminate; [reflexivity|].
  injection H as <- H. f_equal. apply IH. exact H. Qed.

(** a single inner epoch that was fully processed *)
Lemma per_epoch_single {P Q} (Full : list (sample P) -> list (sample Q) -> Prop) i o xs xs' :
  per_epoch Full i o -> i ++ map Yield xs' = epoch xs ->
  xs' = [] /\ exists ys, o = epoch ys /\ Full xs ys.
Proof.
  intros H E. unfold epoch in E. destruct H as [|i0 o0 x1 y1 H0 HF].
  - exfalso. apply (@no_done_Yield _ xs' (map Yield xs) []). exact E.
  - unfold epoch in E. rewrite <- !app_assoc in E. symmetry in E. rewrite (app_assoc i0) in E.
    apply (@epoch_split _ xs (i0 ++ map Yield x1) (map Yield xs')) in E. destruct E as [E1 E2].
    destruct xs' as [|? ?]; [|discriminate]. split; [reflexivity|].
    destruct H0 as [|i1 o1 x2 y2 H1 HF1].
    + cbn in E1. apply Yield_inj in E1. subst x1. exists y1. auto.
    + exfalso. unfold epoch in E1. rewrite <- !app_assoc in E1. symmetry in E1.
      rewrite (app_assoc i1) in E1. eapply no_done_Yield. exact E1.
Qed.

Lemma per_epoch_single_out {P Q} (Full : list (sample P) -> list (sample Q) -> Prop) i o ys ys' :
  per_epoch Full i o -> o ++ map Yield ys' = epoch ys ->
  ys' = [] /\ exists xs, i = epoch xs /\ Full xs ys.
Proof.
  intros H E.
  assert (S : per_epoch (fun a b => Full b a) o i) by (clear E; induction H; econstructor; eauto).
  destruct (per_epoch_single S E) as (X & xs & -> & F). eauto.
Qed.

Lemma map_inp_snoc {P} (ins : list (option (sample P))) r : map inp (ins ++ [r]) = map inp ins ++ [inp r].
Proof. apply map_app. Qed.

Lemma map_Yield_snoc {P} (xs : list (sample P)) a : map (@Yield _) (xs ++ [a]) = map Yield xs ++ [Yield a].
Proof. apply map_app. Qed.

Lemma fresh_it_ok {A B} (T : trans A B) (D : dataset A) b : it_ok b (fresh (wrap T D)).
Proof. intros _. reflexivity. Qed.

Lemma fresh_eff {A B} (T : trans A B) (D : dataset A) : eff (fresh (wrap T D)) = fresh D.
Proof. reflexivity. Qed.

Lemma clean_Yields {P} (xs : list (sample P)) : clean (map Yield xs).
Proof. apply Forall_forall. intros x H. apply in_map_iff in H as (a & <- & _). exact I. Qed.

Lemma clean_epoch {P} (xs : list (sample P)) : clean (epoch xs).
Proof. apply Forall_app. split; [apply clean_Yields|repeat constructor]. Qed.

Lemma inp_some {P} (xs : list (sample P)) : map inp (map Some xs) = map Yield xs.
Proof. rewrite map_map. reflexivity. Qed.

Lemma inp_epoch {P} (xs : list (sample P)) : map inp (map Some xs ++ [None]) = epoch xs.
Proof. rewrite map_app, inp_some. reflexivity. Qed.

(** every clean event list is the image of inner results *)
Lemma clean_inp {P} (l : list (event (sample P))) : clean l -> exists ins, l = map inp ins.
Proof.
  induction 1 as [|e l H _ (ins & ->)]; [exists []; reflexivity|].
  destruct e as [a| | |x]; try contradiction; [exists (Some a :: ins)|exists (None :: ins)]; reflexivity.
Qed.

Lemma local_ok_weaken {A B} (T : trans A B) rs w nw rst Q (Y Y' : sample B -> Prop) (Dn Dn' : Prop) Inv Sav :
  (forall y, Y y -> Y' y) -> (Dn -> Dn') ->
  local_ok (T := T) rs w nw rst Q Y Dn Inv Sav -> local_ok (T := T) rs w nw rst Q Y' Dn' Inv Sav.
Proof.
  intros HY HD [H1 H2 H3 H4 H5 H6 H7].
  assert (P : forall b x, post Y Dn Inv Sav b x -> post Y' Dn' Inv Sav b x).
  { intros b [[o g] [a| | |e]]; cbn; intuition auto. }
  constructor; auto.
  - intros b l o g e Hi Ha. apply P. eapply H3; eauto.
  - intros b l k r Hi Ha Hq. apply P. eapply H4; eauto.
Qed.

Lemma n_yields_snoc {P} (l : list (event (sample P))) e :
  n_yields (l ++ [e]) = n_yields l + match e with Yield _ => 1 | _ => 0 end.
Proof.
  induction l as [|x l IH]; [destruct e; reflexivity|].
  destruct x; cbn [app n_yields]; rewrite IH; lia.
Qed.

Lemma local_yields_weaken {A B} (T : trans A B) rst nw ne nr (Y Y' : (rkey -> result (sample A)) -> nat -> sample B -> Prop) (Dn Dn' : Prop) :
  (forall rs w y, Y rs w y -> Y' rs w y) -> (Dn -> Dn') -> local_yields T rst nw ne nr Y Dn -> local_yields T rst nw ne nr Y' Dn'.
Proof.
  intros HY HD H w rs Hw. destruct (H w rs Hw) as (Inv & Sav & L). exists Inv, Sav. eapply local_ok_weaken; [| |exact L]; auto.
Qed.

(** sample restoring and endlessness from one fact *)
Lemma wrap_restores {A B} (T : trans A B) (D : dataset A) nw rst : t_keep T = false -> no_reset T -> restorable D rst nw ->
  local_yields T rst nw false true (fun rs w y => t_restore_sample T rs w (rk y) = Ok y) True ->
  restorable (wrap T D) rst nw.
Proof.
  intros HK HN HR LY. apply (@wrap_restorable A B T D nw rst rst false true); auto; try discriminate.
Qed.

Lemma wrap_never_ends {A B} (T : trans A B) (D : dataset A) nw rst Y : t_keep T = false -> no_reset T -> endless D rst nw ->
  local_yields T rst nw true false Y False -> endless (wrap T D) rst nw.
Proof.
  intros HK HN HR LY. apply (@wrap_endless A B T D nw rst rst true false) with (Y := Y); auto; try discriminate.
Qed.
