(** Facts about single wrappers needed for whole pipelines (C15, C45): what is yielded can be
    restored, and an endless input makes an endless output. *)
From Verif Require Import Base Dataset DatasetProofs Wrap WrapProofs WrapRun WrapSpec WrapLib Rng RngProofs Wrappers
  ShuffleBuffer MapModel Batch GroupBatch IdxProofs SimpleProofs ShuffleProofs RepeatProofs EpochizeProofs LimitProofs MapGenProofs
  BatchProofs GroupBatchProofs.

Section Yields.
  Context {A B : Type} (T : trans A B) (D : dataset A) (nw : nat) (rin rout ne nr : bool).
  Hypothesis Hnr : nr = true -> restorable D rin nw.
  Hypothesis Hne : ne = true -> endless D rin nw.
  Hypothesis Hrout : rout = true -> rin = true /\ t_keep T = false.
  Hypothesis Hreset : no_reset T \/ rin = true.

  Lemma wrap_yields_r Y Dn : local_yields T rout nw ne nr Y Dn ->
    forall w s e s', w < nw -> reach w rout nw s -> next (D := wrap T D) w s e s' ->
      match e with Yield y => Y (ds_restore_sample D w) w y | Done => Dn | _ => True end.
  Proof.
    intros LY w s e s' Hw Rs [n N].
    destruct (LY w (ds_restore_sample D w) Hw) as (Inv & Sav & LO).
    assert (Hr' : (forall l o g, act (T := T) (ds_restore_sample D w) w l <> Reset o g) \/ rin = true).
    { destruct Hreset as [H|H]; [left; intros l o g; apply H|right; exact H]. }
    destruct (good_reach (@Qof_y _ D nw rin ne nr Hnr w Hw) (@Qof_d _ D nw rin ne nr Hne w Hw) Hr' Hrout LO Rs) as (b & HS & HR & Hb).
    assert (G : good w nw rin Inv s) by (exists b; split; [apply (lo_sav LO); exact HS|auto]).
    pose proof (good_next (@Qof_y _ D nw rin ne nr Hnr w Hw) (@Qof_d _ D nw rin ne nr Hne w Hw) Hr' Hrout LO G N) as P.
    destruct e; auto; apply P.
  Qed.

  Lemma wrap_restorable_r :
    local_yields T rout nw ne nr (fun rs w y => t_restore_sample T rs w (rk y) = Ok y) True ->
    restorable (wrap T D) rout nw.
  Proof. intros LY w s a s' Hw Rs N. exact (wrap_yields_r LY Hw Rs N). Qed.
End Yields.

Lemma reach_false {P} (D : dataset P) w nw s : reach (D := D) w false nw s -> reach w true nw s.
Proof.
  induction 1; [constructor|econstructor 2; eauto|econstructor 3; eauto|econstructor 4; eauto|discriminate].
Qed.
Lemma restorable_false {P} (D : dataset P) nw rst : restorable D true nw -> restorable D rst nw.
Proof. intros H w s a s' Hw HR. destruct rst; [eauto|apply H; auto using reach_false]. Qed.

(** wrappers that pass samples through *)
Section Pass.
  Context {A : Type} (nw : nat).
  Definition passes (T : trans A A) : Prop := forall rs w key, t_restore_sample T rs w key = rs key.

  Lemma pass_yields (T : trans A A) rst ne Dn : passes T ->
    local_yields T rst nw ne true (fun rs w y => rs (rk y) = Ok y) Dn ->
    local_yields T rst nw ne true (fun rs w y => t_restore_sample T rs w (rk y) = Ok y) Dn.
  Proof. intros HP. apply local_yields_weaken; auto. intros rs w y H. rewrite HP. exact H. Qed.

  Lemma filter_yields p rst ne : local_yields (filter_ds (A := A) nw p) rst nw ne true (fun rs w y => rs (rk y) = Ok y) (ne = false).
  Proof.
    intros w rs Hw. eexists _, _. apply idx_local_ok; auto.
    - intros i a. destruct (p w i (pl a)) as [[|]|]; discriminate.
    - intros i a y E H. destruct (p w i (pl a)) as [[|]|]; try discriminate. injection E as <-. auto.
  Qed.
  Lemma log_yields rst ne : local_yields (log_ds (A := A) nw) rst nw ne true (fun rs w y => rs (rk y) = Ok y) (ne = false).
  Proof.
    intros w rs Hw. eexists _, _. apply idx_local_ok; auto.
    - intros i a. discriminate.
    - intros i a y E H. injection E as <-. auto.
  Qed.
  Lemma gc_yields every_n rst ne : local_yields (gc_ds (A := A) true every_n) rst nw ne true (fun rs w y => rs (rk y) = Ok y) (ne = false).
  Proof. intros w rs Hw. eexists _, _. eapply local_ok_weaken; [| |apply gc_local_ok]; cbn; auto. Qed.
  Lemma shuffle_yields R size (OK : rng_ok R) rst ne : local_yields (shuffle_buffer (A := A) R nw size) rst nw ne true (fun rs w y => rs (rk y) = Ok y) (ne = false).
  Proof. intros w rs Hw. eexists _, _. apply shuffle_local_ok. exact Hw. Qed.
  Lemma epochize_yields len rst ne : local_yields (epochize_ds (A := A) nw len) rst nw ne true (fun rs w y => rs (rk y) = Ok y) True.
  Proof. intros w rs Hw. eexists _, _. eapply local_ok_weaken; [| |apply ep_local_ok; exact Hw]; cbn; auto. Qed.
  Lemma limit_yields len rst ne : local_yields (limit_ds (A := A) nw len) rst nw ne true (fun rs w y => rs (rk y) = Ok y) True.
  Proof. intros w rs Hw. eexists _, _. eapply local_ok_weaken; [| |apply lm_local_ok; exact Hw]; cbn; auto. Qed.

  Lemma repeat_any_ok reps has rst ne w rs : local_ok (T := repeat_ds (A := A) nw reps has) rs w nw rst (Qof ne true rs) (fun y => rs (rk y) = Ok y) True
    (fun b l => match snd l with RpIn _ => True | _ => b = true end) (fun b l => match snd l with RpIn _ => True | _ => b = true end).
  Proof.
    constructor; auto.
    - reflexivity.
    - intros b [o g] o' g' e HI Ha. unfold act in Ha. destruct g as [|k|k]; cbn [repeat_ds t_act fst snd] in Ha, HI.
      + destruct reps as [n|]; [injection Ha as <- <- <-; exact HI|].
        destruct (has w); injection Ha as <- <- <-; cbn; auto.
      + destruct reps as [n|].
        * destruct (k <? n); injection Ha as <- <- <-; cbn; auto.
        * injection Ha as <- <- <-; cbn; auto.
      + discriminate.
    - intros b [o g] k r HI Ha HQ. unfold act in Ha. destruct g as [|j|j]; cbn [repeat_ds t_act fst snd] in Ha.
      + destruct reps as [n|]; [discriminate|]. destruct (has w); discriminate.
      + destruct reps as [n|]; [destruct (j <? n)|]; discriminate.
      + injection Ha as <-. destruct r as [a|]; cbn in *; auto.
    - intros b [o g] o' g' HI Ha. exfalso. unfold act in Ha. destruct g as [|j|j]; cbn [repeat_ds t_act fst snd] in Ha; try discriminate.
      + destruct reps as [n|]; [discriminate|]. destruct (has w); discriminate.
      + destruct reps as [n|]; [destruct (j <? n)|]; discriminate.
    - intros b [o g] sts _ _ _. reflexivity.
    - intros b [o g] _ _. reflexivity.
  Qed.
  Lemma repeat_yields reps has rst ne : local_yields (repeat_ds (A := A) nw reps has) rst nw ne true (fun rs w y => rs (rk y) = Ok y) True.
  Proof. intros w rs Hw. eexists _, _. apply repeat_any_ok. Qed.
  Lemma repeat_inf_yields has rst ne : (forall w, w < nw -> has w = true) ->
    local_yields (repeat_ds (A := A) nw None has) rst nw ne true (fun rs w y => rs (rk y) = Ok y) False.
  Proof.
    intros H w rs Hw. eexists _, _. eapply local_ok_weaken; [| |apply repeat_inf_ok; auto]; cbn; auto.
  Qed.
End Pass.
