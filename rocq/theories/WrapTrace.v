(** Proving what a wrapper emits: one relation [J ins outs b l] between the inner results consumed
    so far, the events emitted so far and the wrapper's state, checked step by step. *)
From Verif Require Import Base Dataset DatasetProofs Wrap WrapProofs WrapRun.

Section Trace.
  Context {A B : Type} (T : trans A B) (D : dataset A) (w : nat).
  Notation rs := (ds_restore_sample D w).
  Notation W := (wrap T D).
  Variable J : list (option (sample A)) -> list (event (sample B)) -> bool -> lst T -> Prop.

  Definition trace_ok : Prop := forall ins outs b l, J ins outs b l ->
    match act rs w l with
    | Local o g e => is_raise e = false -> done_ok T b e /\ J ins (outs ++ obs e) b (after (o, g, e))
    | Pull k => forall r, is_raise (ev_of (k r)) = false ->
        done_ok T (is_none r) (ev_of (k r)) /\
        J (ins ++ [r]) (outs ++ obs (ev_of (k r))) (is_none r) (after (k r))
    | Reset _ _ => False
    end.

  (** every local step makes [mu] smaller, and the wrapper does not raise by itself *)
  Definition trace_progress (mu : lst T -> nat) : Prop := forall ins outs b l, J ins outs b l ->
    match act rs w l with
    | Local o g e => is_raise e = false /\ mu (after (o, g, e)) < mu l
    | Pull k => forall r, is_raise (ev_of (k r)) = false
    | Reset _ _ => False
    end.

  Definition pulls (l : lst T) : Prop := match act rs w l with Pull _ => True | _ => False end.

  Hypothesis HJ : trace_ok.

  Lemma lrun_trace b l ins outs b' l' : lrun rs w b l ins outs b' l' ->
    forall ins0 outs0, J ins0 outs0 b l -> J (ins0 ++ ins) (outs0 ++ outs) b' l'.
  Proof.
    induction 1 as [b l|b l o g e ins outs b' l' Ha Hr Hd HL IH|b l k r ins outs b' l' Ha Hr Hd HL IH];
      intros ins0 outs0 H0.
    - rewrite !app_nil_r. exact H0.
    - pose proof (HJ H0) as S. rewrite Ha in S. destruct (S Hr) as [_ S'].
      rewrite app_assoc. apply IH. exact S'.
    - pose proof (HJ H0) as S. rewrite Ha in S. destruct (S r Hr) as [_ S'].
      rewrite app_assoc. specialize (IH _ _ S'). rewrite <- app_assoc in IH. exact IH.
  Qed.

  (** everything the wrapper emits (without an escaping exception) is explained by [J] *)
  Theorem wrap_trace outs (s : st W) b : Forall (fun e => not_raise e) outs ->
    J [] [] b (loc s) -> it_ok b s -> emits w s outs ->
    exists ins b' l', emits w (eff s) (map inp ins) /\ J ins outs b' l'.
  Proof.
    intros HF H0 Hb E.
    assert (HI : forall b l, (exists i o, J i o b l) ->
      match act rs w l with
      | Local o g e => is_raise e = false -> done_ok T b e /\ exists i ou, J i ou b (after (o, g, e))
      | Pull k => forall r, is_raise (ev_of (k r)) = false ->
          done_ok T (is_none r) (ev_of (k r)) /\ exists i ou, J i ou (is_none r) (after (k r))
      | Reset _ _ => False
      end).
    { intros b0 l0 (i & o & H). pose proof (HJ H) as S. destruct (act rs w l0) as [o1 g1 e1|k|]; [| |exact S].
      - intros He. destruct (S He) as [S1 S2]. split; [exact S1|]. eexists _, _. exact S2.
      - intros r Hr. destruct (S r Hr) as [S1 S2]. split; [exact S1|]. eexists _, _. exact S2. }
    destruct (wrap_run_inv HI HF (ex_intro _ _ (ex_intro _ _ H0)) Hb E) as (ins & b' & l' & E1 & LR & _).
    exists ins, b', l'. split; [exact E1|]. exact (lrun_trace LR H0).
  Qed.

  Section Progress.
    Variable mu : lst T -> nat.
    Hypothesis HP : trace_progress mu.

    Lemma settle n : forall ins outs b l, mu l <= n -> J ins outs b l ->
      exists outs' l', lrun rs w b l [] outs' b l' /\ pulls l' /\ J ins (outs ++ outs') b l'.
    Proof.
      induction n as [|n IH]; intros ins outs b l Hn H0.
      - pose proof (HP H0) as P. pose proof (HJ H0) as S. unfold pulls. destruct (act rs w l) as [o g e|k|] eqn:Ea.
        + lia.
        + exists [], l. rewrite app_nil_r. split; [constructor|]. rewrite Ea. auto.
        + destruct P.
      - pose proof (HP H0) as P. pose proof (HJ H0) as S. unfold pulls. destruct (act rs w l) as [o g e|k|] eqn:Ea.
        + destruct P as [Pr Pm]. destruct (S Pr) as [S1 S2].
          destruct (IH ins (outs ++ obs e) b (after (o, g, e)) ltac:(lia) S2) as (outs' & l' & L & Pl & J').
          exists (obs e ++ outs'), l'. split; [eapply lr_local; eauto|]. split; [exact Pl|].
          rewrite app_assoc. exact J'.
        + exists [], l. rewrite app_nil_r. split; [constructor|]. rewrite Ea. auto.
        + destruct P.
    Qed.

    Lemma lrun_progress ins : forall ins0 outs0 b l, J ins0 outs0 b l -> pulls l ->
      exists outs b' l', lrun rs w b l ins outs b' l' /\ pulls l' /\ J (ins0 ++ ins) (outs0 ++ outs) b' l'.
    Proof.
      induction ins as [|r ins IH]; intros ins0 outs0 b l H0 Hp.
      - exists [], b, l. rewrite !app_nil_r. split; [constructor|auto].
      - pose proof (HP H0) as P. pose proof (HJ H0) as S. unfold pulls in Hp.
        destruct (act rs w l) as [|k|] eqn:Ea; try contradiction.
        destruct (S r (P r)) as [S1 S2].
        destruct (settle (le_n _) S2) as (o1 & l1 & L1 & P1 & J1).
        destruct (IH _ _ _ _ J1 P1) as (o2 & b2 & l2 & L2 & P2 & J2).
        exists (obs (ev_of (k r)) ++ o1 ++ o2), b2, l2. split; [|split; [exact P2|]].
        + eapply lr_pull; eauto. change ins with ([] ++ ins). eapply lrun_app; eauto.
        + rewrite <- !app_assoc in J2. exact J2.
    Qed.

    (** whatever the inner dataset emits is consumed, and the events emitted in return are
        explained by [J] *)
    Theorem wrap_forward (s : st W) b ins : J [] [] b (loc s) -> it_ok b s ->
      emits w (eff s) (map inp ins) ->
      exists outs b' l', emits w s outs /\ J ins outs b' l' /\ pulls l'.
    Proof.
      intros H0 Hb E.
      assert (G : exists si, goes w (eff s) (map inp ins) si).
      { rewrite <- (app_nil_r (map inp ins)) in E.
        destruct (@emits_goes _ D w (eff s) (map inp ins) []) as (si & G & _); [|exact E|eauto].
        apply Forall_forall. intros x Hx. apply in_map_iff in Hx as ([a|] & <- & _); exact I. }
      destruct G as [si G].
      destruct (settle (le_n _) H0) as (o1 & l1 & L1 & P1 & J1).
      destruct (lrun_progress ins J1 P1) as (o2 & b2 & l2 & L2 & P2 & J2).
      assert (L : lrun rs w b (loc s) ins (o1 ++ o2) b2 l2) by (change ins with ([] ++ ins); eapply lrun_app; eauto).
      destruct (wrap_run L eq_refl Hb G) as (s' & G' & _).
      exists (o1 ++ o2), b2, l2. split; [eapply goes_emits0; exact G'|]. split; [exact J2|exact P2].
    Qed.
  End Progress.

  (** the same for inputs that satisfy [G] *)
  Definition trace_progress_on (G : list (option (sample A)) -> Prop) (mu : lst T -> nat) : Prop := forall ins outs b l, J ins outs b l -> G ins ->
    match act rs w l with
    | Local o g e => is_raise e = false /\ mu (after (o, g, e)) < mu l
    | Pull k => forall r, G (ins ++ [r]) -> is_raise (ev_of (k r)) = false
    | Reset _ _ => False
    end.

  Section ProgressOn.
    Variable G : list (option (sample A)) -> Prop.
    Hypothesis HG : forall i1 i2, G (i1 ++ i2) -> G i1.
    Variable mu : lst T -> nat.
    Hypothesis HP : trace_progress_on G mu.

    Lemma settle_on n : forall ins outs b l, mu l <= n -> J ins outs b l -> G ins ->
      exists outs' l', lrun rs w b l [] outs' b l' /\ pulls l' /\ J ins (outs ++ outs') b l'.
    Proof.
      induction n as [|n IH]; intros ins outs b l Hn H0 HGi.
      - pose proof (HP H0 HGi) as P. pose proof (HJ H0) as S. unfold pulls. destruct (act rs w l) as [o g e|k|] eqn:Ea.
        + lia.
        + exists [], l. rewrite app_nil_r. split; [constructor|]. rewrite Ea. auto.
        + destruct P.
      - pose proof (HP H0 HGi) as P. pose proof (HJ H0) as S. unfold pulls. destruct (act rs w l) as [o g e|k|] eqn:Ea.
        + destruct P as [Pr Pm]. destruct (S Pr) as [S1 S2].
          destruct (IH ins (outs ++ obs e) b (after (o, g, e)) ltac:(lia) S2 HGi) as (outs' & l' & L & Pl & J').
          exists (obs e ++ outs'), l'. split; [eapply lr_local; eauto|]. split; [exact Pl|].
          rewrite app_assoc. exact J'.
        + exists [], l. rewrite app_nil_r. split; [constructor|]. rewrite Ea. auto.
        + destruct P.
    Qed.

    Lemma lrun_progress_on ins : forall ins0 outs0 b l, J ins0 outs0 b l -> pulls l -> G (ins0 ++ ins) ->
      exists outs b' l', lrun rs w b l ins outs b' l' /\ pulls l' /\ J (ins0 ++ ins) (outs0 ++ outs) b' l'.
    Proof.
      induction ins as [|r ins IH]; intros ins0 outs0 b l H0 Hp HGi.
      - exists [], b, l. rewrite !app_nil_r. split; [constructor|auto].
      - assert (HG1 : G (ins0 ++ [r])) by (apply (@HG (ins0 ++ [r]) ins); rewrite <- app_assoc; exact HGi).
        assert (HG0 : G ins0) by (apply (@HG ins0 [r]); exact HG1).
        pose proof (HP H0 HG0) as P. pose proof (HJ H0) as S. unfold pulls in Hp.
        destruct (act rs w l) as [|k|] eqn:Ea; try contradiction.
        destruct (S r (P r HG1)) as [S1 S2].
        destruct (settle_on (le_n _) S2 HG1) as (o1 & l1 & L1 & P1 & J1).
        destruct (IH _ _ _ _ J1 P1) as (o2 & b2 & l2 & L2 & P2 & J2); [rewrite <- app_assoc; exact HGi|].
        exists (obs (ev_of (k r)) ++ o1 ++ o2), b2, l2. split; [|split; [exact P2|]].
        + eapply lr_pull; eauto. change ins with ([] ++ ins). eapply lrun_app; eauto.
        + rewrite <- !app_assoc in J2. exact J2.
    Qed.

    Theorem wrap_forward_on (s : st W) b ins : J [] [] b (loc s) -> it_ok b s -> G ins ->
      emits w (eff s) (map inp ins) ->
      exists outs b' l' s' si, emits w s outs /\ J ins outs b' l' /\ pulls l' /\ goes w s outs s' /\ loc s' = l' /\ it_ok b' s' /\
        goes w (eff s) (map inp ins) si /\ goes w (eff s') [] si.
    Proof.
      intros H0 Hb HGi E.
      assert (Gs : exists si, goes w (eff s) (map inp ins) si).
      { rewrite <- (app_nil_r (map inp ins)) in E.
        destruct (@emits_goes _ D w (eff s) (map inp ins) []) as (si & Gs & _); [|exact E|eauto].
        apply Forall_forall. intros x Hx. apply in_map_iff in Hx as ([a|] & <- & _); exact I. }
      destruct Gs as [si Gs].
      destruct (settle_on (le_n _) H0 (@HG [] ins HGi)) as (o1 & l1 & L1 & P1 & J1).
      destruct (@lrun_progress_on ins _ _ _ _ J1 P1 HGi) as (o2 & b2 & l2 & L2 & P2 & J2).
      assert (L : lrun rs w b (loc s) ins (o1 ++ o2) b2 l2) by (change ins with ([] ++ ins); eapply lrun_app; eauto).
      destruct (wrap_run L eq_refl Hb Gs) as (s' & G' & X1 & X2 & X3 & _).
      exists (o1 ++ o2), b2, l2, s', si. split; [eapply goes_emits0; exact G'|]. split; [exact J2|]. split; [exact P2|]. auto.
    Qed.
  End ProgressOn.
End Trace.
