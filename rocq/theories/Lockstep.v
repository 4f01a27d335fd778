(** Two datasets in two workers that run in lockstep (as long as neither ends): a proof technique. *)
From Verif Require Import Base Dataset DatasetProofs Wrap.
Local Open Scope nat_scope.

Section Lock.
  Context {P : Type} (D1 D2 : dataset P) (w1 w2 : nat).

  (** [b]: the datasets may end *)
  Definition after (b : bool) (Rel : st D1 -> st D2 -> Prop) (e : event (sample P)) (o1 : ds_obj D1) (g1 : ds_gen D1) (o2 : ds_obj D2) (g2 : ds_gen D2) : Prop :=
    match e with
    | Yield _ | Tau => Rel (o1, g1) (o2, g2)
    | Done => b = true /\ Rel (o1, ds_iter D1) (o2, ds_iter D2)
    | Raise _ => True
    end.

  Definition closed (b : bool) (Rel : st D1 -> st D2 -> Prop) : Prop :=
    forall o1 g1 o2 g2, Rel (o1, g1) (o2, g2) ->
    forall o1' g1' e, ds_step D1 w1 o1 g1 = (o1', g1', e) ->
    exists o2' g2', ds_step D2 w2 o2 g2 = (o2', g2', e) /\ after b Rel e o1' g1' o2' g2'.

  Definition locked (b : bool) (s1 : st D1) (s2 : st D2) : Prop :=
    exists Rel, closed b Rel /\ Rel s1 s2.

  Lemma locked_closed b : closed b (locked b).
  Proof.
    intros o1 g1 o2 g2 (Rel & C & R) o1' g1' e E. destruct (C _ _ _ _ R _ _ _ E) as (o2' & g2' & E2 & A). exists o2', g2'. split; [exact E2|].
    destruct e; cbn in *; auto; try (exists Rel; split; assumption). destruct A as [Hb A]. split; [exact Hb|]. exists Rel. split; assumption.
  Qed.

  Lemma locked_next b s1 s2 e s1' : locked b s1 s2 -> next w1 s1 e s1' ->
    exists s2', next w2 s2 e s2' /\ after b (locked b) e (fst s1') (snd s1') (fst s2') (snd s2').
  Proof.
    intros L [n E]. revert s1 s2 L E. induction n as [|n IH]; intros [o1 g1] [o2 g2] L E; cbn in E; [discriminate|].
    destruct (ds_step D1 w1 o1 g1) as [[o1' g1'] e'] eqn:ES. destruct (locked_closed L ES) as (o2' & g2' & E2 & A).
    assert (Hd : e' = Tau \/ e' <> Tau) by (destruct e'; [right|left|right|right]; congruence).
    destruct Hd as [-> | NT].
    - destruct (IH _ _ A E) as (s2' & N & A'). exists s2'. split; [|exact A']. eapply next_tau; [cbn; exact E2|exact N].
    - assert (X : Some (e', (o1', g1')) = Some (e, s1')) by (destruct e'; [exact E|congruence|exact E|exact E]).
      injection X as -> <-. exists (o2', g2'). split; [apply next_now; assumption|exact A].
  Qed.

  Lemma locked_emits b s1 s2 l : locked b s1 s2 -> emits w1 s1 l -> emits w2 s2 l.
  Proof.
    intros L H. revert s2 L. induction H as [s|s a s' l N H IH|s s' l N H IH|s x s' N]; intros s2 L.
    - constructor.
    - destruct (locked_next L N) as ([o2 g2] & N2 & A). destruct s' as [o1 g1]. eapply em_yield; [exact N2|]. apply IH. exact A.
    - destruct (locked_next L N) as ([o2 g2] & N2 & A). destruct s' as [o1 g1]. eapply em_done; [exact N2|]. apply IH. apply A.
    - destruct (locked_next L N) as (s2' & N2 & _). eapply em_raise. exact N2.
  Qed.
End Lock.

Section TLock.
  Context {A B : Type} (T1 T2 : trans A B) (w1 w2 : nat).
  Variable LR : t_obj T1 -> t_gen T1 -> t_obj T2 -> t_gen T2 -> Prop.

  Definition tafter (x1 : t_obj T1 * t_gen T1 * event (sample B)) (x2 : t_obj T2 * t_gen T2 * event (sample B)) : Prop :=
    snd x1 = snd x2 /\
    match snd x1 with
    | Yield _ | Tau => LR (fst (fst x1)) (snd (fst x1)) (fst (fst x2)) (snd (fst x2))
    | Done => False
    | Raise _ => True
    end.

  Definition acts (b : bool) (a1 : action (t_obj T1) (t_gen T1) A B) (a2 : action (t_obj T2) (t_gen T2) A B) : Prop :=
    match a1, a2 with
    | Local o1 g1 e1, Local o2 g2 e2 => tafter (o1, g1, e1) (o2, g2, e2)
    | Pull k1, Pull k2 => (forall a, tafter (k1 (Some a)) (k2 (Some a))) /\ (b = true -> tafter (k1 None) (k2 None))
    | _, _ => False
    end.

  Definition tclosed (b : bool) : Prop :=
    forall rs1 rs2 o1 g1 o2 g2, LR o1 g1 o2 g2 -> acts b (t_act T1 rs1 w1 o1 g1) (t_act T2 rs2 w2 o2 g2).

  Context (D1 D2 : dataset A).

  Definition WR (b : bool) (s1 : st (wrap T1 D1)) (s2 : st (wrap T2 D2)) : Prop :=
    LR (w_loc (fst s1)) (snd s1) (w_loc (fst s2)) (snd s2) /\
    locked w1 w2 b (w_in (fst s1), cur_it (w_it (fst s1))) (w_in (fst s2), cur_it (w_it (fst s2))).

  Lemma wrap_closed b : tclosed b -> @closed _ (wrap T1 D1) (wrap T2 D2) w1 w2 false (WR b).
  Proof.
    intros TC [l1 i1 it1] g1 [l2 i2 it2] g2 [HL HI] o1' g1' e E. cbn [fst snd w_loc w_in w_it] in HL, HI.
    cbn [wrap ds_step] in *. unfold wrap_step in *. cbn [w_loc w_in w_it] in *.
    specialize (TC (ds_restore_sample D1 w1) (ds_restore_sample D2 w2) _ _ _ _ HL). unfold acts in TC.
    destruct (t_act T1 (ds_restore_sample D1 w1) w1 l1 g1) as [lo1 lg1 e1|k1|]; destruct (t_act T2 (ds_restore_sample D2 w2) w2 l2 g2) as [lo2 lg2 e2|k2|]; try contradiction.
    - destruct TC as [EE TC]. cbn [fst snd] in EE, TC. subst e2. injection E as <- <- <-. eexists _, _. split; [reflexivity|].
      destruct e1; cbn [after drop_it]; auto; try contradiction; (split; [exact TC|exact HI]).
    - destruct TC as [TS TN]. destruct (ds_step D1 w1 i1 (cur_it it1)) as [[io1 ig1] ei] eqn:EI.
      destruct (@locked_closed _ D1 D2 w1 w2 b _ _ _ _ HI _ _ _ EI) as (io2 & ig2 & EI2 & AF). rewrite EI2.
      destruct ei as [a| | |x]; cbn [after] in AF.
      + specialize (TS a). destruct (k1 (Some a)) as [[o1 h1] e1]. destruct (k2 (Some a)) as [[o2 h2] e2]. destruct TS as [EE TS]. cbn [fst snd] in EE, TS. subst e2.
        injection E as <- <- <-. eexists _, _. split; [reflexivity|].
        destruct e1; cbn [after drop_it]; auto; try contradiction; (split; [exact TS|exact AF]).
      + injection E as <- <- <-. eexists _, _. split; [reflexivity|]. split; [exact HL|exact AF].
      + destruct AF as [-> AF]. specialize (TN eq_refl). destruct (k1 None) as [[o1 h1] e1]. destruct (k2 None) as [[o2 h2] e2]. destruct TN as [EE TN]. cbn [fst snd] in EE, TN. subst e2.
        injection E as <- <- <-. eexists _, _. split; [reflexivity|].
        destruct e1; cbn [after drop_it]; auto; try contradiction; (split; [exact TN|exact AF]).
      + injection E as <- <- <-. eexists _, _. split; [reflexivity|exact I].
  Qed.

  Lemma wrap_locked b : tclosed b -> LR (t_init T1) (t_iter T1) (t_init T2) (t_iter T2) ->
    locked w1 w2 b (ds_init D1, ds_iter D1) (ds_init D2, ds_iter D2) ->
    @locked _ (wrap T1 D1) (wrap T2 D2) w1 w2 false (ds_init (wrap T1 D1), ds_iter (wrap T1 D1)) (ds_init (wrap T2 D2), ds_iter (wrap T2 D2)).
  Proof.
    intros TC HI HL. exists (WR b). split; [apply wrap_closed, TC|]. split; [exact HI|exact HL].
  Qed.
End TLock.
