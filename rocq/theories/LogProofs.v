(** LogSampleDataset passes everything through, from every state; so whatever resumption property the inner dataset
    has, it has too (used for C26 / C48 with logging switched on). *)
From Verif Require Import Base Dataset DatasetProofs Wrap WrapProofs WrapSpec Wrappers.

Section Log.
  Context {A : Type} (nw : nat) (D : dataset A) (w : nat).
  Let W := wrap (log_ds nw) D.

  Lemma log_step (s : st W) o g e : ds_step D w (w_in (fst s)) (cur_it (w_it (fst s))) = (o, g, e) ->
    exists o' g', ds_step W w (fst s) (snd s) = (o', g', e) /\ w_in o' = o /\
      match e with Yield _ | Tau => cur_it (w_it o') = g | _ => w_it o' = None end.
  Proof.
    intros E. destruct s as [[lo io it] sg]. cbn [fst snd w_in w_it w_loc] in *. subst W.
    cbn [wrap ds_step]. unfold wrap_step. cbn [log_ds idx_ds t_act w_loc w_in w_it]. rewrite E. destruct e; eexists _, _; split; try reflexivity; auto.
  Qed.

  Lemma log_nextn n : forall (s : st W), match nextn w n (eff s), nextn (D := W) w n s with
    | None, None => True
    | Some (e, s1), Some (e', s') => e = e' /\ w_in (fst s') = fst s1 /\ match e with Yield _ | Tau => cur_it (w_it (fst s')) = snd s1 | _ => w_it (fst s') = None end
    | _, _ => False
    end.
  Proof.
    induction n as [|n IH]; intros s; cbn [nextn]; [exact I|].
    destruct (ds_step D w (fst (eff s)) (snd (eff s))) as [[o g] e] eqn:E. change (ds_step D w (w_in (fst s)) (cur_it (w_it (fst s))) = (o, g, e)) in E.
    destruct (log_step E) as (o' & g' & E' & H1 & H2). rewrite E'. destruct e as [a| | |x]; cbn [fst snd]; auto.
    specialize (IH (o', g')). unfold eff in IH. cbn [fst snd] in IH. rewrite H1, H2 in IH. exact IH.
  Qed.

  Lemma log_next (s : st W) e s' : next w s e s' -> exists s1, next w (eff s) e s1 /\ w_in (fst s') = fst s1 /\
    match e with Yield _ | Tau => cur_it (w_it (fst s')) = snd s1 | _ => w_it (fst s') = None end.
  Proof.
    intros [n N]. pose proof (log_nextn n s) as H. rewrite N in H. destruct (nextn w n (eff s)) as [[e1 s1]|] eqn:E; [|contradiction].
    destruct H as (-> & H). exists s1. split; [exists n; exact E|exact H].
  Qed.
  Lemma log_next_back (s : st W) e s1 : next w (eff s) e s1 -> exists s', next w s e s' /\ w_in (fst s') = fst s1 /\
    match e with Yield _ | Tau => cur_it (w_it (fst s')) = snd s1 | _ => w_it (fst s') = None end.
  Proof.
    intros [n N]. pose proof (log_nextn n s) as H. rewrite N in H. destruct (nextn (D := W) w n s) as [[e1 s']|] eqn:E; [|contradiction].
    destruct H as (-> & H). exists s'. split; [exists n; exact E|exact H].
  Qed.

  Lemma eff_eq (s : st W) s1 : w_in (fst s) = fst s1 -> cur_it (w_it (fst s)) = snd s1 -> eff s = s1.
  Proof. intros H1 H2. transitivity (fst s1, snd s1); [unfold eff; apply f_equal2; assumption|destruct s1; reflexivity]. Qed.

  Lemma log_emits l : forall (s : st W), emits w s l <-> emits w (eff s) l.
  Proof.
    induction l as [|e l IH]; intros s; [split; constructor|]. split; intros E.
    - inversion E as [|? a s' ? N E'|? s' ? N E'|? x s' N]; subst; destruct (log_next N) as (s1 & N1 & H1 & H2).
      + eapply em_yield; [exact N1|]. rewrite <- (eff_eq H1 H2). apply IH. exact E'.
      + eapply em_done; [exact N1|]. apply IH in E'. unfold eff in E'. cbn [fst snd] in E'. rewrite H1, H2 in E'. exact E'.
      + eapply em_raise; exact N1.
    - inversion E as [|? a s' ? N E'|? s' ? N E'|? x s' N]; subst; destruct (log_next_back N) as (s1 & N1 & H1 & H2).
      + eapply em_yield; [exact N1|]. apply IH. rewrite (eff_eq H1 H2). exact E'.
      + eapply em_done; [exact N1|]. apply IH. unfold eff. cbn [fst snd]. rewrite H1, H2. exact E'.
      + eapply em_raise; exact N1.
  Qed.

  Lemma log_reach rst (s : st W) : reach w rst nw s -> reach w rst nw (eff s).
  Proof.
    induction 1 as [|s a s' R IH N|s s' R IH N|s sts R IH Hlen Hst|s Hr R IH].
    - apply r_init.
    - destruct (log_next N) as (s1 & N1 & H1 & H2). rewrite (eff_eq H1 H2). eapply r_yield; eauto.
    - destruct (log_next N) as (s1 & N1 & H1 & H2). unfold eff. cbn [fst snd]. rewrite H1, H2. eapply r_done; eauto.
    - apply (@r_restore _ D w rst nw (eff s) (map (option_map snd) sts)); [exact IH|rewrite map_length; exact Hlen|].
      exact (map_nth_error (option_map snd) w sts Hst).
    - apply (r_reset (s := eff s)); auto.
  Qed.
End Log.

Theorem log_resumes_modulo_end {A} nw (D : dataset A) rst : resumes_modulo_end D rst nw -> resumes_modulo_end (wrap (log_ds nw) D) rst nw.
Proof.
  intros H w s sts Hw Rs Hl Hs.
  destruct (H w (eff s) (map (option_map snd) sts) Hw (log_reach Rs)) as [H1 H2].
  - rewrite map_length. exact Hl.
  - exact (map_nth_error (option_map snd) w sts Hs).
  - split.
    + intros s' N. destruct (log_next N) as (s1 & N1 & E1 & E2). intros l. rewrite !log_emits.
      unfold eff at 1. cbn [fst snd]. rewrite E1, E2. apply (H1 s1 N1).
    + intros HN l. rewrite !log_emits. apply H2. intros s' N. destruct (log_next_back N) as (s1 & N1 & _). exact (HN _ N1).
Qed.
