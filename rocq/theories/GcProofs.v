(** GcDataset passes everything through, from every state. *)
From Verif Require Import Base Dataset DatasetProofs Wrap WrapProofs WrapSpec Wrappers.

Section Gc.
  Context {A : Type} (every_n : nat) (D : dataset A) (w : nat).
  Let W := wrap (gc_ds true every_n) D.

  Lemma gc_step (o : ds_obj W) n io ig e : ds_step D w (w_in o) (cur_it (w_it o)) = (io, ig, e) ->
    exists o' n', ds_step W w o (Some n) = (o', Some n', e) /\ w_in o' = io /\
      match e with Yield _ | Tau => cur_it (w_it o') = ig | _ => w_it o' = None end.
  Proof.
    intros E. destruct o as [lo i it]. cbn [w_in w_it w_loc] in *. subst W.
    cbn [wrap ds_step]. unfold wrap_step. cbn [gc_ds t_act w_loc w_in w_it]. rewrite E. destruct e; eexists _, _; split; try reflexivity; auto.
  Qed.

  Lemma gc_nextn k : forall (o : ds_obj W) n, match nextn w k (w_in o, cur_it (w_it o)), nextn (D := W) w k (o, Some n : ds_gen W) with
    | None, None => True
    | Some (e, s1), Some (e', s') => e = e' /\ w_in (fst s') = fst s1 /\ (exists n', snd s' = Some n') /\
        match e with Yield _ | Tau => cur_it (w_it (fst s')) = snd s1 | _ => w_it (fst s') = None end
    | _, _ => False
    end.
  Proof.
    induction k as [|k IH]; intros o n; cbn [nextn]; [exact I|]. cbn [fst snd].
    destruct (ds_step D w (w_in o) (cur_it (w_it o))) as [[io ig] e] eqn:E.
    destruct (gc_step n E) as (o' & n' & E' & H1 & H2). rewrite E'. destruct e as [a| | |x]; cbn [fst snd]; eauto 6.
    specialize (IH o' n'). rewrite H1, H2 in IH. exact IH.
  Qed.

  Lemma gc_start (o : ds_obj W) e s' : next w (o, None : ds_gen W) e s' <-> next w (o, Some 0 : ds_gen W) e s'.
  Proof.
    assert (E : ds_step W w o None = (o, Some 0, Tau)) by (destruct o; reflexivity). split; intros H.
    - eapply next_tau_inv; [|exact H]. exact E.
    - eapply next_tau; [|exact H]. exact E.
  Qed.

  Lemma gc_emits l : forall (o : ds_obj W) g, emits w (o, g : ds_gen W) l <-> emits w (w_in o, cur_it (w_it o)) l.
  Proof.
    induction l as [|e l IH]; intros o g; [split; constructor|].
    assert (HS : forall e s', next w (o, g : ds_gen W) e s' -> exists n, next w (o, Some n : ds_gen W) e s').
    { intros e' s' N. destruct g as [n|]; [exists n; exact N|]. exists 0. apply gc_start. exact N. }
    split; intros E.
    - inversion E as [|? a s' ? N E'|? s' ? N E'|? x s' N]; subst; destruct (HS _ _ N) as (n & k & Nk);
        pose proof (gc_nextn k o n) as H; rewrite Nk in H;
        destruct (nextn w k (w_in o, cur_it (w_it o))) as [[e1 s1]|] eqn:E1; try contradiction; destruct H as (-> & H1 & (n' & H2) & H3).
      + eapply em_yield; [exists k; exact E1|]. destruct s' as [o' g']. apply IH in E'. cbn [fst snd] in *. rewrite H1, H3 in E'. destruct s1. exact E'.
      + eapply em_done; [exists k; exact E1|]. destruct s' as [o' g']. apply IH in E'. cbn [fst snd] in *. rewrite H1, H3 in E'. exact E'.
      + eapply em_raise. exists k. exact E1.
    - assert (HN : forall e s1, next w (w_in o, cur_it (w_it o)) e s1 -> exists s', next w (o, g : ds_gen W) e s' /\ w_in (fst s') = fst s1 /\
          match e with Yield _ | Tau => cur_it (w_it (fst s')) = snd s1 | _ => w_it (fst s') = None end).
      { intros e' s1 [k Nk]. set (n := match g with Some n => n | None => 0 end).
        pose proof (gc_nextn k o n) as H. rewrite Nk in H. destruct (nextn (D := W) w k (o, Some n : ds_gen W)) as [[e1 s']|] eqn:E1; [|contradiction].
        destruct H as (-> & H1 & _ & H3). exists s'. split; [|auto]. destruct g as [m|]; [exists k; exact E1|].
        apply gc_start. exists k. exact E1. }
      inversion E as [|? a s' ? N E'|? s' ? N E'|? x s' N]; subst; destruct (HN _ _ N) as (s2 & N2 & H1 & H3).
      + eapply em_yield; [exact N2|]. destruct s2 as [o2 g2]. apply IH. cbn [fst snd] in *. rewrite H1, H3. destruct s'. exact E'.
      + eapply em_done; [exact N2|]. apply IH. cbn [fst snd] in *. rewrite H1, H3. exact E'.
      + eapply em_raise. exact N2.
  Qed.
End Gc.
