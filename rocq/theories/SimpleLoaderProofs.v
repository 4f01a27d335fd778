(** Proofs about SimpleLoader.v *)
From Coq Require Import String.
From Verif Require Import Base Dataset DatasetProofs Wrap WrapProofs WrapSpec Wrappers SimpleLoader SimpleLoaderSpec.

Section SL.
  Context {A : Type} (nw : nat) (gid : nat -> nat) (D : dataset A) (w : nat) (Hw : w < nw).
  Let W := wrap (simple_ds nw gid) D.

  Definition idx (s : st W) : nat := nth w (w_loc (fst s)) 0.
  Definition out (i : nat) (e : event (sample A)) : event (sample A) := match e with Yield a => Yield (shown (gid w) i a) | _ => e end.
  Definition adv (e : event (sample A)) (i : nat) : nat := match e with Yield _ => S i | _ => i end.
  Definition sized (s : st W) : Prop := length (w_loc (fst s)) = nw.

  Lemma simple_step (s : st W) o g e : sized s -> ds_step D w (w_in (fst s)) (cur_it (w_it (fst s))) = (o, g, e) ->
    exists o' g', ds_step W w (fst s) (snd s) = (o', g', out (idx s) e) /\ w_in o' = o /\
      match e with Yield _ | Tau => cur_it (w_it o') = g | _ => w_it o' = None end /\ sized (o', g') /\ idx (o', g') = adv e (idx s).
  Proof.
    unfold sized, idx. intros HL E. destruct s as [[lo io it] sg]. cbn [fst snd w_in w_it w_loc] in *. subst W.
    cbn [wrap ds_step]. unfold wrap_step. cbn [simple_ds t_act w_loc w_in w_it]. rewrite E. destruct e; eexists _, _; (split; [reflexivity|]); cbn [fst snd w_in w_it w_loc cur_it drop_it t_keep simple_ds adv]; auto.
    split; [reflexivity|]. split; [reflexivity|]. split; [rewrite upd_length; exact HL|]. apply nth_upd_same. cbn in *. lia.
  Qed.

  Definition matches (s s' : st W) (e : event (sample A)) (s1 : st D) : Prop :=
    w_in (fst s') = fst s1 /\ match e with Yield _ | Tau => cur_it (w_it (fst s')) = snd s1 | _ => w_it (fst s') = None end /\ sized s' /\ idx s' = adv e (idx s).

  Lemma simple_nextn n : forall (s : st W), sized s -> match nextn w n (eff s), nextn (D := W) w n s with
    | None, None => True
    | Some (e, s1), Some (e', s') => e' = out (idx s) e /\ matches s s' e s1
    | _, _ => False
    end.
  Proof.
    induction n as [|n IH]; intros s HL; cbn [nextn]; [exact I|].
    destruct (ds_step D w (fst (eff s)) (snd (eff s))) as [[o g] e] eqn:E. change (ds_step D w (w_in (fst s)) (cur_it (w_it (fst s))) = (o, g, e)) in E.
    destruct (simple_step HL E) as (o' & g' & E' & H1 & H2 & H3 & H4). rewrite E'. unfold matches. destruct e as [a| | |x]; cbn [out fst snd]; auto.
    specialize (IH (o', g') H3). unfold eff in IH. cbn [fst snd] in IH. rewrite H1, H2 in IH. cbn [adv] in H4. unfold matches in IH. rewrite H4 in IH. exact IH.
  Qed.
  Lemma simple_next (s : st W) e' s' : sized s -> next w s e' s' -> exists e s1, e' = out (idx s) e /\ next w (eff s) e s1 /\ matches s s' e s1.
  Proof.
    intros HL [n N]. pose proof (simple_nextn n HL) as H. rewrite N in H. destruct (nextn w n (eff s)) as [[e1 s1]|] eqn:E; [|contradiction].
    destruct H as (-> & H). exists e1, s1. split; [reflexivity|]. split; [exists n; exact E|exact H].
  Qed.
  Lemma simple_next_back (s : st W) e s1 : sized s -> next w (eff s) e s1 -> exists s', next w s (out (idx s) e) s' /\ matches s s' e s1.
  Proof.
    intros HL [n N]. pose proof (simple_nextn n HL) as H. rewrite N in H. destruct (nextn (D := W) w n s) as [[e1 s']|] eqn:E; [|contradiction].
    destruct H as (-> & H). exists s'. split; [exists n; exact E|exact H].
  Qed.
  Lemma eff_eq (s : st W) s1 : w_in (fst s) = fst s1 -> cur_it (w_it (fst s)) = snd s1 -> eff s = s1.
  Proof. intros H1 H2. transitivity (fst s1, snd s1); [unfold eff; apply f_equal2; assumption|destruct s1; reflexivity]. Qed.

  Lemma simple_emits l0 : forall (s : st W), sized s -> emits w (eff s) l0 -> emits w s (numbered (gid w) (idx s) l0).
  Proof.
    induction l0 as [|e l0 IH]; intros s HL E; [constructor|].
    inversion E as [|? a s' ? N E'|? s' ? N E'|? x s' N]; subst; destruct (simple_next_back HL N) as (s1 & N1 & H1 & H2 & H3 & H4); cbn [numbered out adv] in *.
    - eapply em_yield; [exact N1|]. rewrite <- H4. apply IH; [exact H3|]. rewrite (eff_eq H1 H2). exact E'.
    - eapply em_done; [exact N1|]. rewrite <- H4. apply (IH (fst s1, ds_iter W)); [exact H3|]. unfold eff. cbn [fst snd]. rewrite H1, H2. exact E'.
    - eapply em_raise; exact N1.
  Qed.
  Lemma simple_emits_inv l : forall (s : st W), sized s -> emits w s l -> exists l0, emits w (eff s) l0 /\ l = numbered (gid w) (idx s) l0.
  Proof.
    induction l as [|e l IH]; intros s HL E; [exists []; split; constructor|].
    inversion E as [|? a s' ? N E'|? s' ? N E'|? x s' N]; subst; destruct (simple_next HL N) as (e0 & s1 & EO & N1 & H1 & H2 & H3 & H4); destruct e0 as [b| | |y]; try discriminate; cbn [out adv] in *.
    - injection EO as ->. destruct (IH s' H3 E') as (l0 & E0 & ->). rewrite (eff_eq H1 H2) in E0. exists (Yield b :: l0). split; [eapply em_yield; eassumption|]. cbn [numbered]. rewrite H4. reflexivity.
    - destruct (IH (fst s', ds_iter W) H3 E') as (l0 & E0 & ->). unfold eff in E0. cbn [fst snd] in E0. rewrite H1, H2 in E0. exists (Done :: l0). split; [eapply em_done; eassumption|]. cbn [numbered]. f_equal. f_equal. exact H4.
    - injection EO as ->. exists [Raise y]. split; [eapply em_raise; exact N1|reflexivity].
  Qed.

  Lemma simple_reach rst (s : st W) : reach w rst nw s -> reach w rst nw (eff s) /\ sized s.
  Proof.
    induction 1 as [|s a s' R IH N|s s' R IH N|s sts R IH Hlen Hst|s Hr R IH]; try (destruct IH as [IH IL]).
    - split; [apply r_init|]. apply repeat_length.
    - destruct (simple_next IL N) as (e0 & s1 & EO & N1 & H1 & H2 & H3 & H4). destruct e0 as [b| | |y]; try discriminate. split; [|exact H3]. rewrite (eff_eq H1 H2). eapply r_yield; eauto.
    - destruct (simple_next IL N) as (e0 & s1 & EO & N1 & H1 & H2 & H3 & H4). destruct e0 as [b| | |y]; try discriminate. split; [|exact H3]. unfold eff. cbn [fst snd]. rewrite H1, H2. eapply r_done; eauto.
    - split; [|apply repeat_length]. apply (@r_restore _ D w rst nw (eff s) (map (option_map snd) sts)); [exact IH|rewrite map_length; exact Hlen|].
      exact (map_nth_error (option_map snd) w sts Hst).
    - split; [|exact IL]. apply (r_reset (s := eff s)); auto.
  Qed.
End SL.
