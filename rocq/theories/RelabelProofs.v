(** Changing the restore keys of what a wrapper yields does not change the rest of its behaviour. *)
From Verif Require Import Base Dataset DatasetProofs Wrap WrapProofs ContentSpec.

Section Relabel.
  Context {A B : Type} (T : trans A B) (D : dataset A).

  Definition nokey (e : event (sample B)) : event (sample B) := match e with Yield a => Yield (mkS (pl a) []) | _ => e end.
  Definition nokey_act (a : action (t_obj T) (t_gen T) A B) : action (t_obj T) (t_gen T) A B :=
    match a with
    | Local o g e => Local o g (nokey e)
    | Pull k => Pull (fun r => let '(o, g, e) := k r in (o, g, nokey e))
    | Reset o g => Reset o g
    end.
  Definition relabel : trans A B :=
    {| t_obj := t_obj T; t_gen := t_gen T; t_wst := t_wst T; t_mst := t_mst T; t_keep := t_keep T;
       t_init := t_init T; t_iter := t_iter T; t_act := fun rs w o g => nokey_act (t_act T rs w o g);
       t_save := t_save T; t_merge := t_merge T; t_restore := t_restore T; t_restore_sample := t_restore_sample T |}.

  Let W := wrap T D.
  Let V := wrap relabel D.
  Definition cv (x : wobj T D) : wobj relabel D := @mkW A B relabel D (w_loc x) (w_in x) (w_it x).
  Definition cst (s : st W) : st V := (cv (fst s), snd s).

  Lemma drop_nokey e it : drop_it relabel (D := D) (nokey e) it = drop_it T (D := D) e it.
  Proof. destruct e; reflexivity. Qed.
  Lemma relabel_step w (s : st W) o g e : ds_step W w (fst s) (snd s) = (o, g, e) -> ds_step V w (cv (fst s)) (snd s) = (cv o, g, nokey e).
  Proof.
    subst W V. cbn [wrap ds_step]. unfold wrap_step. cbn [relabel t_act w_loc cv w_in w_it]. intros E.
    destruct (t_act T (ds_restore_sample D w) w (w_loc (fst s)) (snd s)) as [o1 g1 e1|k|o1 g1]; cbn [nokey_act].
    - injection E as <- <- <-. rewrite drop_nokey. reflexivity.
    - destruct (ds_step D w (w_in (fst s)) (cur_it (w_it (fst s)))) as [[io ig] [a| | |x]].
      + destruct (k (Some a)) as [[o1 g1] e1]. injection E as <- <- <-. rewrite drop_nokey. reflexivity.
      + injection E as <- <- <-. reflexivity.
      + destruct (k None) as [[o1 g1] e1]. injection E as <- <- <-. rewrite drop_nokey. reflexivity.
      + injection E as <- <- <-. reflexivity.
    - injection E as <- <- <-. reflexivity.
  Qed.
  Lemma relabel_nextn w n : forall s : st W, nextn (D := V) w n (cst s) = match nextn (D := W) w n s with None => None | Some (e, s') => Some (nokey e, cst s') end.
  Proof.
    induction n as [|n IH]; intros s; cbn [nextn]; [reflexivity|]. destruct (ds_step W w (fst s) (snd s)) as [[o g] e] eqn:E.
    apply relabel_step in E. cbn [cst fst snd]. rewrite E. destruct e as [a| | |x]; cbn [nokey]; try reflexivity. exact (IH (o, g)).
  Qed.
  Lemma relabel_next w (s : st W) e s' : next w s e s' -> next (D := V) w (cst s) (nokey e) (cst s').
  Proof. intros [n N]. exists n. rewrite relabel_nextn, N. reflexivity. Qed.
  Lemma relabel_next_inv w (s : st W) e' s1 : next (D := V) w (cst s) e' s1 -> exists e s', next w s e s' /\ e' = nokey e /\ s1 = cst s'.
  Proof.
    intros [n N]. rewrite relabel_nextn in N. destruct (nextn (D := W) w n s) as [[e s']|] eqn:E; [|discriminate]. injection N as <- <-.
    exists e, s'. split; [exists n; exact E|auto].
  Qed.
  Lemma relabel_emits w l : forall s : st W, emits w s l -> emits (D := V) w (cst s) (map nokey l).
  Proof.
    induction l as [|e l IH]; intros s E; [constructor|]. inversion E as [|? a s' ? N E'|? s' ? N E'|? x s' N]; subst; apply relabel_next in N; cbn [map nokey] in *.
    - eapply em_yield; [exact N|]. apply IH. exact E'.
    - eapply em_done; [exact N|]. exact (IH _ E').
    - eapply em_raise; exact N.
  Qed.
  Lemma relabel_emits_inv w l : forall s : st W, emits (D := V) w (cst s) l -> exists l0, emits w s l0 /\ l = map nokey l0.
  Proof.
    induction l as [|e l IH]; intros s E; [exists []; split; constructor|].
    inversion E as [|? a s' ? N E'|? s' ? N E'|? x s' N]; subst; destruct (relabel_next_inv N) as (e0 & s0 & N0 & EE & ->); destruct e0 as [b| | |y]; try discriminate.
    - destruct (IH s0 E') as (l0 & E0 & ->). exists (Yield b :: l0). split; [eapply em_yield; eassumption|]. cbn [map]. rewrite <- EE. reflexivity.
    - destruct (IH (fst s0, ds_iter W) E') as (l0 & E0 & ->). exists (Done :: l0). split; [eapply em_done; eassumption|reflexivity].
    - injection EE as ->. exists [Raise y]. split; [eapply em_raise; exact N0|reflexivity].
  Qed.
  Lemma relabel_reach w rst nw (s : st W) : reach w rst nw s -> reach (D := V) w rst nw (cst s).
  Proof.
    induction 1 as [|s a s' R IH N|s s' R IH N|s sts R IH Hlen Hst|s Hr R IH].
    - apply (@r_init B V).
    - exact (@r_yield B V w rst nw (cst s) _ (cst s') IH (relabel_next N)).
    - exact (@r_done B V w rst nw (cst s) (cst s') IH (relabel_next N)).
    - exact (@r_restore _ V w rst nw (cst s) sts IH Hlen Hst).
    - exact (@r_reset _ V w rst nw (cst s) Hr IH).
  Qed.
  Lemma nokey_content l l' : map nokey l = map nokey l' -> map content l = map content l'.
  Proof.
    revert l'. induction l as [|e l IH]; intros [|e' l'] H; try discriminate; [reflexivity|]. cbn [map] in *. injection H as H1 H2. f_equal; [|auto].
    destruct e, e'; cbn in *; congruence.
  Qed.

  Theorem relabel_resumes rst nw : resumable V rst nw -> contents_resumable W rst nw.
  Proof.
    intros HR w s sts Hw Rs Hl Hs cs. assert (Q := HR w (cst s) sts Hw (relabel_reach Rs) Hl Hs).
    assert (E1 : forall s1 s2 : st W, (forall l, emits (D := V) w (cst s1) l -> emits (D := V) w (cst s2) l) -> (exists l, emits w s1 l /\ map content l = cs) -> exists l, emits w s2 l /\ map content l = cs).
    { intros s1 s2 H (l & E & <-). apply relabel_emits in E. apply H in E. apply relabel_emits_inv in E. destruct E as (l0 & E & EE). exists l0. split; [exact E|]. symmetry. apply nokey_content. exact EE. }
    split; apply E1; intros l; apply (Q l).
  Qed.
End Relabel.
