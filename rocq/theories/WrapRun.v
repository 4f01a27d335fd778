(** What a wrapper emits, as a function of what its inner dataset emits. *)
From Verif Require Import Base Dataset DatasetProofs Wrap WrapProofs.

(** [goes s l s']: running from [s] emits exactly the events [l] and arrives at [s'] (iter() being
    called again after each Done). *)
Inductive goes {P} (D : dataset P) (w : nat) : st D -> list (event (sample P)) -> st D -> Prop :=
| go_refl s : goes w s [] s
| go_tau s o g l s' : ds_step D w (fst s) (snd s) = (o, g, Tau) -> goes w (o, g) l s' -> goes w s l s'
| go_yield s o g a l s' : ds_step D w (fst s) (snd s) = (o, g, Yield a) -> goes w (o, g) l s' ->
    goes w s (Yield a :: l) s'
| go_done s o g l s' : ds_step D w (fst s) (snd s) = (o, g, Done) -> goes w (o, ds_iter D) l s' ->
    goes w s (Done :: l) s'.

Section Goes.
  Context {P : Type} (D : dataset P) (w : nat).
  Implicit Types s : st D.

  Lemma goes_emits s l s' l2 : goes w s l s' -> emits w s' l2 -> emits w s (l ++ l2).
  Proof.
    intros G E. induction G as [s|s o g l s' Hs G IH|s o g a l s' Hs G IH|s o g l s' Hs G IH]; cbn [app].
    - exact E.
    - apply (same_stream_tau Hs). auto.
    - eapply em_yield; [eapply next_now; [exact Hs|discriminate]|auto].
    - eapply em_done; [eapply next_now; [exact Hs|discriminate]|cbn [fst]; auto].
  Qed.

  Lemma goes_emits0 s l s' : goes w s l s' -> emits w s l.
  Proof. intros G. rewrite <- (app_nil_r l). eapply goes_emits; eauto. constructor. Qed.

  Lemma goes_trans s l s' l2 s2 : goes w s l s' -> goes w s' l2 s2 -> goes w s (l ++ l2) s2.
  Proof.
    intros G E. induction G; cbn [app]; auto; [eapply go_tau|eapply go_yield|eapply go_done]; eauto.
  Qed.

  Definition not_raise (e : event (sample P)) : Prop := match e with Yield _ | Done => True | _ => False end.

  Lemma next_goes s e s' : next w s e s' ->
    match e with
    | Yield _ => goes w s [e] s'
    | Done => goes w s [e] (fst s', ds_iter D)
    | _ => True
    end.
  Proof.
    intros [n N]. revert s N. induction n as [|n IH]; intros s N; [discriminate|]. cbn [nextn] in N.
    destruct (ds_step D w (fst s) (snd s)) as [[o g] [a| | |x]] eqn:E.
    - injection N as <- <-. eapply go_yield; [exact E|constructor].
    - specialize (IH _ N). destruct e; auto; eapply go_tau; eauto.
    - injection N as <- <-. eapply go_done; [exact E|constructor].
    - injection N as <- <-. exact I.
  Qed.

  Lemma emits_goes s l1 l2 : Forall not_raise l1 -> emits w s (l1 ++ l2) ->
    exists s', goes w s l1 s' /\ emits w s' l2.
  Proof.
    revert s; induction l1 as [|e l1 IH]; intros s HF E; cbn [app] in E.
    - exists s. split; [constructor|exact E].
    - inversion HF as [|? ? He HF']; subst. inversion E as [|? a s1 ? N E1|? s1 ? N E1|? x s1 N]; subst.
      + destruct (IH s1 HF' E1) as (s' & G & E'). exists s'. split; [|exact E'].
        apply (goes_trans (l := [Yield a]) (next_goes N) G).
      + destruct (IH _ HF' E1) as (s' & G & E'). exists s'. split; [|exact E'].
        apply (goes_trans (l := [Done]) (next_goes N) G).
      + destruct He.
  Qed.

  (** inversion of a non-empty run *)
  Lemma goes_cons s e l s' : goes w s (e :: l) s' ->
    (exists a s1, e = Yield a /\ next w s (Yield a) s1 /\ goes w s1 l s') \/
    (exists s1, e = Done /\ next w s Done s1 /\ goes w (fst s1, ds_iter D) l s').
  Proof.
    remember (e :: l) as el eqn:Eel. intros G. revert e l Eel.
    induction G as [s|s o g l s' Hs G IH|s o g a l s' Hs G IH|s o g l s' Hs G IH]; intros e0 l0 Eel.
    - discriminate.
    - destruct (IH _ _ Eel) as [(a & s1 & -> & N & G1)|(s1 & -> & N & G1)].
      + left. exists a, s1. split; auto. split; auto. eapply next_tau; eauto.
      + right. exists s1. split; auto. split; auto. eapply next_tau; eauto.
    - injection Eel as <- <-. left. exists a, (o, g). split; auto. split; auto. eapply next_now; [exact Hs|discriminate].
    - injection Eel as <- <-. right. exists (o, g). split; auto. split; [eapply next_now; [exact Hs|discriminate]|exact G].
  Qed.

  Lemma goes_nil_same s1 s2 : goes w s1 [] s2 -> same_stream w s1 s2.
  Proof.
    remember [] as l eqn:E. intros G. induction G as [s|s o g l s' Hs G IH| |]; try discriminate.
    - apply same_stream_refl.
    - eapply same_stream_trans; [apply (same_stream_tau Hs)|auto].
  Qed.

  Lemma goes_nil_trans s1 s2 l s3 : goes w s1 [] s2 -> goes w s2 l s3 -> goes w s1 l s3.
  Proof. intros G1 G2. exact (goes_trans G1 G2). Qed.
End Goes.

Definition inp {A} (r : option (sample A)) : event (sample A) :=
  match r with Some a => Yield a | None => Done end.

Definition obs {B} (e : event (sample B)) : list (event (sample B)) :=
  match e with Yield _ | Done => [e] | _ => [] end.

Section LRun.
  Context {A B : Type} (T : trans A B) (rs : rkey -> result (sample A)) (w : nat).

  Definition after (x : t_obj T * t_gen T * event (sample B)) : lst T :=
    match x with (o, _, Done) => (o, t_iter T) | (o, g, _) => (o, g) end.

  Definition ev_of (x : t_obj T * t_gen T * event (sample B)) : event (sample B) :=
    match x with (_, _, e) => e end.

  Definition is_raise (e : event (sample B)) : bool := match e with Raise _ => true | _ => false end.

  Definition done_ok (b : bool) (e : event (sample B)) : Prop :=
    match e with Done => t_keep T = true \/ b = true | _ => True end.

  (** [lrun b l ins outs b' l']: the wrapper's own code, given the inner results [ins], emits [outs] *)
  Inductive lrun : bool -> lst T -> list (option (sample A)) -> list (event (sample B)) -> bool -> lst T -> Prop :=
  | lr_nil b l : lrun b l [] [] b l
  | lr_local b l o g e ins outs b' l' : act rs w l = Local o g e -> is_raise e = false -> done_ok b e ->
      lrun b (after (o, g, e)) ins outs b' l' -> lrun b l ins (obs e ++ outs) b' l'
  | lr_pull b l k r ins outs b' l' : act rs w l = Pull k -> is_raise (ev_of (k r)) = false ->
      done_ok (is_none r) (ev_of (k r)) ->
      lrun (is_none r) (after (k r)) ins outs b' l' -> lrun b l (r :: ins) (obs (ev_of (k r)) ++ outs) b' l'.

  Lemma lrun_app b l ins outs b1 l1 ins2 outs2 b2 l2 :
    lrun b l ins outs b1 l1 -> lrun b1 l1 ins2 outs2 b2 l2 -> lrun b l (ins ++ ins2) (outs ++ outs2) b2 l2.
  Proof.
    intros H1 H2. induction H1; cbn [app]; auto; rewrite <- app_assoc.
    - eapply lr_local; eauto.
    - eapply lr_pull; eauto.
  Qed.
End LRun.

Section RunWrap.
  Context {A B : Type} (T : trans A B) (D : dataset A) (w : nat).
  Notation rs := (ds_restore_sample D w).
  Notation W := (wrap T D).

  Definition it_ok (b : bool) (s : st W) : Prop := b = true -> w_it (fst s) = None.

  (** the state after the wrapper's generator was asked for [next] and answered with a pulled sample *)
  Lemma goes_pull k (s : st W) e si :
    act rs w (loc s) = Pull k -> next w (eff s) e si -> 
    match e with
    | Yield a => is_raise (ev_of (k (Some a))) = false -> done_ok T false (ev_of (k (Some a))) ->
        exists s', goes w s (obs (ev_of (k (Some a)))) s' /\ loc s' = after (k (Some a)) /\ eff s' = si
    | Done => is_raise (ev_of (k None)) = false ->
        exists s', goes w s (obs (ev_of (k None))) s' /\ loc s' = after (k None) /\ eff s' = (fst si, ds_iter D) /\
          w_it (fst s') = None
    | _ => True
    end.
  Proof.
    intros Ha [n N]. revert s Ha N. induction n as [|n IH]; intros s Ha N; [discriminate|].
    cbn [nextn eff fst snd] in N.
    destruct (ds_step D w (w_in (fst s)) (cur_it (w_it (fst s)))) as [[io ig] ev] eqn:E.
    assert (Hs : ds_step W w (fst s) (snd s) = wrap_step w (fst s) (snd s)) by reflexivity.
    unfold wrap_step in Hs. unfold act, loc in Ha. cbn [fst snd] in Ha. rewrite Ha, E in Hs.
    destruct ev as [a| | |x].
    - injection N as <- <-. intros Hr Hd. destruct (k (Some a)) as [[o g'] ev]. cbn [ev_of after obs is_raise done_ok] in *.
      destruct ev as [y| | |y]; try discriminate.
      + exists (mkW o io (Some ig), g'). split; [|split; reflexivity]. eapply go_yield; [exact Hs|constructor].
      + exists (mkW o io (Some ig), g'). split; [|split; reflexivity]. eapply go_tau; [exact Hs|constructor].
      + cbn [drop_it] in Hs. destruct Hd as [K|?]; [|discriminate]. rewrite K in Hs.
        exists (mkW o io (Some ig), t_iter T). split; [|split; reflexivity]. eapply go_done; [exact Hs|constructor].
    - set (s2 := (mkW (w_loc (fst s)) io (Some ig), snd s) : st W).
      assert (X := IH s2 Ha N). destruct e as [a| | |x]; auto.
      + intros Hr Hd. destruct (X Hr Hd) as (s' & G & Q1 & Q2). exists s'. split; [|auto]. eapply go_tau; [exact Hs|exact G].
      + intros Hr. destruct (X Hr) as (s' & G & Q1 & Q2). exists s'. split; [|auto]. eapply go_tau; [exact Hs|exact G].
    - injection N as <- <-. intros Hr. destruct (k None) as [[o g'] ev]. cbn [ev_of after obs is_raise] in *.
      destruct ev as [y| | |y]; try discriminate; cbn [drop_it] in Hs.
      + exists (mkW o io None, g'). split; [|split; [|split]; reflexivity]. eapply go_yield; [exact Hs|constructor].
      + exists (mkW o io None, g'). split; [|split; [|split]; reflexivity]. eapply go_tau; [exact Hs|constructor].
      + exists (mkW o io (if t_keep T then None else None), t_iter T).
        split; [|split; [|split]; destruct (t_keep T); reflexivity]. eapply go_done; [exact Hs|constructor].
    - injection N as <- <-. exact I.
  Qed.

  (** forward: if the inner dataset emits [ins] and the wrapper code turns [ins] into [outs], then
      the wrapper emits [outs] *)
  Theorem wrap_run b l ins outs b' l' :
    lrun rs w b l ins outs b' l' -> forall (s : st W) si, loc s = l -> it_ok b s ->
    goes w (eff s) (map inp ins) si ->
    exists s', goes w s outs s' /\ loc s' = l' /\ it_ok b' s' /\ goes w (eff s') [] si /\
      (forall rst nw, reach w rst nw (eff s) -> reach w rst nw (eff s')).
  Proof.
    induction 1 as [b l|b l o g e ins outs b' l' Ha Hr Hd HL IH|b l k r ins outs b' l' Ha Hr Hd HL IH];
      intros s si Hl Hb G.
    - exists s. split; [constructor|auto].
    - rewrite <- Hl in Ha. assert (Hs := wrap_local_step Ha).
      destruct e as [a| | |x]; try discriminate; cbn [drop_it obs after done_ok] in *.
      + destruct (IH (mkW o (w_in (fst s)) (w_it (fst s)), g) si) as (s' & G' & R1 & R2 & R3 & R4); auto.
        exists s'. split; [|auto]. eapply go_yield; [exact Hs|exact G'].
      + destruct (IH (mkW o (w_in (fst s)) (w_it (fst s)), g) si) as (s' & G' & R1 & R2 & R3 & R4); auto.
        exists s'. split; [|auto]. eapply go_tau; [exact Hs|exact G'].
      + destruct (IH (mkW o (w_in (fst s)) (if t_keep T then w_it (fst s) else None), t_iter T) si)
          as (s' & G' & R1 & R2 & R3 & R4); auto.
        * intros Hbt. specialize (Hb Hbt). cbn. destruct (t_keep T); [exact Hb|reflexivity].
        * unfold eff in *. cbn. destruct (t_keep T); [exact G|]. destruct Hd as [?|Hbt]; [discriminate|].
          rewrite (Hb Hbt) in G. exact G.
        * exists s'. split; [eapply go_done; [exact Hs|exact G']|]. do 3 (split; [assumption|]).
          intros rst nw R0. apply R4. unfold eff in *. cbn. destruct (t_keep T); [exact R0|].
          destruct Hd as [?|Hbt]; [discriminate|]. rewrite (Hb Hbt) in R0. exact R0.
    - rewrite <- Hl in Ha. cbn [map] in G. apply goes_cons in G.
      destruct G as [(a & s1 & Er & N & G1)|(s1 & Er & N & G1)].
      + destruct r as [a0|]; [|discriminate]. injection Er as ->.
        destruct (goes_pull Ha N Hr Hd) as (s2 & G2 & L2 & E2).
        destruct (IH s2 si L2) as (s' & G' & R1 & R2 & R3 & R4).
        * discriminate.
        * rewrite E2. exact G1.
        * exists s'. split; [eapply goes_trans; eauto|]. do 3 (split; [assumption|]).
          intros rst nw R0. apply R4. rewrite E2. exact (r_yield R0 N).
      + destruct r as [a0|]; [discriminate|].
        destruct (goes_pull Ha N Hr) as (s2 & G2 & L2 & E2 & I2).
        destruct (IH s2 si L2) as (s' & G' & R1 & R2 & R3 & R4).
        * intros _. exact I2.
        * rewrite E2. exact G1.
        * exists s'. split; [eapply goes_trans; eauto|]. do 3 (split; [assumption|]).
          intros rst nw R0. apply R4. rewrite E2. exact (r_done R0 N).
  Qed.
End RunWrap.

Section RunInv.
  Context {A B : Type} (T : trans A B) (D : dataset A) (w : nat).
  Notation rs := (ds_restore_sample D w).
  Notation W := (wrap T D).
  (* the wrapper never drops a running inner iterator nor resets the inner dataset *)
  Variable Inv : bool -> lst T -> Prop.
  Hypothesis HI : forall b l, Inv b l ->
    match act rs w l with
    | Local o g e => is_raise e = false -> done_ok T b e /\ Inv b (after (o, g, e))
    | Pull k => forall r, is_raise (ev_of (k r)) = false ->
        done_ok T (is_none r) (ev_of (k r)) /\ Inv (is_none r) (after (k r))
    | Reset _ _ => False
    end.

  Lemma run_inv_next n : forall (s : st W) b e s', Inv b (loc s) -> it_ok b s ->
    nextn w n s = Some (e, s') -> is_raise e = false ->
    exists ins b' s2, Forall (fun r => True) ins /\
      (s2 = match e with Done => (fst s', t_iter T) | _ => s' end) /\
      lrun rs w b (loc s) ins (obs e) b' (loc s2) /\
      goes w (eff s) (map inp ins) (eff s2) /\ Inv b' (loc s2) /\ it_ok b' s2.
  Proof.
    induction n as [n IH] using lt_wf_ind. intros s b e s' HInv Hb N He.
    destruct n as [|n]; [discriminate|].
    pose proof (HI HInv) as HA.
    destruct (act rs w (loc s)) as [o g ev|k|o g] eqn:Ea; [| |contradiction].
    - assert (Hs := wrap_local_step Ea). rewrite nextn_step in N.
      rewrite Hs in N.
      destruct ev as [a| | |x]; cbn [fin drop_it] in N; try (destruct (HA eq_refl) as [Hd HInv']).
      + injection N as <- <-. exists [], b, (mkW o (w_in (fst s)) (w_it (fst s)), g).
        split; [constructor|]. split; [reflexivity|].
        split; [|split; [constructor|split; [exact HInv'|exact Hb]]].
        rewrite <- (app_nil_r (obs (Yield a))). eapply lr_local; eauto. constructor.
      + destruct (IH n (Nat.lt_succ_diag_r n) (mkW o (w_in (fst s)) (w_it (fst s)), g) b e s' HInv' Hb N He)
          as (ins & b' & s2 & F & S2 & LR & G & I2 & O2).
        exists ins, b', s2. repeat (split; [assumption|]). split; [|auto].
        change (obs e) with (obs (@Tau (sample B)) ++ obs e). eapply lr_local; eauto.
      + injection N as <- <-.
        exists [], b, (mkW o (w_in (fst s)) (if t_keep T then w_it (fst s) else None), t_iter T).
        split; [constructor|]. split; [reflexivity|].
        split; [|split; [|split; [exact HInv'|]]].
        * rewrite <- (app_nil_r (obs Done)). eapply lr_local; eauto. constructor.
        * cbn [map]. unfold eff. cbn. destruct (t_keep T) eqn:K; [constructor|].
          destruct Hd as [?|Hbt]; [congruence|]. specialize (Hb Hbt). destruct s as [[lo io it] g0]. cbn in *. subst it. constructor.
        * intros Hbt. specialize (Hb Hbt). cbn. destruct (t_keep T); [exact Hb|reflexivity].
      + injection N as <- <-. discriminate.
    - destruct (nextn w (S n) (eff s)) as [[ei si]|] eqn:Ei.
      2:{ assert (X := wrap_pull_none Ea Ei). rewrite X in N. discriminate. }
      destruct (wrap_pull_some Ea Ei) as (m' & Hm & Hj).
      replace (S n) with (m' + (S n - m')) in N by lia. rewrite Hj in N.
      assert (Hnx : next w (eff s) ei si) by (exists (S n); exact Ei).
      assert (K : forall (x : t_obj T * t_gen T * event (sample B)) r (it : option (ds_gen D)) io,
        x = k r -> (is_none r = true -> it = None) ->
        goes w (eff s) [inp r] (io, cur_it it) ->
        fin w (S n - m') (let '(o, g', ev) := x in (mkW o io (drop_it T ev it), g', ev)) = Some (e, s') ->
        exists ins b' s2, Forall (fun _ : option (sample A) => True) ins /\
          (s2 = match e with Done => (fst s', t_iter T) | _ => s' end) /\
          lrun rs w b (loc s) ins (obs e) b' (loc s2) /\
          goes w (eff s) (map inp ins) (eff s2) /\ Inv b' (loc s2) /\ it_ok b' s2).
      { intros x r it io Hx Hit G F. specialize (HA r). rewrite <- Hx in HA.
        destruct x as [[o g'] ev]. destruct ev as [a| | |x]; cbn [fin drop_it] in F;
          try (destruct (HA eq_refl) as [Hd HInv']).
        - injection F as <- <-. exists [r], (is_none r), (mkW o io it, g').
          split; [constructor; auto|]. split; [reflexivity|].
          split; [|split; [exact G|split; [exact HInv'|exact Hit]]].
          rewrite <- (app_nil_r (obs (Yield a))).
          replace (Yield a) with (ev_of (k r)) by (rewrite <- Hx; reflexivity).
          eapply lr_pull; [exact Ea|rewrite <- Hx; reflexivity|rewrite <- Hx; exact Hd|].
          rewrite <- Hx. constructor.
        - destruct (IH (S n - m') ltac:(lia) (mkW o io it, g') (is_none r) e s' HInv' Hit F He)
            as (ins & b' & s2 & F2 & S2 & LR & G2 & I2 & O2).
          exists (r :: ins), b', s2. split; [constructor; auto|]. split; [exact S2|]. split; [|split; [|auto]].
          + change (obs e) with (obs (@Tau (sample B)) ++ obs e).
            replace (@Tau (sample B)) with (ev_of (k r)) by (rewrite <- Hx; reflexivity).
            eapply lr_pull; [exact Ea|rewrite <- Hx; reflexivity|rewrite <- Hx; exact Hd|].
            rewrite <- Hx. exact LR.
          + cbn [map]. change (inp r :: map inp ins) with ([inp r] ++ map inp ins).
            eapply goes_trans; [exact G|exact G2].
        - injection F as <- <-.
          exists [r], (is_none r), (mkW o io (if t_keep T then it else None), t_iter T).
          split; [constructor; auto|]. split; [reflexivity|].
          split; [|split; [|split; [exact HInv'|]]].
          + rewrite <- (app_nil_r (obs Done)).
            replace (@Done (sample B)) with (ev_of (k r)) by (rewrite <- Hx; reflexivity).
            eapply lr_pull; [exact Ea|rewrite <- Hx; reflexivity|rewrite <- Hx; exact Hd|].
            rewrite <- Hx. constructor.
          + unfold eff. cbn. destruct (t_keep T) eqn:K; [exact G|].
            destruct Hd as [?|Hbt]; [congruence|]. rewrite (Hit Hbt) in G. exact G.
          + intros Hbt. specialize (Hit Hbt). cbn. destruct (t_keep T); [exact Hit|reflexivity].
        - injection F as <- <-. discriminate. }
      destruct ei as [a| | |x]; cbn [after_pull] in N.
      + apply (K (k (Some a)) (Some a) (Some (snd si)) (fst si)); auto.
        * discriminate.
        * cbn [cur_it inp]. destruct si; exact (next_goes Hnx).
      + exfalso; eapply next_not_tau; eauto.
      + apply (K (k None) None None (fst si)); auto. cbn [cur_it inp]. exact (next_goes Hnx).
      + injection N as <- <-. discriminate.
  Qed.

  (** backward: whatever the wrapper emits is what its code computes from something the inner
      dataset emits *)
  Theorem wrap_run_inv outs : Forall (fun e => not_raise e) outs -> forall (s : st W) b,
    Inv b (loc s) -> it_ok b s -> emits w s outs ->
    exists ins b' l', emits w (eff s) (map inp ins) /\ lrun rs w b (loc s) ins outs b' l' /\ Inv b' l'.
  Proof.
    induction outs as [|e outs IH]; intros HF s b HInv Hb E.
    - exists [], b, (loc s). split; [constructor|]. split; [constructor|exact HInv].
    - inversion HF as [|? ? He HF']; subst.
      assert (X : exists s1, next w s e s1 /\
                 emits w (match e with Done => (fst s1, t_iter T) | _ => s1 end) outs /\ is_raise e = false).
      { inversion E as [|? a s1 ? N E1|? s1 ? N E1|? x s1 N]; subst; [| |destruct He].
        - exists s1. auto.
        - exists s1. auto. }
      destruct X as (s1 & [n N] & E1 & Hr).
      destruct (run_inv_next HInv Hb N Hr) as (ins & b' & s2 & _ & -> & LR & G & I2 & O2).
      destruct (IH HF' _ b' I2 O2 E1) as (ins2 & b2 & l2 & E2 & LR2 & I3).
      exists (ins ++ ins2), b2, l2. split; [|split; [|exact I3]].
      + rewrite map_app. eapply goes_emits; eauto.
      + replace (e :: outs) with (obs e ++ outs) by (destruct e; try reflexivity; destruct He).
        eapply lrun_app; eauto.
  Qed.
End RunInv.
