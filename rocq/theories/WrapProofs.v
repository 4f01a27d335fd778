(** Generic proofs about [wrap]: a wrapper resumes exactly when its own bookkeeping does
    ([local_ok], [local_sim]: facts about the wrapper's code alone) and the inner dataset does. *)
From Verif Require Import Base Dataset DatasetProofs Wrap.

Definition is_none {X} (r : option X) : bool := match r with None => true | Some _ => false end.

Section Local.
  Context {A B : Type} (T : trans A B) (rs : rkey -> result (sample A)) (w nw : nat) (rst : bool).
  Variable Q : option (sample A) -> Prop.   (* what the inner iterator can return *)

  Definition lst : Type := (t_obj T * t_gen T)%type.
  Definition act (l : lst) := t_act T rs w (fst l) (snd l).

  (** [b]: there is no inner iterator at the moment (so the next pull starts a new one) *)
  Section Inv.
    Variable Y : sample B -> Prop.      (* every yielded sample satisfies this *)
    Variable Dn : Prop.                 (* the wrapper may end *)
    Variables Inv Sav : bool -> lst -> Prop.

    Definition post (b : bool) (x : t_obj T * t_gen T * event (sample B)) : Prop :=
      match x with
      | (o, g, Yield y) => Y y /\ Sav b (o, g)
      | (o, g, Tau) => Inv b (o, g)
      (* a wrapper's generator only ends with a running inner iterator if it keeps that iterator *)
      | (o, _, Done) => Dn /\ (t_keep T = true \/ b = true) /\ Sav b (o, t_iter T)
      | (_, _, Raise _) => True
      end.

    (** [Inv] holds at every step of the wrapper's generator, [Sav] wherever it can be saved *)
    Record local_ok : Prop := {
      lo_init : Sav true (t_init T, t_iter T);
      lo_sav : forall b l, Sav b l -> Inv b l;
      lo_local : forall b l o g e, Inv b l -> act l = Local o g e -> post b (o, g, e);
      lo_pull : forall b l k r, Inv b l -> act l = Pull k -> Q r -> post (is_none r) (k r);
      lo_reset : forall b l o g, Inv b l -> act l = Reset o g -> Inv true (o, g);
      lo_restore : forall b l sts, Sav b l -> length sts = nw ->
        nth_error sts w = Some (Some (t_save T w (fst l))) ->
        Sav true (t_restore T (Some (t_merge T sts)) (t_init T), t_iter T);
      lo_restore_none : forall b l, rst = true -> Sav b l -> Sav true (t_restore T None (fst l), t_iter T)
    }.
  End Inv.

  Inductive ltaus : lst -> lst -> Prop :=
  | lt_refl l : ltaus l l
  | lt_step l o g l' : act l = Local o g Tau -> ltaus (o, g) l' -> ltaus l l'.

  Section Sim.
    Variable L : bool -> lst -> lst -> Prop.

    Definition ematch (b : bool) (x1 x2 : t_obj T * t_gen T * event (sample B)) : Prop :=
      match x1, x2 with
      | (o1, g1, Yield a1), (o2, g2, Yield a2) => a1 = a2 /\ L b (o1, g1) (o2, g2)
      | (o1, g1, Tau), (o2, g2, Tau) => L b (o1, g1) (o2, g2)
      | (o1, _, Done), (o2, _, Done) =>
          (t_keep T = true \/ b = true) /\ L b (o1, t_iter T) (o2, t_iter T)
      | (_, _, Raise e1), (_, _, Raise e2) => e1 = e2
      | _, _ => False
      end.

    Definition amatch (b : bool) (a1 a2 : action (t_obj T) (t_gen T) A B) : Prop :=
      match a1, a2 with
      | Local o1 g1 e1, Local o2 g2 e2 => ematch b (o1, g1, e1) (o2, g2, e2)
      | Pull k1, Pull k2 => forall r, Q r -> ematch (is_none r) (k1 r) (k2 r)
      | Reset o1 g1, Reset o2 g2 => L true (o1, g1) (o2, g2)
      | _, _ => False
      end.

    (** related local states behave alike, up to silent local steps *)
    Definition local_sim : Prop :=
      forall b l1 l2, L b l1 l2 ->
        exists l1' l2', ltaus l1 l1' /\ ltaus l2 l2' /\ amatch b (act l1') (act l2').
  End Sim.

  Lemma ematch_flip L b x1 x2 :
    ematch L b x1 x2 -> ematch (fun b l1 l2 => L b l2 l1) b x2 x1.
  Proof using Type.
    destruct x1 as [[o1 g1] [a1| | |e1]], x2 as [[o2 g2] [a2| | |e2]]; cbn; intros H; try contradiction; auto;
      destruct H as [H1 H2]; split; auto.
  Qed.

  Lemma local_sim_flip L : local_sim L -> local_sim (fun b l1 l2 => L b l2 l1).
  Proof using Type.
    intros H b l1 l2 HL. destruct (H _ _ _ HL) as (l1' & l2' & T1 & T2 & M).
    exists l2', l1'. split; [exact T2|]. split; [exact T1|].
    destruct (act l1') as [o1 g1 e1|k1|o1 g1], (act l2') as [o2 g2 e2|k2|o2 g2]; cbn [amatch] in *; try tauto.
    - apply ematch_flip; exact M.
    - intros r Hr. apply ematch_flip. apply M. exact Hr.
  Qed.
End Local.

Section Global.
  Context {A B : Type} (T : trans A B) (D : dataset A) (w nw : nat) (rin rout : bool).
  Let rs := ds_restore_sample D w.
  Let W := wrap T D.

  Definition loc (s : st W) : lst T := (w_loc (fst s), snd s).
  Definition eff (s : st W) : st D := (w_in (fst s), cur_it (w_it (fst s))).

  (** the state after an inner [next] that returned event [e] and left the inner state [si] *)
  Definition after_pull (l : lst T) (k : option (sample A) -> t_obj T * t_gen T * event (sample B))
      (e : event (sample A)) (si : st D) : wobj T D * t_gen T * event (sample B) :=
    match e with
    | Yield a => let '(o, g', ev) := k (Some a) in (mkW o (fst si) (drop_it T ev (Some (snd si))), g', ev)
    | Done => let '(o, g', ev) := k None in (mkW o (fst si) (drop_it T (D := D) ev None), g', ev)
    | Raise x => (mkW (fst l) (fst si) None, snd l, Raise x)
    | Tau => (mkW (fst l) (fst si) None, snd l, Tau)
    end.

  Definition fin (j : nat) (r : wobj T D * t_gen T * event (sample B)) :=
    match r with
    | (x, g, Tau) => nextn (D := W) w j (x, g)
    | (x, g, e) => Some (e, (x, g))
    end.

  Lemma wrap_pull_some k m s e si :
    act rs w (loc s) = Pull k -> nextn w m (eff s) = Some (e, si) ->
    exists m', 1 <= m' <= m /\ forall j, nextn (D := W) w (m' + j) s = fin j (after_pull (loc s) k e si).
  Proof.
    revert s; induction m as [|m IH]; intros s Hact H; [discriminate|].
    cbn [nextn eff fst snd] in H.
    unfold act, loc in Hact. cbn [fst snd] in Hact.
    destruct (ds_step D w (w_in (fst s)) (cur_it (w_it (fst s)))) as [[io ig] ev] eqn:E.
    assert (Hs : ds_step W w (fst s) (snd s) = wrap_step w (fst s) (snd s)) by reflexivity.
    unfold wrap_step in Hs. unfold rs in Hact. rewrite Hact, E in Hs.
    destruct ev as [a| | |x].
    - injection H as <- <-. exists 1. split; [lia|]. intros j. cbn [Nat.add nextn]. rewrite Hs.
      unfold after_pull. cbn [fst snd]. destruct (k (Some a)) as [[o g'] [y| | |x]]; reflexivity.
    - set (s2 := (mkW (w_loc (fst s)) io (Some ig), snd s) : st W).
      assert (Hact2 : act rs w (loc s2) = Pull k) by exact Hact.
      destruct (IH s2 Hact2 H) as (m' & Hm & Hj).
      exists (S m'). split; [lia|]. intros j. cbn [Nat.add nextn]. rewrite Hs.
      change (mkW (w_loc (fst s)) io (Some ig), snd s) with s2. rewrite Hj. reflexivity.
    - injection H as <- <-. exists 1. split; [lia|]. intros j. cbn [Nat.add nextn]. rewrite Hs.
      unfold after_pull. cbn [fst snd]. destruct (k None) as [[o g'] [y| | |x]]; reflexivity.
    - injection H as <- <-. exists 1. split; [lia|]. intros j. cbn [Nat.add nextn]. rewrite Hs. reflexivity.
  Qed.

  Lemma wrap_pull_none k m s :
    act rs w (loc s) = Pull k -> nextn w m (eff s) = None -> nextn (D := W) w m s = None.
  Proof.
    revert s; induction m as [|m IH]; intros s Hact H; [reflexivity|].
    cbn [nextn eff fst snd] in H.
    unfold act, loc in Hact. cbn [fst snd] in Hact.
    destruct (ds_step D w (w_in (fst s)) (cur_it (w_it (fst s)))) as [[io ig] ev] eqn:E.
    assert (Hs : ds_step W w (fst s) (snd s) = wrap_step w (fst s) (snd s)) by reflexivity.
    unfold wrap_step in Hs. unfold rs in Hact. rewrite Hact, E in Hs.
    destruct ev as [a| | |x]; try discriminate.
    cbn [nextn]. rewrite Hs. apply IH; auto.
  Qed.

  Lemma wrap_local_step s o g e :
    act rs w (loc s) = Local o g e ->
    ds_step W w (fst s) (snd s) = (mkW o (w_in (fst s)) (drop_it T e (w_it (fst s))), g, e).
  Proof. intros H. unfold act, loc, rs in H. cbn in *. unfold wrap_step. rewrite H. reflexivity. Qed.

  Lemma wrap_reset_step s o g :
    act rs w (loc s) = Reset o g ->
    ds_step W w (fst s) (snd s) = (mkW o (ds_restore D None (w_in (fst s))) None, g, Tau).
  Proof. intros H. unfold act, loc, rs in H. cbn in *. unfold wrap_step. rewrite H. reflexivity. Qed.

  Lemma nextn_step n s : nextn (D := W) w (S n) s = fin n (ds_step W w (fst s) (snd s)).
  Proof. cbn [nextn]. destruct (ds_step W w (fst s) (snd s)) as [[o g] [a| | |e]]; reflexivity. Qed.

  Lemma ltaus_fwd l l' : ltaus rs w l l' -> forall n (s : st W) r, loc s = l -> nextn w n s = Some r ->
    exists n', n' <= n /\ nextn (D := W) w n' (mkW (fst l') (w_in (fst s)) (w_it (fst s)), snd l') = Some r.
  Proof.
    induction 1 as [l|l o g l' Ha Ht IH]; intros n s r Hl Hn.
    - exists n. split; [lia|]. subst l. destruct s as [[lo io it] g]. exact Hn.
    - destruct n as [|n]; [discriminate|]. rewrite nextn_step in Hn.
      rewrite <- Hl in Ha. rewrite (wrap_local_step Ha) in Hn. cbn [fin drop_it] in Hn.
      destruct (IH n (mkW o (w_in (fst s)) (w_it (fst s)), g) r) as (n' & Hle & Hn'); [reflexivity|exact Hn|].
      exists n'. split; [lia|exact Hn'].
  Qed.

  Lemma ltaus_bwd l l' : ltaus rs w l l' -> forall n (s : st W) r, loc s = l ->
    nextn (D := W) w n (mkW (fst l') (w_in (fst s)) (w_it (fst s)), snd l') = Some r ->
    exists n', nextn w n' s = Some r.
  Proof.
    induction 1 as [l|l o g l' Ha Ht IH]; intros n s r Hl Hn.
    - exists n. subst l. destruct s as [[lo io it] g]. exact Hn.
    - destruct (IH n (mkW o (w_in (fst s)) (w_it (fst s)), g) r) as (n' & Hn'); [reflexivity|exact Hn|].
      exists (S n'). rewrite nextn_step. rewrite <- Hl in Ha. rewrite (wrap_local_step Ha). exact Hn'.
  Qed.

  Variable Q : option (sample A) -> Prop.
  Hypothesis HQy : forall s a s', reach w rin nw s -> next (D := D) w s (Yield a) s' -> Q (Some a).
  Hypothesis HQd : forall s s', reach w rin nw s -> next (D := D) w s Done s' -> Q None.
  Hypothesis Hresets : (forall l o g, act (T := T) rs w l <> Reset o g) \/ rin = true.
  Hypothesis Hrout : rout = true -> rin = true /\ t_keep T = false.

  (** *** invariant *)
  Section WithInv.
    Variable Y : sample B -> Prop.
    Variable Dn : Prop.
    Variables Inv Sav : bool -> lst T -> Prop.
    Hypothesis LO : local_ok rs w nw rout Q Y Dn Inv Sav.

    Definition good (I : bool -> lst T -> Prop) (s : st W) : Prop :=
      exists b, I b (loc s) /\ reach w rin nw (eff s) /\ (b = true -> w_it (fst s) = None).

    Definition good_post (e : event (sample B)) (s' : st W) : Prop :=
      match e with
      | Yield y => Y y /\ good Sav s'
      | Done => Dn /\ good Sav (fst s', t_iter T)
      | _ => True
      end.

    Lemma good_fin_local b o g e n e' s' (io : ds_obj D) (it : option (ds_gen D)) :
      post Y Dn Inv Sav b (o, g, e) -> reach w rin nw (io, cur_it it) -> (b = true -> it = None) ->
      (forall s, good Inv s -> nextn w n s = Some (e', s') -> good_post e' s') ->
      fin n (mkW o io (drop_it T e it), g, e) = Some (e', s') -> good_post e' s'.
    Proof.
      intros P R Hb IH F. destruct e as [a| | |x]; cbn [fin drop_it] in *.
      - injection F as <- <-. destruct P as [PY P]. split; [exact PY|]. exists b. auto.
      - eapply IH; [|exact F]. exists b. auto.
      - injection F as <- <-. cbn [good_post fst]. cbn [post] in P. destruct P as (PD & HK & P).
        split; [exact PD|]. exists b.
        split; [exact P|]. destruct (t_keep T) eqn:K; cbn [loc eff fst snd w_in w_it].
        + auto.
        + destruct HK as [|Hbt]; [discriminate|]. split; [|auto]. rewrite (Hb Hbt) in R. exact R.
      - injection F as <- <-. exact I.
    Qed.

    Lemma good_next n : forall s e s', good Inv s -> nextn w n s = Some (e, s') -> good_post e s'.
    Proof.
      induction n as [n IH] using lt_wf_ind. intros s e s' (b & HI & HR & Hb) Hn.
      destruct n as [|n]; [discriminate|].
      destruct (act rs w (loc s)) as [o g ev|k|o g] eqn:Ea.
      - rewrite nextn_step, (wrap_local_step Ea) in Hn.
        eapply good_fin_local with (b := b) (n := n); eauto.
        eapply (lo_local LO); eauto.
      - destruct (nextn w (S n) (eff s)) as [[ei si]|] eqn:Ei.
        2:{ rewrite (wrap_pull_none Ea Ei) in Hn. discriminate. }
        destruct (wrap_pull_some Ea Ei) as (m' & Hm & Hj).
        replace (S n) with (m' + (S n - m')) in Hn by lia. rewrite Hj in Hn.
        assert (Hnx : next w (eff s) ei si) by (exists (S n); exact Ei).
        assert (IH' : forall s, good Inv s -> nextn w (S n - m') s = Some (e, s') -> good_post e s').
        { intros s0 G0 N0. eapply IH; [|exact G0|exact N0]. lia. }
        destruct ei as [a| | |x]; cbn [after_pull] in Hn.
        + assert (Hq : Q (Some a)) by (eapply HQy; eauto).
          pose proof (lo_pull LO HI Ea Hq) as HP.
          destruct (k (Some a)) as [[o g'] ev] eqn:Ek.
          eapply good_fin_local with (b := false) (io := fst si) (it := Some (snd si)) (n := S n - m'); eauto.
          * cbn [cur_it]. destruct si as [io ig]. exact (r_yield HR Hnx).
          * congruence.
        + exfalso; eapply next_not_tau; eauto.
        + assert (Hq : Q None) by (eapply HQd; eauto).
          pose proof (lo_pull LO HI Ea Hq) as HP.
          destruct (k None) as [[o g'] ev] eqn:Ek.
          eapply good_fin_local with (b := true) (io := fst si) (it := None) (n := S n - m'); eauto.
          cbn [cur_it]. exact (r_done HR Hnx).
        + injection Hn as <- <-. exact I.
      - rewrite nextn_step, (wrap_reset_step Ea) in Hn. cbn [fin] in Hn.
        eapply IH; [|shelve|exact Hn]. lia. Unshelve.
        exists true. split; [eapply (lo_reset LO); eauto|]. split; [|auto].
        destruct Hresets as [C|C]; [exfalso; eapply C; eauto|].
        apply (r_reset (s := eff s)); auto.
    Qed.

    Lemma good_reach s : reach w rout nw s -> good Sav s.
    Proof.
      induction 1 as [|s a s' R IH N|s s' R IH N|s sts R IH Hlen Hst|s Hr R IH].
      - exists true. split; [exact (lo_init LO)|]. split; [constructor|auto].
      - destruct IH as (b & HS & HR & Hb). destruct N as [n N].
        apply (good_next (n := n) (s := s) (e := Yield a) (s' := s')); auto. exists b.
        split; [apply (lo_sav LO); exact HS|auto].
      - destruct IH as (b & HS & HR & Hb). destruct N as [n N].
        apply (good_next (n := n) (s := s) (e := Done) (s' := s')); auto. exists b.
        split; [apply (lo_sav LO); exact HS|auto].
      - destruct IH as (b & HS & HR & Hb). exists true. split; [|split; [|cbn; destruct (t_keep T); auto]].
        + cbn [loc fst snd w_loc]. cbn. eapply (lo_restore LO); [exact HS|rewrite map_length; exact Hlen|].
          exact (nth_error_map_some _ Hst).
        + unfold eff. cbn [fst snd w_in w_it W wrap ds_restore ds_init ds_iter ds_merge option_map].
          replace (cur_it (D := D) (if t_keep T then None else None)) with (ds_iter D) by (destruct (t_keep T); reflexivity).
          eapply r_restore; [exact HR|rewrite map_length; exact Hlen|].
          exact (nth_error_map_some _ Hst).
      - destruct IH as (b & HS & HR & Hb). destruct (Hrout Hr) as [Hri K].
        exists true. split; [exact (lo_restore_none LO Hr HS)|]. unfold eff. cbn. rewrite K. split; [|auto].
        apply (r_reset (s := eff s)); auto.
    Qed.
  End WithInv.

  (** *** simulation *)
  Section WithSim.
    Variable L : bool -> lst T -> lst T -> Prop.
    Hypothesis LS : local_sim rs w Q L.
    Hypothesis Hreset_eq : (forall l o g, act (T := T) rs w l <> Reset o g) \/
      (forall s, reach w rin nw s ->
         same_stream w (ds_restore D None (fst s), ds_iter D) (ds_init D, ds_iter D)).

    Definition R (s1 s2 : st W) : Prop :=
      exists b, L b (loc s1) (loc s2) /\ same_stream w (eff s1) (eff s2) /\
        reach w rin nw (eff s1) /\ reach w rin nw (eff s2) /\
        (b = true -> w_it (fst s1) = None /\ w_it (fst s2) = None).

    Definition R_post (e : event (sample B)) (s1 s2 : st W) : Prop :=
      match e with
      | Yield _ => R s1 s2
      | Done => R (fst s1, t_iter T) (fst s2, t_iter T)
      | _ => True
      end.

    Lemma sim_fin n b o1 g1 e1 o2 g2 e2 io1 it1 io2 it2 e s1' :
      ematch L b (o1, g1, e1) (o2, g2, e2) ->
      same_stream w (io1, cur_it it1) (io2, cur_it it2) ->
      reach w rin nw (io1, cur_it it1) -> reach w rin nw (io2, cur_it it2) ->
      (b = true -> it1 = None /\ it2 = None) ->
      (forall s1 s2, R s1 s2 -> nextn w n s1 = Some (e, s1') ->
         exists s2', next w s2 e s2' /\ R_post e s1' s2') ->
      fin n (mkW o1 io1 (drop_it T e1 it1), g1, e1) = Some (e, s1') ->
      exists n' s2', fin n' (mkW o2 io2 (drop_it T e2 it2), g2, e2) = Some (e, s2') /\ R_post e s1' s2'.
    Proof.
      intros M SS R1 R2 Hb IH F.
      destruct e1 as [a1| | |x1], e2 as [a2| | |x2]; cbn [ematch] in M; try contradiction; cbn [fin drop_it] in *.
      - destruct M as [-> HL]. injection F as <- <-. exists 0, (mkW o2 io2 it2, g2). split; [reflexivity|].
        exists b. auto 10.
      - destruct (IH (mkW o1 io1 it1, g1) (mkW o2 io2 it2, g2)) as (s2' & [n' N'] & HP); [exists b; auto 10|exact F|].
        exists n', s2'. auto.
      - destruct M as [HK HL]. injection F as <- <-.
        exists 0, (mkW o2 io2 (if t_keep T then it2 else None), g2). split; [reflexivity|].
        cbn [R_post fst]. exists b. cbn [loc eff fst snd w_in w_it w_loc]. split; [exact HL|].
        destruct (t_keep T) eqn:K.
        + auto.
        + destruct HK as [|Hbt]; [discriminate|]. destruct (Hb Hbt) as [-> ->]. auto.
      - subst x2. injection F as <- <-. exists 0, (mkW o2 io2 (if t_keep T then it2 else None), g2). split; reflexivity.
    Qed.

    Lemma sim_next n : forall s1 s2 e s1', R s1 s2 -> nextn w n s1 = Some (e, s1') ->
      exists s2', next w s2 e s2' /\ R_post e s1' s2'.
    Proof.
      induction n as [n IH] using lt_wf_ind. intros s1 s2 e s1' (b & HL & SS & R1 & R2 & Hb) Hn.
      destruct (LS HL) as (l1' & l2' & T1 & T2 & M).
      destruct (ltaus_fwd T1 (s := s1) eq_refl Hn) as (n1 & Hle & Hn1).
      set (t1 := (mkW (fst l1') (w_in (fst s1)) (w_it (fst s1)), snd l1') : st W) in *.
      set (t2 := (mkW (fst l2') (w_in (fst s2)) (w_it (fst s2)), snd l2') : st W) in *.
      assert (L1 : loc t1 = l1') by (destruct l1'; reflexivity).
      assert (L2 : loc t2 = l2') by (destruct l2'; reflexivity).
      assert (Hcl : forall n' s2', nextn w n' t2 = Some (e, s2') -> next w s2 e s2').
      { intros n' s2' N2. destruct (ltaus_bwd T2 (s := s2) eq_refl N2) as (n2 & N2'). exists n2. exact N2'. }
      destruct n1 as [|n1]; [discriminate|].
      assert (IH' : forall m, m <= n1 -> forall s1 s2, R s1 s2 -> nextn w m s1 = Some (e, s1') ->
         exists s2', next w s2 e s2' /\ R_post e s1' s2').
      { intros m Hm q1 q2 HR HN. eapply IH; [|exact HR|exact HN]. lia. }
      destruct (act rs w l1') as [o1 g1 e1|k1|o1 g1] eqn:A1;
        destruct (act rs w l2') as [o2 g2 e2|k2|o2 g2] eqn:A2; cbn [amatch] in M; try contradiction.
      - rewrite <- L1 in A1. rewrite <- L2 in A2.
        rewrite nextn_step, (wrap_local_step A1) in Hn1.
        destruct (sim_fin (n := n1) M SS R1 R2 Hb (IH' n1 (le_n _)) Hn1) as (n' & s2' & F & HP).
        exists s2'. split; [|exact HP]. apply (Hcl (S n')). rewrite nextn_step, (wrap_local_step A2). exact F.
      - rewrite <- L1 in A1. rewrite <- L2 in A2.
        destruct (nextn w (S n1) (eff t1)) as [[ei si]|] eqn:Ei.
        2:{ rewrite (wrap_pull_none A1 Ei) in Hn1. discriminate. }
        destruct (wrap_pull_some A1 Ei) as (m' & Hm & Hj).
        replace (S n1) with (m' + (S n1 - m')) in Hn1 by lia. rewrite Hj in Hn1.
        assert (Hnx : next w (eff s1) ei si) by (exists (S n1); exact Ei).
        destruct (same_stream_fsim SS Hnx) as (si2 & Hnx2 & Hpost).
        destruct Hnx2 as [p2 Hp2].
        destruct (wrap_pull_some (s := t2) A2 Hp2) as (m2 & Hm2 & Hj2).
        destruct ei as [a| | |x]; cbn [after_pull] in *.
        + assert (Hq : Q (Some a)) by (eapply HQy; [exact R1|eexists; exact Ei]).
          specialize (M (Some a) Hq).
          destruct (k1 (Some a)) as [[o1 g1] e1]. destruct (k2 (Some a)) as [[o2 g2] e2].
          destruct si as [io1 ig1], si2 as [io2 ig2]. cbn [fst snd] in *.
          edestruct (@sim_fin (S n1 - m') (is_none (Some a)) o1 g1 e1 o2 g2 e2 io1 (Some ig1) io2 (Some ig2) e s1')
            as (n' & s2' & F & HP); auto.
          * eapply r_yield; [exact R1|exact Hnx].
          * eapply r_yield; [exact R2|eexists; exact Hp2].
          * discriminate.
          * apply IH'. lia.
          * exists s2'. split; [|exact HP]. apply (Hcl (m2 + n')). rewrite Hj2. exact F.
        + exfalso. eapply next_not_tau; eauto.
        + assert (Hq : Q None) by (eapply HQd; [exact R1|eexists; exact Ei]).
          specialize (M None Hq).
          destruct (k1 None) as [[o1 g1] e1]. destruct (k2 None) as [[o2 g2] e2].
          destruct si as [io1 ig1], si2 as [io2 ig2]. cbn [fst snd] in *.
          edestruct (@sim_fin (S n1 - m') (is_none (@None (sample A))) o1 g1 e1 o2 g2 e2 io1 None io2 None e s1')
            as (n' & s2' & F & HP); auto.
          * eapply (r_done (s' := (io1, ig1))); [exact R1|exact Hnx].
          * eapply (r_done (s' := (io2, ig2))); [exact R2|eexists; exact Hp2].
          * apply IH'. lia.
          * exists s2'. split; [|exact HP]. apply (Hcl (m2 + n')). rewrite Hj2. exact F.
        + injection Hn1 as <- <-. eexists. split; [|exact I].
          apply (Hcl (m2 + 0)). rewrite Hj2. reflexivity.
      - rewrite <- L1 in A1. rewrite <- L2 in A2.
        rewrite nextn_step, (wrap_reset_step A1) in Hn1. cbn [fin] in Hn1.
        assert (HR : R (mkW o1 (ds_restore D None (w_in (fst t1))) None, g1)
                       (mkW o2 (ds_restore D None (w_in (fst t2))) None, g2)).
        { exists true. cbn [loc eff fst snd w_in w_it w_loc cur_it t1 t2]. split; [exact M|].
          destruct Hresets as [C|Hr]; [exfalso; eapply C; eauto|].
          destruct Hreset_eq as [C|Heq]; [exfalso; eapply C; eauto|].
          split; [|split; [|split; [|auto]]].
          - eapply same_stream_trans; [apply (Heq _ R1)|apply same_stream_sym; apply (Heq _ R2)].
          - apply (r_reset (s := eff s1)); auto.
          - apply (r_reset (s := eff s2)); auto. }
        destruct (IH' n1 (le_n _) _ _ HR Hn1) as (s2' & [n' N'] & HP).
        exists s2'. split; [|exact HP]. apply (Hcl (S n')). rewrite nextn_step, (wrap_reset_step A2). exact N'.
    Qed.
  End WithSim.

  Lemma R_same_stream L (LS : local_sim rs w Q L)
      (Hreset_eq : (forall l o g, act (T := T) rs w l <> Reset o g) \/
        (forall s, reach w rin nw s ->
         same_stream w (ds_restore D None (fst s), ds_iter D) (ds_init D, ds_iter D)))
      s1 s2 : R L s1 s2 -> same_stream (D := W) w s1 s2.
  Proof.
    intros HR. apply bisim_same_stream with (R := R L); auto.
    - intros q1 q2 H e q1' [n N]. destruct (sim_next LS Hreset_eq H N) as (q2' & N2 & P).
      exists q2'. split; [exact N2|]. destruct e; auto.
    - intros q1 q2 H e q1' [n N]. unfold flip_rel in *.
      assert (H' : R (fun b l1 l2 => L b l2 l1) q1 q2).
      { destruct H as (b & X1 & X2 & X3 & X4 & X5). exists b. repeat split; auto.
        - apply (same_stream_sym X2).
        - apply (same_stream_sym X2).
        - destruct (X5 H); auto.
        - destruct (X5 H); auto. }
      destruct (sim_next (local_sim_flip LS) Hreset_eq H' N) as (q2' & N2 & P).
      exists q2'. split; [exact N2|].
      assert (F : forall a b, R (fun b l1 l2 => L b l2 l1) a b -> R L b a).
      { intros a c (b & X1 & X2 & X3 & X4 & X5). exists b. repeat split; auto.
        - apply (same_stream_sym X2).
        - apply (same_stream_sym X2).
        - destruct (X5 H0); auto.
        - destruct (X5 H0); auto. }
      destruct e; auto; apply F; exact P.
  Qed.
End Global.

(** *** the packaged theorems *)

(** what can be assumed about an inner iterator's results: if [nr], a sample can be restored by its
    key; if [ne], it never ends *)
Definition Qof {A} (ne nr : bool) (rs : rkey -> result (sample A)) (r : option (sample A)) : Prop :=
  match r with
  | Some a => nr = true -> rs (rk a) = Ok a
  | None => ne = false
  end.

Definition no_reset {A B} (T : trans A B) : Prop :=
  forall rs w o g o' g', t_act T rs w o g <> Reset o' g'.

(** [P]: the states (of worker w) in which saving is claimed to work *)
Definition local_resumable_at {A B} (T : trans A B) (rst : bool) (nw : nat) (ne nr : bool)
    (P : nat -> lst T -> Prop) : Prop :=
  forall w rs, w < nw -> exists Inv Sav L,
    local_ok rs w nw rst (Qof ne nr rs) (fun _ => True) True Inv Sav /\
    local_sim rs w (Qof ne nr rs) L /\
    (forall b l sts, Sav b l -> P w l -> length sts = nw ->
       nth_error sts w = Some (Some (t_save T w (fst l))) ->
       L b l (t_restore T (Some (t_merge T sts)) (t_init T), t_iter T)).

Definition local_resumable {A B} (T : trans A B) (rst : bool) (nw : nat) (ne nr : bool) : Prop :=
  @local_resumable_at A B T rst nw ne nr (fun _ _ => True).

Definition local_yields {A B} (T : trans A B) (rst : bool) (nw : nat) (ne nr : bool)
    (Y : (rkey -> result (sample A)) -> nat -> sample B -> Prop) (Dn : Prop) : Prop :=
  forall w rs, w < nw -> exists Inv Sav,
    local_ok (T := T) rs w nw rst (Qof ne nr rs) (Y rs w) Dn Inv Sav.

Section Packaged.
  Context {A B : Type} (T : trans A B) (D : dataset A) (nw : nat) (rin rout ne nr : bool).
  Hypothesis Hnr : nr = true -> restorable D rin nw.
  Hypothesis Hne : ne = true -> endless D rin nw.
  Hypothesis Hrout : rout = true -> rin = true /\ t_keep T = false.
  Hypothesis Hreset : no_reset T \/ (rin = true /\ resettable D rin nw).

  Lemma Qof_y w : w < nw -> forall s a s', reach w rin nw s -> next (D := D) w s (Yield a) s' ->
    Qof ne nr (ds_restore_sample D w) (Some a).
  Proof using Hnr. intros Hw s a s' R N E. eapply Hnr; eauto. Qed.

  Lemma Qof_d w : w < nw -> forall s s', reach w rin nw s -> next (D := D) w s Done s' ->
    Qof ne nr (ds_restore_sample D w) None.
  Proof using Hne.
    intros Hw s s' R N. cbn. destruct ne; [|reflexivity]. exfalso. eapply (Hne eq_refl); eauto.
  Qed.

  Lemma Hresets_of w rs : (forall l o g, act (T := T) rs w l <> Reset o g) \/ rin = true.
  Proof using Hreset. destruct Hreset as [H|[H _]]; [left; intros l o g; apply H|right; exact H]. Qed.

  Theorem wrap_resumable_at P :
    @local_resumable_at A B T rout nw ne nr P -> resumable D rin nw ->
    forall w (s : st (wrap T D)) sts, w < nw -> reach w rout nw s -> P w (loc s) -> length sts = nw ->
      nth_error sts w = Some (Some (ds_save (wrap T D) w (fst s))) ->
      same_stream w s (ds_restore (wrap T D) (Some (ds_merge (wrap T D) sts)) (ds_init (wrap T D)), ds_iter (wrap T D)).
  Proof using Hnr Hne Hrout Hreset.
    intros LR RD w s sts Hw Rs HP Hlen Hst.
    destruct (LR w (ds_restore_sample D w) Hw) as (Inv & Sav & L & LO & LS & LI).
    assert (Hr' := Hresets_of w (ds_restore_sample D w)).
    destruct (good_reach (Qof_y Hw) (Qof_d Hw) Hr' Hrout LO Rs) as (b & HS & HR & Hb).
    apply (R_same_stream (rin := rin) (nw := nw) (Qof_y Hw) (Qof_d Hw) Hr' Hrout LS).
    { destruct Hreset as [H|[H1 H2]]; [left; intros l o g; apply H|right].
      intros s0 R0. apply H2; auto. }
    assert (Hst1 := nth_error_map_some (option_map fst) Hst).
    assert (Hst2 := nth_error_map_some (option_map snd) Hst).
    exists b. split; [|split; [|split; [exact HR|split]]].
    - apply LI with (b := b); auto. rewrite map_length. exact Hlen.
    - unfold eff. cbn.
      replace (cur_it (D := D) (if t_keep T then None else None)) with (ds_iter D) by (destruct (t_keep T); reflexivity).
      apply (RD w (eff s)); auto. rewrite map_length. exact Hlen.
    - unfold eff. cbn.
      replace (cur_it (D := D) (if t_keep T then None else None)) with (ds_iter D) by (destruct (t_keep T); reflexivity).
      eapply r_restore; [exact HR|rewrite map_length; exact Hlen|exact Hst2].
    - intros Hbt. split; [apply Hb; exact Hbt|]. cbn. destruct (t_keep T); reflexivity.
  Qed.

  Theorem wrap_resumable :
    local_resumable T rout nw ne nr -> resumable D rin nw -> resumable (wrap T D) rout nw.
  Proof using Hnr Hne Hrout Hreset.
    intros LR RD w s sts Hw Rs Hlen Hst. eapply wrap_resumable_at; eauto. exact I.
  Qed.

  Lemma wrap_yields Y Dn : local_yields T rout nw ne nr Y Dn ->
    forall w s e s', w < nw -> reach w rout nw s -> next (D := wrap T D) w s e s' ->
      match e with Yield y => Y (ds_restore_sample D w) w y | Done => Dn | _ => True end.
  Proof using Hnr Hne Hrout Hreset.
    intros LY w s e s' Hw Rs [n N].
    destruct (LY w (ds_restore_sample D w) Hw) as (Inv & Sav & LO).
    assert (Hr' := Hresets_of w (ds_restore_sample D w)).
    destruct (good_reach (Qof_y Hw) (Qof_d Hw) Hr' Hrout LO Rs) as (b & HS & HR & Hb).
    assert (G : good w nw rin Inv s) by (exists b; split; [apply (lo_sav LO); exact HS|auto]).
    pose proof (good_next (Qof_y Hw) (Qof_d Hw) Hr' Hrout LO G N) as P.
    destruct e; auto; apply P.
  Qed.

  Theorem wrap_restorable :
    local_yields T rout nw ne nr (fun rs w y => t_restore_sample T rs w (rk y) = Ok y) True ->
    restorable (wrap T D) rout nw.
  Proof using Hnr Hne Hrout Hreset.
    intros LY w s a s' Hw Rs N. exact (wrap_yields LY Hw Rs N).
  Qed.

  Theorem wrap_endless Y : local_yields T rout nw ne nr Y False -> endless (wrap T D) rout nw.
  Proof using Hnr Hne Hrout Hreset.
    intros LY w s s' Hw Rs N. exact (wrap_yields LY Hw Rs N).
  Qed.
End Packaged.
