From Verif Require Import Base Dataset DatasetProofs Wrap WrapProofs WrapRun WrapTrace WrapSpec WrapLib
  Wrappers IdxProofs RepeatProofs.

Section Share.
  (** the per-worker lengths add up *)
  Lemma local_share_sum nw len : 0 < nw -> list_sum (map (local_share nw len) (seq 0 nw)) = len.
  Proof.
    intros H. unfold local_share. destruct (nw <=? 1) eqn:E.
    - apply Nat.leb_le in E. assert (nw = 1) by lia. subst nw. cbn. lia.
    - clear E.
      assert (G : forall n r q, r <= n -> list_sum (map (fun w => q + (if w <? r then 1 else 0)) (seq 0 n)) = n * q + r).
      { intros n r q. revert r. induction n as [|n IH]; intros r Hr.
        - cbn. lia.
        - rewrite seq_S, map_app, list_sum_app. cbn [map list_sum fold_right Nat.add].
          destruct (Nat.ltb_spec n r).
          + assert (r = S n) by lia. subst r.
            replace (map (fun w => q + (if w <? S n then 1 else 0)) (seq 0 n)) with (map (fun w => q + (if w <? n then 1 else 0)) (seq 0 n)).
            * rewrite (IH n) by lia. lia.
            * apply map_ext_in. intros w Hw. apply in_seq in Hw.
              replace (w <? S n) with true by (symmetry; apply Nat.ltb_lt; lia).
              replace (w <? n) with true by (symmetry; apply Nat.ltb_lt; lia). reflexivity.
          + rewrite IH by lia. lia. }
      rewrite G.
      + pose proof (Nat.div_mod len nw ltac:(lia)). lia.
      + pose proof (Nat.mod_upper_bound len nw ltac:(lia)). lia.
  Qed.
End Share.

Section Epochize.
  Context {A : Type} (nw len : nat).
  Notation T := (epochize_ds (A := A) nw len).

  (** the position in the current epoch *)
  Definition ep_pos (w i : nat) (x : lst T) : Prop :=
    let L := local_share nw len w in
    length (fst x) = nw /\
    match snd x with
    | EpStart => nth w (fst x) 0 = i /\ (i < L \/ (L = 0 /\ i = 0))
    | EpHead j => j = i /\ i <= L /\ nth w (fst x) 0 = i mod L
    | EpNext j => j = i /\ i < L /\ nth w (fst x) 0 = (i + 1) mod L
    end.

  Definition ep_Inv (w : nat) (b : bool) (x : lst T) : Prop := exists i, ep_pos w i x.
  Definition ep_Sav (w : nat) (b : bool) (x : lst T) : Prop :=
    ep_Inv w b x /\ match snd x with EpNext _ => False | EpHead 0 => False | _ => True end.

  Lemma ep_pos_start w o : length o = nw -> nth w o 0 = 0 -> ep_pos w 0 (o, EpStart).
  Proof. intros H H0. split; [exact H|]. cbn. split; [exact H0|]. lia. Qed.

  Lemma mod_self L : L mod L = 0.
  Proof. destruct L; [reflexivity|]. apply Nat.mod_same. lia. Qed.

  Lemma nth_repeat0 n w : nth w (repeat 0 n) 0 = 0.
  Proof. revert w. induction n as [|n IH]; intros [|w]; cbn; auto. Qed.

  Lemma ep_local_ok rst ne nr w rs : w < nw ->
    local_ok (T := T) rs w nw rst (Qof ne nr rs) (fun y => nr = true -> rs (rk y) = Ok y) True (ep_Inv w) (ep_Sav w).
  Proof.
    intros Hw. constructor.
    - split; [|exact I]. exists 0. apply ep_pos_start; [apply repeat_length|apply nth_repeat0].
    - intros b l [H _]. exact H.
    - intros b [o g] o' g' e (i & HL & HP) Ha. unfold act in Ha. destruct g as [|j|j]; cbn [fst snd] in *;
        cbn [epochize_ds t_act fst snd] in Ha.
      + injection Ha as <- <- <-. cbn [post]. destruct HP as [H1 H2]. exists i. split; [exact HL|]. cbn [fst snd].
        repeat split; auto; [lia|]. rewrite H1. destruct H2 as [H2|[-> ->]]; [symmetry; apply Nat.mod_small; exact H2|reflexivity].
      + destruct HP as (-> & H1 & H2). destruct (i <? local_share nw len w) eqn:E.
        * injection Ha as <- <- <-. cbn [post]. exists i. split; [cbn; rewrite upd_length; exact HL|]. cbn [fst snd].
          apply Nat.ltb_lt in E. repeat split; auto. apply nth_upd_same. lia.
        * injection Ha as <- <- <-. cbn [post]. apply Nat.ltb_ge in E. assert (i = local_share nw len w) by lia. subst i.
          split; [exact I|]. split; [left; reflexivity|]. split; [|exact I]. exists 0.
          apply ep_pos_start; [exact HL|]. rewrite H2. apply mod_self.
      + discriminate.
    - intros b [o g] k r (i & HL & HP) Ha HQ. unfold act in Ha. destruct g as [|j|j]; cbn [fst snd] in *;
        cbn [epochize_ds t_act fst snd] in Ha; try discriminate.
      { destruct (j <? local_share nw len w); discriminate. }
      injection Ha as <-. destruct HP as (-> & H1 & H2). destruct r as [a|]; cbn [post is_none].
      + split; [exact HQ|]. split; [|exact I]. exists (S i). split; [exact HL|]. cbn [fst snd].
        repeat split; auto. rewrite H2. f_equal. lia.
      + exists i. split; [exact HL|]. cbn [fst snd]. auto.
    - intros b [o g] o' g' _ Ha. unfold act in Ha. destruct g as [|j|j]; cbn [epochize_ds t_act fst snd] in Ha; try discriminate.
      destruct (j <? local_share nw len w); discriminate.
    - intros b [o g] sts [(i & HL & HP) HS] Hl Hs. cbn [epochize_ds t_restore t_merge t_iter t_init restore_nat].
      split; [|exact I]. cbn in Hs. pose proof (merge_nat_nth Hs) as HM. exists (nth w o 0).
      split; [cbn; rewrite merge_nat_length; exact Hl|]. cbn [fst snd] in *. split; [exact HM|].
      destruct g as [|j|j].
      + destruct HP as [-> H]. exact H.
      + destruct HP as (-> & H1 & ->). destruct i; [destruct HS|]. left. apply Nat.mod_upper_bound. lia.
      + destruct HS.
    - intros b l _ _. split; [|exact I]. exists 0. apply ep_pos_start; [apply repeat_length|apply nth_repeat0].
  Qed.

  Lemma ep_no_reset : no_reset T.
  Proof.
    intros rs w o g o' g'. destruct g as [|k|k]; cbn [epochize_ds t_act]; try discriminate.
    destruct (k <? local_share nw len w); discriminate.
  Qed.

  Lemma ep_settle rs w i (x : lst T) : w < nw -> ep_pos w i x ->
    exists o, length o = nw /\
    if i <? local_share nw len w then ltaus rs w x (o, EpNext i) /\ nth w o 0 = (i + 1) mod local_share nw len w
    else ltaus rs w x (o, EpHead i) /\ i = local_share nw len w /\ nth w o 0 = 0.
  Proof.
    intros Hw. destruct x as [o g]. intros [HL HP]. cbn [fst snd] in *.
    assert (HD : i <= local_share nw len w -> nth w o 0 = i mod local_share nw len w ->
      exists o', length o' = nw /\
      if i <? local_share nw len w then ltaus rs w ((o, EpHead i) : lst T) (o', EpNext i) /\ nth w o' 0 = (i + 1) mod local_share nw len w
      else ltaus rs w ((o, EpHead i) : lst T) (o', EpHead i) /\ i = local_share nw len w /\ nth w o' 0 = 0).
    { intros H1 H2. destruct (i <? local_share nw len w) eqn:E.
      - exists (upd o w ((i + 1) mod local_share nw len w)). split; [rewrite upd_length; exact HL|]. split.
        + eapply lt_step; [|constructor]. unfold act. cbn [epochize_ds t_act fst snd]. rewrite E. reflexivity.
        + apply nth_upd_same. lia.
      - exists o. split; [exact HL|]. apply Nat.ltb_ge in E. split; [constructor|]. split; [lia|].
        assert (i = local_share nw len w) by lia. subst i. rewrite H2. apply mod_self. }
    destruct g as [|j|j].
    - destruct HP as [<- H]. destruct HD as (o' & H1 & H2); [lia| |].
      { destruct H as [H|[-> E]]; [symmetry; apply Nat.mod_small; exact H|rewrite E; reflexivity]. }
      exists o'. split; [exact H1|]. destruct (nth w o 0 <? local_share nw len w); destruct H2 as [H2 H3];
        (split; [|exact H3]); (eapply lt_step; [reflexivity|exact H2]).
    - destruct HP as (-> & H1 & H2). apply HD; auto.
    - destruct HP as (-> & H1 & H2). exists o. split; [exact HL|].
      replace (i <? local_share nw len w) with true by (symmetry; apply Nat.ltb_lt; exact H1). split; [constructor|exact H2].
  Qed.

  Definition ep_not_end (w : nat) (x : lst T) : Prop := snd x <> EpHead (local_share nw len w).

  Lemma ep_local_resumable rst ne nr : @local_resumable_at A A T rst nw ne nr ep_not_end.
  Proof.
    intros w rs Hw. exists (ep_Inv w), (ep_Sav w), (fun _ x y => exists i, ep_pos w i x /\ ep_pos w i y).
    split; [|split].
    - eapply local_ok_weaken; [| |apply ep_local_ok; exact Hw]; auto.
    - intros b x y (i & Hx & Hy).
      destruct (ep_settle rs Hw Hx) as (o1 & L1 & S1). destruct (ep_settle rs Hw Hy) as (o2 & L2 & S2).
      destruct (i <? local_share nw len w) eqn:E.
      + destruct S1 as [S1 N1], S2 as [S2 N2]. exists (o1, EpNext i), (o2, EpNext i). split; [exact S1|]. split; [exact S2|].
        apply Nat.ltb_lt in E.
        cbn. intros [a|] _; cbn.
        * split; [reflexivity|]. exists (S i). unfold ep_pos. cbn [fst snd]. replace (S i) with (i + 1) by lia.
          repeat split; auto; lia.
        * exists i. unfold ep_pos. cbn [fst snd]. auto 10.
      + destruct S1 as (S1 & -> & N1), S2 as (S2 & _ & N2).
        exists (o1, EpHead (local_share nw len w)), (o2, EpHead (local_share nw len w)). split; [exact S1|]. split; [exact S2|].
        unfold act. cbn [epochize_ds t_act fst snd]. rewrite E. cbn. split; [left; reflexivity|].
        exists 0. split; apply ep_pos_start; auto.
    - intros b [o g] sts [(i & HP) HS] HN Hl Hs. exists i. split; [exact HP|].
      cbn in Hs. pose proof (merge_nat_nth Hs) as HM. destruct HP as [HL HP]. cbn [fst snd] in *.
      split; [cbn; rewrite merge_nat_length; exact Hl|]. cbn [epochize_ds t_restore t_iter t_merge fst snd restore_nat].
      unfold ep_not_end in HN. cbn [snd] in HN.
      destruct g as [|j|j]; [| |destruct HS].
      + destruct HP as [H1 H2]. rewrite HM. auto.
      + destruct HP as (-> & H1 & H2). assert (i < local_share nw len w) by (destruct (Nat.eq_dec i (local_share nw len w)); [subst i; congruence|lia]).
        rewrite HM, H2. rewrite Nat.mod_small by lia. auto.
  Qed.

  Section Whole.
    Variables (D : dataset A) (rst ne nr : bool).

    Lemma ep_next_not_done w n i : forall s r, snd s = EpNext i -> nextn (D := wrap T D) w n s <> Some (Done, r).
    Proof.
      induction n as [|n IH]; intros [x g] r Hg H; cbn [snd] in Hg; subst g; [discriminate|].
      cbn [nextn fst snd] in H. cbn [ds_step wrap] in H. unfold wrap_step in H. cbn [epochize_ds t_act] in H.
      destruct (ds_step D w (w_in x) (cur_it (w_it x))) as [[io ig] [a| | |e]]; cbn in H; try discriminate;
        eapply IH; try exact H; reflexivity.
    Qed.

    Lemma ep_step_head w o io it j : ds_step (wrap T D) w (mkW (T := T) (D := D) o io it) (EpHead j) =
      if j <? local_share nw len w
      then (mkW (T := T) (D := D) (upd o w ((j + 1) mod local_share nw len w)) io it, EpNext j, Tau)
      else (mkW (T := T) (D := D) o io it, EpHead j, Done).
    Proof. cbn [wrap ds_step]. unfold wrap_step. cbn [epochize_ds t_act w_loc]. destruct (j <? local_share nw len w); reflexivity. Qed.

    Lemma ep_done_head w o io it j s' : next (D := wrap T D) w (mkW (T := T) (D := D) o io it, EpHead j) Done s' ->
      fst s' = mkW (T := T) (D := D) o io it.
    Proof.
      intros [n N]. destruct n as [|n]; [discriminate|]. cbn [nextn fst snd] in N. rewrite ep_step_head in N.
      destruct (j <? local_share nw len w).
      - exfalso. eapply ep_next_not_done; [|exact N]. reflexivity.
      - injection N as <-. reflexivity.
    Qed.

    (** an epoch ends before anything is pulled *)
    Lemma ep_done_obj w (s s' : st (wrap T D)) : next w s Done s' ->
      fst s' = fst s \/ exists i, snd s = EpNext i.
    Proof.
      intros N. destruct s as [[o io it] g]. destruct g as [|j|j]; [left|left|right; eexists; reflexivity]; cbn [fst].
      - apply (next_tau_inv (D := wrap T D) (s := (mkW (T := T) (D := D) o io it, EpStart)) (o := mkW o io it) (g := EpHead (nth w o 0)) eq_refl) in N.
        eapply ep_done_head; eauto.
      - eapply ep_done_head; eauto.
    Qed.

    Theorem epochize_resumes : resumable D rst nw -> resumes_modulo_end (wrap T D) false nw.
    Proof.
      intros RD w s sts Hw Rs Hl Hs.
      assert (AT := @wrap_resumable_at A A T D nw rst false false false ltac:(discriminate) ltac:(discriminate) ltac:(discriminate)
                 (or_introl ep_no_reset) ep_not_end (ep_local_resumable false false false) RD).
      split.
      - intros s' N. destruct (ep_done_obj N) as [E|[i E]].
        + apply AT; auto; [eapply r_done; eauto|discriminate|rewrite E; exact Hs].
        + exfalso. destruct N as [n N]. eapply ep_next_not_done; [exact E|exact N].
      - intros HN. apply AT; auto. intros E. destruct s as [[o io it] g]. unfold loc in E. cbn [fst snd] in E. subst g.
        apply (HN (mkW (T := T) (D := D) o io it, EpHead (local_share nw len w))). apply next_now; [|discriminate].
        cbn [fst snd]. rewrite ep_step_head, Nat.ltb_irrefl. reflexivity.
    Qed.

    (** *** what comes out *)
    Variable w : nat.
    Hypothesis Hw : w < nw.

    Definition ep_J (ins : list (option (sample A))) (outs : list (event (sample A))) (b : bool) (x : lst T) : Prop :=
      exists full part, outs = concat (map epoch full) ++ map Yield part /\
        Forall (fun e => length e = local_share nw len w) full /\
        samples (map inp ins) = concat full ++ part /\ ep_pos w (length part) x.

    Lemma ep_trace_ok : trace_ok D w ep_J.
    Proof.
      intros ins outs b [o g] (full & part & -> & HF & HS & HL & HP). cbn [fst snd] in *.
      unfold act. destruct g as [|j|j]; cbn [epochize_ds t_act fst snd].
      - intros _. split; [exact I|]. cbn [obs after]. rewrite app_nil_r. exists full, part.
        split; [reflexivity|]. split; [exact HF|]. split; [exact HS|]. split; [exact HL|]. cbn [fst snd].
        destruct HP as [-> H2]. repeat split; auto; [lia|]. destruct H2 as [H2|[E ->]]; [symmetry; apply Nat.mod_small; exact H2|rewrite E; reflexivity].
      - destruct HP as (-> & H1 & H2). destruct (length part <? local_share nw len w) eqn:E; intros _; (split; [cbn; auto|]); cbn [obs after].
        + rewrite app_nil_r. exists full, part. split; [reflexivity|]. split; [exact HF|]. split; [exact HS|].
          split; [cbn; rewrite upd_length; exact HL|]. cbn [fst snd]. apply Nat.ltb_lt in E. repeat split; auto. apply nth_upd_same. lia.
        + apply Nat.ltb_ge in E. exists (full ++ [part]), []. rewrite map_app, concat_app. cbn. rewrite !app_nil_r.
          split; [unfold epoch; rewrite app_assoc; reflexivity|]. split; [apply Forall_app; split; [exact HF|constructor; [lia|constructor]]|].
          split; [rewrite concat_app, HS; cbn; rewrite !app_nil_r; reflexivity|].
          apply ep_pos_start; [exact HL|]. rewrite H2. replace (length part) with (local_share nw len w) by lia. apply mod_self.
      - destruct HP as (-> & H1 & H2). intros [a|] _; (split; [exact I|]); cbn [ev_of obs after].
        + exists full, (part ++ [a]). split; [rewrite map_Yield_snoc, app_assoc; reflexivity|]. split; [exact HF|].
          split; [rewrite map_inp_snoc, samples_app, HS; cbn; rewrite app_assoc; reflexivity|].
          split; [exact HL|]. cbn [fst snd]. rewrite app_length. cbn [length]. repeat split; auto; lia.
        + rewrite app_nil_r. exists full, part. split; [reflexivity|]. split; [exact HF|].
          split; [rewrite map_inp_snoc, samples_app, HS; cbn; rewrite app_nil_r; reflexivity|]. split; [exact HL|]. cbn [fst snd]. auto.
    Qed.

    Lemma ep_J_init : ep_J [] [] true (t_init T, t_iter T).
    Proof.
      exists [], []. split; [reflexivity|]. split; [constructor|]. split; [reflexivity|].
      apply ep_pos_start; [apply repeat_length|apply nth_repeat0].
    Qed.

    Lemma ep_pos_le i (x : lst T) : ep_pos w i x -> i <= local_share nw len w.
    Proof. destruct x as [o [|j|j]]; intros [_ H]; cbn in H; lia. Qed.

    Theorem epochize_trace outs : clean outs -> emits (D := wrap T D) w (fresh (wrap T D)) outs ->
      exists ins, clean ins /\ emits w (fresh D) ins /\ epochs_of (local_share nw len w) (samples ins) outs.
    Proof.
      intros HC E.
      destruct (@wrap_trace _ _ T D w ep_J ep_trace_ok outs (fresh (wrap T D)) true HC ep_J_init
                  (@fresh_it_ok _ _ T D true) E) as (ins & b & l & E1 & full & part & H1 & H2 & H3 & H4).
      exists (map inp ins). split; [apply clean_map_inp|]. split; [exact E1|].
      exists full, part. repeat split; auto. apply (ep_pos_le H4).
    Qed.

    Theorem epochize_forward ins : 0 < local_share nw len w -> clean ins -> emits w (fresh D) ins ->
      exists outs, emits (D := wrap T D) w (fresh (wrap T D)) outs /\ epochs_of (local_share nw len w) (samples ins) outs.
    Proof.
      intros HL HC E. destruct (clean_inp HC) as (ins' & ->).
      assert (P : trace_progress D w ep_J (fun x => match snd x with EpStart => 2 | EpHead i => if i <? local_share nw len w then 1 else 3 | EpNext _ => 0 end)).
      { intros i o b [oo g] (full & part & _ & _ & _ & _ & HP). unfold act. cbn [fst snd] in *. destruct g as [|k|k]; cbn [epochize_ds t_act fst snd].
        - split; [reflexivity|]. cbn [after snd]. destruct HP as [-> H]. replace (length part <? local_share nw len w) with true; [lia|].
          symmetry. apply Nat.ltb_lt. lia.
        - destruct (k <? local_share nw len w) eqn:Ek; cbn [after snd]; (split; [reflexivity|]); [lia|]. cbn. lia.
        - intros [a|]; reflexivity. }
      destruct (@wrap_forward _ _ T D w ep_J ep_trace_ok _ P (fresh (wrap T D)) true ins' ep_J_init
                  (@fresh_it_ok _ _ T D true) E) as (outs & b & l & E1 & (full & part & H1 & H2 & H3 & H4) & _).
      exists outs. split; [exact E1|]. exists full, part. repeat split; auto. apply (ep_pos_le H4).
    Qed.
  End Whole.
End Epochize.
