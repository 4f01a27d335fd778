(** MapDataset with a generator function. *)
From Coq Require Import String.
From Verif Require Import Base Dataset DatasetProofs Wrap WrapProofs WrapRun WrapTrace WrapSpec WrapLib
  Wrappers MapModel IdxProofs RepeatProofs EpochizeProofs.

Lemma nth_repeat_none {X} n w : nth w (repeat (@None X) n) None = None.
Proof. revert w. induction n as [|n IH]; intros [|w]; cbn; auto. Qed.

Section MapGen.
  Context {A B : Type} (nw : nat) (f : nat -> nat -> A -> list B * gend).
  Notation T := (mapgen_ds nw f).

  Lemma mg_no_reset : no_reset T.
  Proof.
    intros rs w o g o' g'. destruct g as [|a i j t| |a i j]; cbn [mapgen_ds t_act].
    - destruct (nth w (mg_key o) None); [|discriminate]. destruct (nth w (mg_off o) None); [|discriminate].
      destruct (rs r); discriminate.
    - destruct (f w i (pl a)) as [ys e]. destruct (nth_error ys j); [destruct (t <=? j); discriminate|]. destruct e; discriminate.
    - discriminate.
    - destruct (f w i (pl a)) as [ys e]. destruct (nth_error ys j); [discriminate|]. destruct e; discriminate.
  Qed.

  Definition mg_len (o : mg_obj) : Prop := length (mg_idx o) = nw /\ length (mg_key o) = nw /\ length (mg_off o) = nw.

  (** *** every sample can be restored by its key, whatever the generators do *)
  Section Restore.
    Variables (rs : rkey -> result (sample A)) (w : nat).
    Hypothesis Hw : w < nw.

    Definition mg_key_ok (o : mg_obj) : Prop :=
      match nth w (mg_key o) None with
      | None => nth w (mg_off o) None = None
      | Some k => (exists a, rs k = Ok a /\ rk a = k) /\ exists t, nth w (mg_off o) None = Some t
      end.

    Definition mg_Inv (b : bool) (x : lst T) : Prop :=
      mg_len (fst x) /\ mg_key_ok (fst x) /\
      match snd x with
      | MgStart | MgLoop => True
      | MgGen a _ _ | MgResume a _ _ _ => rs (rk a) = Ok a /\ exists k, nth w (mg_key (fst x)) None = Some k
      end.

    Lemma mg_key_ok_off o j : mg_len o -> (exists k, nth w (mg_key o) None = Some k) -> mg_key_ok o -> mg_key_ok (mg_set_off w j o).
    Proof.
      intros (H1 & H2 & H3) (k & Hk). unfold mg_key_ok, mg_set_off. cbn. rewrite Hk. intros [H _]. split; [exact H|].
      rewrite nth_upd_same by lia. eauto.
    Qed.
    Lemma mg_key_ok_clear o : mg_len o -> mg_key_ok (mg_clear w o).
    Proof. intros (H1 & H2 & H3). unfold mg_key_ok, mg_clear. cbn. rewrite !nth_upd_same by lia. reflexivity. Qed.
    Lemma mg_len_off o j : mg_len o -> mg_len (mg_set_off w j o).
    Proof. unfold mg_len, mg_set_off. cbn. rewrite upd_length. auto. Qed.
    Lemma mg_len_clear o : mg_len o -> mg_len (mg_clear w o).
    Proof. unfold mg_len, mg_clear. cbn. rewrite !upd_length. auto. Qed.

    Lemma mg_restore_key y i j a : rs (rk a) = Ok a -> nth_error (fst (f w i (pl a))) j = Some y ->
      t_restore_sample T rs w (rk (mkS y (mapgen_key i j (rk a)))) = Ok (mkS y (mapgen_key i j (rk a))).
    Proof. intros H N. cbn. rewrite H. cbn. rewrite N. reflexivity. Qed.

    Lemma mg_local_ok rst ne :
      local_ok (T := T) rs w nw rst (Qof ne true rs) (fun y => t_restore_sample T rs w (rk y) = Ok y) (ne = false) mg_Inv mg_Inv.
    Proof.
      constructor.
      - split; [split; [|split]; apply repeat_length|]. split; [|exact I]. unfold mg_key_ok. cbn [mapgen_ds t_init fst mg_key mg_off].
        rewrite !nth_repeat_none. reflexivity.
      - auto.
      - intros b [o g] o' g' e (HL & HK & HP) Ha. unfold act in Ha. cbn [fst snd] in *.
        destruct g as [|a i j t| |a i j]; cbn [mapgen_ds t_act] in Ha; try discriminate.
        + unfold mg_key_ok in HK. destruct (nth w (mg_key o) None) as [k|] eqn:Ek.
          * destruct HK as [(a & Ra & Ka) (t & Et)]. rewrite Et, Ra in Ha. injection Ha as <- <- <-. cbn [post].
            split; [apply mg_len_off; exact HL|]. split; [|cbn; rewrite Ka, Ek; eauto].
            apply mg_key_ok_off; eauto. unfold mg_key_ok. rewrite Ek, Et. eauto.
          * injection Ha as <- <- <-. split; [exact HL|]. split; [|exact I]. unfold mg_key_ok. cbn [fst]. rewrite Ek. exact HK.
        + destruct (f w i (pl a)) as [ys ge] eqn:Ef. destruct HP as [HR HP]. destruct (nth_error ys j) as [y|] eqn:Ey.
          * destruct (t <=? j); injection Ha as <- <- <-; cbn [post].
            -- split; [apply mg_restore_key; [exact HR|rewrite Ef; exact Ey]|].
               split; [apply mg_len_off; exact HL|]. split; [apply mg_key_ok_off; auto|]. cbn [fst snd mg_set_off mg_key]. auto.
            -- split; [exact HL|]. split; [exact HK|]. cbn [fst snd]. auto.
          * destruct ge; injection Ha as <- <- <-; cbn [post]; auto.
            split; [apply mg_len_clear; exact HL|]. split; [apply mg_key_ok_clear; exact HL|exact I].
        + destruct (f w i (pl a)) as [ys ge] eqn:Ef. destruct HP as [HR HP]. destruct (nth_error ys j) as [y|] eqn:Ey.
          * injection Ha as <- <- <-; cbn [post].
            split; [apply mg_restore_key; [exact HR|rewrite Ef; exact Ey]|].
            split; [apply mg_len_off; exact HL|]. split; [apply mg_key_ok_off; auto|]. cbn [fst snd mg_set_off mg_key]. auto.
          * destruct ge; injection Ha as <- <- <-; cbn [post]; auto; (split; [|split]); cbn [fst snd]; auto.
            -- apply mg_len_clear; exact HL.
            -- apply mg_key_ok_clear; exact HL.
      - intros b [o g] k r (HL & HK & HP) Ha HQ. unfold act in Ha. cbn [fst snd] in *.
        destruct g as [|a i j t| |a i j]; cbn [mapgen_ds t_act] in Ha.
        { destruct (nth w (mg_key o) None); [|discriminate]. destruct (nth w (mg_off o) None); [|discriminate].
          destruct (rs r0); discriminate. }
        { destruct (f w i (pl a)) as [ys e]. destruct (nth_error ys j); [destruct (t <=? j); discriminate|]. destruct e; discriminate. }
        2:{ destruct (f w i (pl a)) as [ys e]. destruct (nth_error ys j); [discriminate|]. destruct e; discriminate. }
        injection Ha as <-. destruct r as [a|]; cbn [post is_none].
        + destruct HL as (H1 & H2 & H3). specialize (HQ eq_refl).
          split; [unfold mg_len; cbn; rewrite !upd_length; auto|]. cbn [fst snd]. unfold mg_key_ok. cbn [mg_key mg_off].
          rewrite !nth_upd_same by lia. split; [|split; [exact HQ|eauto]]. split; [|eauto]. eauto.
        + split; [exact HQ|]. split; [auto|]. split; [exact HL|]. split; [exact HK|exact I].
      - intros b [o g] o' g' _ Ha. exfalso. eapply mg_no_reset; exact Ha.
      - intros b [o g] sts (HL & HK & HP) Hl Hs. cbn [fst] in *.
        split; [unfold mg_len; cbn; rewrite merge_nat_length, !map_length; auto|]. split; [|exact I].
        unfold mg_key_ok. cbn [mapgen_ds t_restore t_merge fst mg_key mg_off].
        erewrite !nth_error_nth by (apply nth_error_map_some; exact Hs). cbn [mapgen_ds t_save].
        unfold mg_key_ok in HK. destruct (nth w (mg_key o) None) as [k|] eqn:Ek.
        + destruct HK as [HA (t & Et)]. rewrite Et. eauto.
        + rewrite HK. reflexivity.
      - intros b [o g] _ _. split; [split; [|split]; apply repeat_length|]. split; [|exact I].
        unfold mg_key_ok. cbn [mapgen_ds t_restore fst mg_key mg_off]. rewrite !nth_repeat_none. reflexivity.
    Qed.
  End Restore.

  Lemma mapgen_restores rst ne : local_yields T rst nw ne true
    (fun rs w y => t_restore_sample T rs w (rk y) = Ok y) (ne = false).
  Proof. intros w rs Hw. eexists _, _. apply mg_local_ok. exact Hw. Qed.

  (** *** resuming, for generators with at most one sample (what the docstring asks for) *)
  Section Single.
    Hypothesis Hone : forall w i a, length (fst (f w i a)) <= 1 /\ snd (f w i a) = GEnd.
    Variables (rs : rkey -> result (sample A)) (w : nat).
    Hypothesis Hw : w < nw.

    Definition m1_key_ok (o : mg_obj) : Prop :=
      match nth w (mg_key o) None with
      | None => nth w (mg_off o) None = None
      | Some k => (exists a, rs k = Ok a) /\ exists t, nth w (mg_off o) None = Some (S t)
      end.

    Definition m1_Inv (b : bool) (x : lst T) : Prop :=
      mg_len (fst x) /\
      match snd x with
      | MgStart => m1_key_ok (fst x)
      | MgLoop => nth w (mg_key (fst x)) None = None /\ nth w (mg_off (fst x)) None = None
      | MgGen a _ j => rs (rk a) = Ok a /\ nth w (mg_key (fst x)) None = Some (rk a) /\ nth w (mg_off (fst x)) None = Some j
      | MgResume a _ _ t => 1 <= t
      end.
    Definition m1_Sav (b : bool) (x : lst T) : Prop :=
      m1_Inv b x /\ match snd x with MgStart => True | MgGen _ _ (S _) => True | _ => False end.

    Lemma m1_local_ok rst ne :
      local_ok (T := T) rs w nw rst (Qof ne true rs) (fun _ => True) True m1_Inv m1_Sav.
    Proof.
      constructor.
      - split; [|exact I]. split; [split; [|split]; apply repeat_length|]. unfold m1_key_ok. cbn [mapgen_ds t_init t_iter fst snd mg_key mg_off].
        rewrite !nth_repeat_none. reflexivity.
      - intros b l [H _]. exact H.
      - intros b [o g] o' g' e (HL & HP) Ha. unfold act in Ha. cbn [fst snd] in *.
        destruct g as [|a i j t| |a i j]; cbn [mapgen_ds t_act] in Ha; try discriminate.
        + unfold m1_key_ok in HP. destruct (nth w (mg_key o) None) as [k|] eqn:Ek.
          * destruct HP as [(a & Ra) (t & Et)]. rewrite Et, Ra in Ha. injection Ha as <- <- <-. cbn [post].
            split; [apply mg_len_off; exact HL|]. cbn [snd]. lia.
          * injection Ha as <- <- <-. split; [exact HL|]. cbn [fst snd]. auto.
        + destruct (Hone w i (pl a)) as [H1 H2]. destruct (f w i (pl a)) as [ys ge] eqn:Ef. cbn [fst snd] in H1, H2. subst ge.
          destruct (nth_error ys j) as [y|] eqn:Ey.
          * assert (j < length ys) by (apply nth_error_Some; congruence).
            replace (t <=? j) with false in Ha by (symmetry; apply Nat.leb_gt; lia). injection Ha as <- <- <-. cbn [post].
            split; [exact HL|]. exact HP.
          * injection Ha as <- <- <-. cbn [post]. split; [apply mg_len_clear; exact HL|]. cbn [fst snd mg_clear mg_key mg_off].
            destruct HL as (L1 & L2 & L3). rewrite !nth_upd_same by lia. auto.
        + destruct (Hone w i (pl a)) as [H1 H2]. destruct (f w i (pl a)) as [ys ge] eqn:Ef. cbn [fst snd] in H1, H2. subst ge.
          destruct (nth_error ys j) as [y|] eqn:Ey.
          * injection Ha as <- <- <-. cbn [post]. split; [exact I|]. split; [|exact I]. split; [apply mg_len_off; exact HL|].
            cbn [fst snd mg_set_off mg_key mg_off]. destruct HL as (L1 & L2 & L3). rewrite nth_upd_same by lia. tauto.
          * injection Ha as <- <- <-. cbn [post]. split; [apply mg_len_clear; exact HL|]. cbn [fst snd mg_clear mg_key mg_off].
            destruct HL as (L1 & L2 & L3). rewrite !nth_upd_same by lia. auto.
      - intros b [o g] k r (HL & HP) Ha HQ. unfold act in Ha. cbn [fst snd] in *.
        destruct g as [|a i j t| |a i j]; cbn [mapgen_ds t_act] in Ha.
        { destruct (nth w (mg_key o) None); [|discriminate]. destruct (nth w (mg_off o) None); [|discriminate].
          destruct (rs r0); discriminate. }
        { destruct (f w i (pl a)) as [ys e]. destruct (nth_error ys j); [destruct (t <=? j); discriminate|]. destruct e; discriminate. }
        2:{ destruct (f w i (pl a)) as [ys e]. destruct (nth_error ys j); [discriminate|]. destruct e; discriminate. }
        injection Ha as <-. destruct r as [a|]; cbn [post is_none].
        + destruct HL as (H1 & H2 & H3). specialize (HQ eq_refl).
          split; [unfold mg_len; cbn; rewrite !upd_length; auto|]. cbn [fst snd mg_key mg_off].
          rewrite !nth_upd_same by lia. auto.
        + split; [exact I|]. split; [auto|]. split; [|exact I]. split; [exact HL|]. cbn [fst snd mapgen_ds t_iter]. unfold m1_key_ok.
          destruct HP as [-> ->]. reflexivity.
      - intros b [o g] o' g' _ Ha. exfalso. eapply mg_no_reset; exact Ha.
      - intros b [o g] sts [(HL & HP) HS] Hl Hs. cbn [fst snd] in *. split; [|exact I].
        split; [unfold mg_len; cbn; rewrite merge_nat_length, !map_length; auto|].
        unfold m1_key_ok. cbn [mapgen_ds t_restore t_merge t_iter fst snd mg_key mg_off].
        erewrite !nth_error_nth by (apply nth_error_map_some; exact Hs). cbn [mapgen_ds t_save].
        destruct g as [|a i j t| |a i j]; try contradiction.
        + unfold m1_key_ok in HP. destruct (nth w (mg_key o) None) as [k|] eqn:Ek.
          * destruct HP as [HA (t & Et)]. rewrite Et. eauto.
          * rewrite HP. reflexivity.
        + destruct HP as (H1 & H2 & H3). destruct j as [|j]; [contradiction|]. rewrite H2, H3. eauto.
      - intros b [o g] _ _. split; [|exact I]. split; [split; [|split]; apply repeat_length|].
        unfold m1_key_ok. cbn [mapgen_ds t_restore fst snd t_iter mg_key mg_off]. rewrite !nth_repeat_none. reflexivity.
    Qed.

    Lemma m1_resume_loop a i j t o : 1 <= t -> exists o', ltaus (T := T) rs w (o, MgResume a i j t) (o', MgLoop) /\
      (mg_len o -> mg_len o') /\ mg_idx o' = mg_idx o.
    Proof.
      intros Ht. destruct (Hone w i (pl a)) as [H1 H2]. destruct (f w i (pl a)) as [ys ge] eqn:Ef. cbn [fst snd] in *. subst ge.
      assert (E1 : forall j, 1 <= j -> ltaus (T := T) rs w (o, MgResume a i j t) (mg_clear w o, MgLoop)).
      { intros j0 Hj. eapply lt_step; [|constructor]. unfold act. cbn [mapgen_ds t_act fst snd]. rewrite Ef.
        replace (nth_error ys j0) with (@None B); [reflexivity|]. symmetry. apply nth_error_None. lia. }
      exists (mg_clear w o). split; [|split; [apply mg_len_clear|reflexivity]].
      destruct j as [|j]; [|apply E1; lia].
      destruct ys as [|y ys].
      - eapply lt_step; [|constructor]. unfold act. cbn [mapgen_ds t_act fst snd]. rewrite Ef. reflexivity.
      - eapply lt_step; [|apply (E1 1); lia]. unfold act. cbn [mapgen_ds t_act fst snd]. rewrite Ef. cbn [nth_error].
        replace (t <=? 0) with false by (symmetry; apply Nat.leb_gt; lia). reflexivity.
    Qed.

    Lemma m1_settle b (x : lst T) : m1_Sav b x -> exists o', ltaus rs w x (o', MgLoop) /\ mg_len o' /\ mg_idx o' = mg_idx (fst x).
    Proof.
      destruct x as [o g]. intros [(HL & HP) HS]. cbn [fst snd] in *. destruct g as [|a i j t| |a i j]; try contradiction.
      - unfold m1_key_ok in HP. destruct (nth w (mg_key o) None) as [k|] eqn:Ek.
        + destruct HP as [(a & Ra) (t & Et)].
          destruct (@m1_resume_loop a (nth w (mg_idx o) 0) 0 (S t) (mg_set_off w 0 o) ltac:(lia)) as (o' & L & L2 & E).
          exists o'. split; [|split; [apply L2; apply mg_len_off; exact HL|exact E]].
          eapply lt_step; [|exact L]. unfold act. cbn [mapgen_ds t_act fst snd]. rewrite Ek, Et, Ra. reflexivity.
        + exists o. split; [|auto]. eapply lt_step; [|constructor]. unfold act. cbn [mapgen_ds t_act fst snd]. rewrite Ek. reflexivity.
      - destruct j as [|j]; [contradiction|]. exists (mg_clear w o). split; [|split; [apply mg_len_clear; exact HL|reflexivity]].
        eapply lt_step; [|constructor]. unfold act. cbn [mapgen_ds t_act fst snd].
        destruct (Hone w i (pl a)) as [H1 H2]. destruct (f w i (pl a)) as [ys ge] eqn:Ef. cbn [fst snd] in H1, H2. subst ge.
        replace (nth_error ys (S j)) with (@None B); [reflexivity|]. symmetry. apply nth_error_None. lia.
    Qed.

    Definition m1_L (b : bool) (x y : lst T) : Prop :=
      (exists o1 o2, ltaus rs w x (o1, MgLoop) /\ ltaus rs w y (o2, MgLoop) /\ mg_len o1 /\ mg_len o2 /\
         nth w (mg_idx o1) 0 = nth w (mg_idx o2) 0 /\ nth w (mg_key o1) None = None /\ nth w (mg_key o2) None = None) \/
      (exists a i o1 o2, x = (o1, MgGen a i 0) /\ y = (o2, MgGen a i 0) /\ mg_len o1 /\ mg_len o2 /\
         nth w (mg_idx o1) 0 = nth w (mg_idx o2) 0).

    Lemma m1_loop_clear b (x : lst T) o : m1_Inv b x -> ltaus rs w x (o, MgLoop) -> nth w (mg_key o) None = None.
    Proof.
      intros HI HT. remember (o, MgLoop) as y eqn:Ey. revert o Ey HI. induction HT as [l|l o1 g1 l' Ha HT IH]; intros o -> HI.
      - apply HI.
      - apply IH; auto. pose proof (lo_local (@m1_local_ok false false) HI Ha) as P. exact P.
    Qed.

    Lemma m1_sim ne : local_sim (T := T) rs w (Qof ne true rs) m1_L.
    Proof.
      intros b x y [(o1 & o2 & T1 & T2 & L1 & L2 & E & K1 & K2)|(a & i & o1 & o2 & -> & -> & L1 & L2 & E)].
      - exists (o1, MgLoop), (o2, MgLoop). split; [exact T1|]. split; [exact T2|].
        unfold act. cbn [mapgen_ds t_act fst snd amatch]. intros [a|] HQ; cbn [ematch is_none].
        + right. exists a, (nth w (mg_idx o1) 0). rewrite <- E. eexists _, _. split; [reflexivity|]. split; [reflexivity|].
          destruct L1 as (A1 & A2 & A3), L2 as (B1 & B2 & B3).
          unfold mg_len. cbn. rewrite !upd_length, !nth_upd_same by lia. auto 10.
        + split; [auto|]. left. exists o1, o2. cbn [mapgen_ds t_iter].
          split; [eapply lt_step; [unfold act; cbn [mapgen_ds t_act fst snd]; rewrite K1; reflexivity|constructor]|].
          split; [eapply lt_step; [unfold act; cbn [mapgen_ds t_act fst snd]; rewrite K2; reflexivity|constructor]|]. auto 10.
      - exists (o1, MgGen a i 0), (o2, MgGen a i 0). split; [constructor|]. split; [constructor|].
        destruct (Hone w i (pl a)) as [H1 H2]. destruct (f w i (pl a)) as [ys ge] eqn:Ef. cbn [fst snd] in H1, H2. subst ge.
        unfold act. cbn [mapgen_ds t_act fst snd]. rewrite Ef.
        assert (CL : forall o, mg_len o -> nth w (mg_key (mg_clear w o)) None = None).
        { intros o (A1 & A2 & A3). cbn. apply nth_upd_same. lia. }
        destruct ys as [|y ys]; cbn [nth_error amatch ematch].
        + left. exists (mg_clear w o1), (mg_clear w o2). split; [constructor|]. split; [constructor|].
          split; [apply mg_len_clear; exact L1|]. split; [apply mg_len_clear; exact L2|]. split; [exact E|]. auto.
        + split; [reflexivity|]. left. destruct ys; [|cbn in H1; lia].
          assert (GO : forall o, ltaus (T := T) rs w (o, MgGen a i 1) (mg_clear w o, MgLoop)).
          { intros o. eapply lt_step; [|constructor]. unfold act. cbn [mapgen_ds t_act fst snd]. rewrite Ef. reflexivity. }
          eexists _, _. split; [apply GO|]. split; [apply GO|].
          split; [apply mg_len_clear, mg_len_off; exact L1|]. split; [apply mg_len_clear, mg_len_off; exact L2|]. split; [exact E|].
          split; apply CL; apply mg_len_off; assumption.
    Qed.
  End Single.

  Lemma mapgen_local_resumable rst ne : (forall w i a, length (fst (f w i a)) <= 1 /\ snd (f w i a) = GEnd) ->
    local_resumable T rst nw ne true.
  Proof.
    intros H1 w rs Hw. exists (m1_Inv rs w), (m1_Sav rs w), (m1_L rs w).
    split; [apply m1_local_ok; auto|]. split; [apply m1_sim; auto|].
    intros b x sts HS _ Hl Hs. left.
    pose proof (lo_restore (@m1_local_ok H1 rs w Hw rst ne) HS Hl Hs) as HS'.
    destruct (m1_settle H1 Hw HS) as (o1 & T1 & L1 & E1). destruct (m1_settle H1 Hw HS') as (o2 & T2 & L2 & E2).
    exists o1, o2. split; [exact T1|]. split; [exact T2|]. split; [exact L1|]. split; [exact L2|].
    split; [|split; eapply m1_loop_clear; eauto; apply HS + apply HS'].
    rewrite E1, E2. destruct x as [o g]. cbn [mapgen_ds t_restore t_merge fst mg_idx].
    symmetry. exact (merge_nat_nth (nth_error_map_some (option_map fst) Hs)).
  Qed.
End MapGen.

Section MapGenTrace.
  Context {A B : Type} (nw : nat) (f : nat -> nat -> A -> list B * gend).
  Notation T := (mapgen_ds nw f).
  Hypothesis Hend : forall w i a, snd (f w i a) = GEnd.
  Variables (D : dataset A) (w : nat).
  Hypothesis Hw : w < nw.

  (** the outputs for input sample number [i]: output [j] gets the key (MapDataset, i, j, ...) *)
  Definition mg_outs (i : nat) (a : sample A) : list (sample B) :=
    map (fun p => mkS (snd p) (mapgen_key i (fst p) (rk a)))
        (combine (seq 0 (length (fst (f w i (pl a))))) (fst (f w i (pl a)))).

  Lemma mg_outs_nth i a j : nth_error (mg_outs i a) j =
    option_map (fun y => mkS y (mapgen_key i j (rk a))) (nth_error (fst (f w i (pl a))) j).
  Proof.
    unfold mg_outs. rewrite nth_error_map. generalize (fst (f w i (pl a))). intros ys.
    assert (G : forall ys k j, nth_error (combine (seq k (length ys)) ys) j = option_map (fun y : B => (k + j, y)) (nth_error ys j)).
    { clear. induction ys as [|y ys IH]; intros k [|j]; cbn; auto; [rewrite Nat.add_0_r; reflexivity|].
      rewrite IH. destruct (nth_error ys j); cbn; [|reflexivity]. do 2 f_equal. lia. }
    rewrite G. destruct (nth_error ys j); reflexivity.
  Qed.

  Fixpoint mg_events (i : nat) (l : list (event (sample A))) : list (event (sample B)) :=
    match l with
    | [] => []
    | Yield a :: l' => map Yield (mg_outs i a) ++ mg_events (S i) l'
    | Done :: l' => Done :: mg_events i l'
    | _ :: l' => mg_events i l'
    end.

  Lemma mg_events_snoc l e : forall i, mg_events i (l ++ [e]) =
    mg_events i l ++ match e with
                     | Yield a => map Yield (mg_outs (i + n_yields l) a)
                     | Done => [Done]
                     | _ => []
                     end.
  Proof.
    induction l as [|x l IH]; intros i; cbn [app mg_events n_yields].
    - destruct e as [a| | |]; rewrite ?Nat.add_0_r, ?app_nil_r; reflexivity.
    - destruct x as [a| | |]; rewrite IH; auto.
      rewrite <- app_assoc. do 2 f_equal. replace (i + S (n_yields l)) with (S i + n_yields l) by lia. reflexivity.
  Qed.

  Definition mg_J (ins : list (option (sample A))) (outs : list (event (sample B))) (b : bool) (x : lst T) : Prop :=
    mg_len nw (fst x) /\ nth w (mg_idx (fst x)) 0 = n_yields (map inp ins) /\
    match snd x with
    | MgStart | MgLoop => nth w (mg_key (fst x)) None = None /\ outs = mg_events 0 (map inp ins)
    | MgGen a i j => exists ins', ins = ins' ++ [Some a] /\ i = n_yields (map inp ins') /\
        j <= length (fst (f w i (pl a))) /\
        outs = mg_events 0 (map inp ins') ++ map Yield (firstn j (mg_outs i a))
    | MgResume _ _ _ _ => False
    end.

  Lemma firstn_snoc {X} (l : list X) j x : nth_error l j = Some x -> firstn (S j) l = firstn j l ++ [x].
  Proof. revert j; induction l as [|y l IH]; intros [|j] H; cbn in *; try discriminate; [congruence|]. rewrite (IH _ H). reflexivity. Qed.

  Lemma mg_outs_length i a : length (mg_outs i a) = length (fst (f w i (pl a))).
  Proof. unfold mg_outs. rewrite map_length, combine_length, seq_length. lia. Qed.

  Lemma mg_trace_ok : trace_ok D w mg_J.
  Proof.
    intros ins outs b [o g] (HL & HI & HP). cbn [fst snd] in *. unfold act. destruct g as [|a i j t| |a i j]; cbn [mapgen_ds t_act fst snd].
    - destruct HP as [HK ->]. rewrite HK. intros _. split; [exact I|]. cbn [obs after]. rewrite app_nil_r.
      split; [exact HL|]. split; [exact HI|]. cbn [fst snd]. auto.
    - contradiction.
    - destruct HP as [HK ->]. intros [a|] _; (split; [cbn; auto|]); cbn [ev_of obs after is_none mapgen_ds t_iter].
      + destruct HL as (A1 & A2 & A3). split; [unfold mg_len; cbn; rewrite !upd_length; auto|]. cbn [fst snd mg_idx].
        rewrite nth_upd_same by lia. rewrite map_inp_snoc, n_yields_snoc, HI. split; [cbn; lia|].
        exists ins. split; [reflexivity|]. split; [reflexivity|]. split; [lia|]. reflexivity.
      + split; [exact HL|]. rewrite map_inp_snoc, n_yields_snoc. split; [cbn; lia|]. split; [exact HK|]. rewrite mg_events_snoc. reflexivity.
    - destruct HP as (ins' & -> & -> & Hj & ->). set (i := n_yields (map inp ins')) in *.
      pose proof (Hend w i (pl a)) as HE. pose proof (mg_outs_nth i a j) as MN. pose proof (mg_outs_length i a) as ML.
      destruct (f w i (pl a)) as [ys e] eqn:Ef. cbn [fst snd] in *. subst e.
      destruct (nth_error ys j) as [y|] eqn:Ey.
      + intros _. split; [exact I|]. cbn [obs after]. split; [apply mg_len_off; exact HL|]. split; [exact HI|]. cbn [fst snd].
        exists ins'. split; [reflexivity|]. split; [reflexivity|]. rewrite Ef. cbn [fst].
        split; [enough (j < length ys) by lia; apply nth_error_Some; congruence|].
        rewrite (@firstn_snoc _ _ _ _ MN), map_app, app_assoc. reflexivity.
      + intros _. split; [exact I|]. cbn [obs after]. split; [apply mg_len_clear; exact HL|]. split; [exact HI|]. cbn [fst snd].
        split; [cbn; apply nth_upd_same; destruct HL as (A1 & A2 & A3); lia|].
        rewrite app_nil_r, map_inp_snoc, mg_events_snoc. cbn [inp Nat.add]. apply nth_error_None in Ey.
        rewrite firstn_all2 by lia. reflexivity.
  Qed.

  Lemma mg_J_init : mg_J [] [] true (t_init T, t_iter T).
  Proof.
    split; [split; [|split]; apply repeat_length|]. cbn [fst snd mapgen_ds t_init t_iter mg_idx mg_key].
    rewrite nth_repeat0, nth_repeat_none. auto.
  Qed.

  Theorem mapgen_forward ins : clean ins -> emits w (fresh D) ins ->
    emits (D := wrap T D) w (fresh (wrap T D)) (mg_events 0 ins).
  Proof.
    intros HC E. destruct (clean_inp HC) as (ins' & ->).
    assert (P : trace_progress D w mg_J (fun x => match snd x with MgStart => 1 | MgGen a i j => S (length (fst (f w i (pl a))) - j) | _ => 0 end)).
    { intros i o b [oo g] (HL & HI & HP). unfold act. cbn [fst snd] in *. destruct g as [|a k j t| |a k j]; cbn [mapgen_ds t_act fst snd].
      - destruct HP as [HK _]. rewrite HK. split; [reflexivity|]. cbn. lia.
      - contradiction.
      - intros [a|]; reflexivity.
      - pose proof (Hend w k (pl a)) as HE. destruct HP as (? & _ & _ & Hj & _).
        destruct (f w k (pl a)) as [ys e] eqn:Ef. cbn [fst snd] in *. subst e.
        destruct (nth_error ys j) as [y|] eqn:Ey; (split; [reflexivity|]); cbn [after snd]; rewrite ?Ef; cbn [fst]; [|lia].
        assert (j < length ys) by (apply nth_error_Some; congruence). lia. }
    destruct (@wrap_forward _ _ T D w mg_J mg_trace_ok _ P (fresh (wrap T D)) true ins' mg_J_init
                (@fresh_it_ok _ _ T D true) E) as (outs & b & [o g] & E1 & (_ & _ & HP) & Pu).
    unfold pulls, act in Pu. cbn [fst snd] in *. destruct g as [|a k j t| |a k j].
    - destruct HP as [_ ->]. exact E1.
    - contradiction.
    - destruct HP as [_ ->]. exact E1.
    - exfalso. cbn [mapgen_ds t_act] in Pu. destruct (f w k (pl a)) as [ys e]. destruct (nth_error ys j); [exact Pu|]. destruct e; exact Pu.
  Qed.

  (** and nothing else comes out *)
  Theorem mapgen_backward outs : clean outs -> emits (D := wrap T D) w (fresh (wrap T D)) outs ->
    exists ins more, clean ins /\ emits w (fresh D) ins /\ outs ++ more = mg_events 0 ins.
  Proof.
    intros HC E.
    destruct (@wrap_trace _ _ T D w mg_J mg_trace_ok outs (fresh (wrap T D)) true HC mg_J_init
                (@fresh_it_ok _ _ T D true) E) as (ins & b & [o g] & E1 & (_ & _ & HP)).
    exists (map inp ins). cbn [fst snd] in HP. destruct g as [|a i j t| |a i j].
    - destruct HP as [_ ->]. exists []. rewrite app_nil_r. split; [apply Forall_forall; intros e He; apply in_map_iff in He as ([a0|] & <- & _); exact I|]. split; [exact E1|reflexivity].
    - contradiction.
    - destruct HP as [_ ->]. exists []. rewrite app_nil_r. split; [apply Forall_forall; intros e He; apply in_map_iff in He as ([a0|] & <- & _); exact I|]. split; [exact E1|reflexivity].
    - destruct HP as (ins' & -> & -> & _ & ->). exists (map Yield (skipn j (mg_outs (n_yields (map inp ins')) a))).
      split; [apply Forall_forall; intros e He; apply in_map_iff in He as ([a0|] & <- & _); exact I|]. split; [exact E1|]. rewrite map_inp_snoc, mg_events_snoc. cbn [inp Nat.add].
      rewrite <- app_assoc, <- map_app, firstn_skipn. reflexivity.
  Qed.
End MapGenTrace.
