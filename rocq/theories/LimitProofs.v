From Verif Require Import Base Dataset DatasetProofs Wrap WrapProofs WrapRun WrapTrace WrapSpec WrapLib
  Wrappers IdxProofs RepeatProofs EpochizeProofs.

Section Limit.
  Context {A : Type} (nw len : nat).
  Notation T := (limit_ds (A := A) nw len).
  Notation Lw := (local_share nw len).

  Inductive lm_n := Nx (i : nat) | Rs | En.
  Definition lm_norm (w : nat) (x : lst T) : lm_n :=
    match snd x with
    | LmStart => if nth w (fst x) 0 <? Lw w then Nx (nth w (fst x) 0) else Rs
    | LmNext i => Nx i
    | LmReset => Rs
    | LmEnd => En
    end.

  Definition lm_Inv (w : nat) (b : bool) (x : lst T) : Prop :=
    length (fst x) = nw /\
    match snd x with
    | LmStart => nth w (fst x) 0 <= Lw w
    | LmNext i => i <= Lw w /\ nth w (fst x) 0 = i
    | LmReset => True
    | LmEnd => b = true /\ nth w (fst x) 0 = 0
    end.
  Definition lm_Sav (w : nat) (b : bool) (x : lst T) : Prop :=
    lm_Inv w b x /\ match snd x with LmStart | LmNext _ => True | _ => False end.

  Lemma lm_start w b o : length o = nw -> nth w o 0 <= Lw w -> lm_Sav w b (o, LmStart).
  Proof. intros H H0. split; [|exact I]. split; [exact H|]. exact H0. Qed.

  Lemma lm_local_ok rst ne nr w rs : w < nw ->
    local_ok (T := T) rs w nw rst (Qof ne nr rs) (fun y => nr = true -> rs (rk y) = Ok y) True (lm_Inv w) (lm_Sav w).
  Proof.
    intros Hw. constructor.
    - apply lm_start; [apply repeat_length|]. cbn [limit_ds t_init]. rewrite nth_repeat0. lia.
    - intros b l [H _]. exact H.
    - intros b [o g] o' g' e [HL HP] Ha. unfold act in Ha. cbn [fst snd] in *.
      destruct g as [|i| |]; cbn [limit_ds t_act fst snd] in Ha; try discriminate.
      + injection Ha as <- <- <-. cbn [post].
        destruct (nth w o 0 <? Lw w); (split; [exact HL|]); cbn [fst snd]; auto.
      + injection Ha as <- <- <-. cbn [post]. destruct HP as [Hb H]. split; [exact I|]. split; [auto|].
        apply lm_start; [exact HL|]. lia.
    - intros b [o g] k r [HL HP] Ha HQ. unfold act in Ha. cbn [fst snd] in *.
      destruct g as [|i| |]; cbn [limit_ds t_act fst snd] in Ha; try discriminate.
      injection Ha as <-. destruct HP as [H1 H2]. destruct r as [a|]; cbn [post is_none].
      + destruct (i <? Lw w) eqn:E.
        * apply Nat.ltb_lt in E. split; [exact HQ|]. split; [|exact I]. split; [cbn; rewrite upd_length; exact HL|].
          cbn [fst snd]. rewrite nth_upd_same by lia. auto.
        * split; [exact HL|exact I].
      + split; [exact HL|exact I].
    - intros b [o g] o' g' _ Ha. unfold act in Ha. destruct g as [|i| |]; cbn [limit_ds t_act fst snd] in Ha; try discriminate.
      injection Ha as <- <-. split; [apply repeat_length|]. cbn [fst snd]. rewrite nth_repeat0. auto.
    - intros b [o g] sts [[HL HP] HS] Hl Hs. cbn in Hs. pose proof (merge_nat_nth Hs) as HM.
      apply lm_start; [cbn; rewrite merge_nat_length; exact Hl|].
      cbn [limit_ds t_restore t_merge t_init restore_nat fst snd] in *. rewrite HM. destruct g as [|i| |]; try contradiction; lia.
    - intros b l _ _. apply lm_start; [apply repeat_length|]. cbn [limit_ds t_init t_restore restore_nat]. rewrite nth_repeat0. lia.
  Qed.

  Definition lm_below (w : nat) (x : lst T) : Prop := snd x <> LmNext (Lw w).

  Definition lm_L (w : nat) (b : bool) (x y : lst T) : Prop := lm_Inv w b x /\ lm_Inv w b y /\ lm_norm w x = lm_norm w y.

  Lemma lm_settle rs w b (x : lst T) : lm_Inv w b x ->
    exists o, ltaus rs w x (o, match lm_norm w x with Nx i => LmNext i | Rs => LmReset | En => LmEnd end) /\
      length o = nw /\ lm_Inv w b (o, match lm_norm w x with Nx i => LmNext i | Rs => LmReset | En => LmEnd end).
  Proof.
    destruct x as [o g]. intros H. destruct g as [|i| |]; unfold lm_norm; cbn [snd fst].
    - exists o. destruct H as [HL H]. cbn [fst snd] in *. split; [|split; [exact HL|]].
      + destruct (nth w o 0 <? Lw w) eqn:E; (eapply lt_step; [unfold act; cbn [limit_ds t_act fst snd]; rewrite E; reflexivity|constructor]).
      + destruct (nth w o 0 <? Lw w) eqn:E; (split; [exact HL|]); cbn [fst snd]; auto.
    - exists o. split; [constructor|]. split; [apply H|exact H].
    - exists o. split; [constructor|]. split; [apply H|exact H].
    - exists o. split; [constructor|]. split; [apply H|exact H].
  Qed.

  Lemma lm_sim ne nr w rs : w < nw -> local_sim (T := T) rs w (Qof ne nr rs) (lm_L w).
  Proof.
    intros Hw b x y (Hx & Hy & HN).
    destruct (@lm_settle rs w b x Hx) as (o1 & T1 & L1 & I1). destruct (@lm_settle rs w b y Hy) as (o2 & T2 & L2 & I2).
    rewrite <- HN in T2, I2. destruct (lm_norm w x) as [i| |].
    - exists (o1, LmNext i), (o2, LmNext i). split; [exact T1|]. split; [exact T2|].
      destruct I1 as [_ I1], I2 as [_ I2]. cbn [fst snd] in *.
      unfold act. cbn [limit_ds t_act fst snd amatch]. intros [a|] _; cbn [is_none].
      + destruct (i <? Lw w) eqn:E; cbn [ematch].
        * apply Nat.ltb_lt in E. split; [reflexivity|]. unfold lm_L, lm_Inv, lm_norm. cbn [fst snd].
          rewrite !upd_length, !nth_upd_same by lia. auto 10.
        * unfold lm_L, lm_Inv, lm_norm. cbn [fst snd]. auto 10.
      + cbn [ematch]. unfold lm_L, lm_Inv, lm_norm. cbn [fst snd]. auto 10.
    - exists (o1, LmReset), (o2, LmReset). split; [exact T1|]. split; [exact T2|].
      unfold act. cbn [limit_ds t_act fst snd amatch]. unfold lm_L, lm_Inv, lm_norm. cbn [fst snd].
      rewrite repeat_length, nth_repeat0. auto 10.
    - exists (o1, LmEnd), (o2, LmEnd). split; [exact T1|]. split; [exact T2|].
      destruct I1 as [_ I1], I2 as [_ I2]. cbn [fst snd] in *. destruct I1 as [Hb I1], I2 as [_ I2].
      unfold act. cbn [limit_ds t_act fst snd amatch ematch]. split; [auto|]. unfold lm_L, lm_Inv, lm_norm. cbn [fst snd t_iter limit_ds].
      rewrite I1, I2. repeat split; auto; lia.
  Qed.

  Lemma lm_local_resumable rst ne nr : @local_resumable_at A A T rst nw ne nr lm_below.
  Proof.
    intros w rs Hw. exists (lm_Inv w), (lm_Sav w), (lm_L w). split; [|split].
    - eapply local_ok_weaken; [| |apply lm_local_ok; exact Hw]; auto.
    - apply lm_sim. exact Hw.
    - intros b [o g] sts HS HB Hl Hs.
      destruct (lo_restore (@lm_local_ok rst ne nr w rs Hw) HS Hl Hs) as [HI' _].
      destruct HS as [[HL HP] HS]. unfold lm_below in HB. cbn [fst snd] in *. cbn in Hs. pose proof (merge_nat_nth Hs) as HM.
      split; [split; [exact HL|exact HP]|]. split; [exact HI'|].
      unfold lm_norm. cbn [fst snd limit_ds t_restore t_iter t_merge restore_nat]. rewrite HM.
      destruct g as [|i| |]; try contradiction; [reflexivity|].
      destruct HP as [H1 H2]. replace (nth w o 0 <? Lw w) with true; [rewrite H2; reflexivity|].
      symmetry. apply Nat.ltb_lt. destruct (Nat.eq_dec i (Lw w)); [subst i; congruence|lia].
  Qed.

  Section Whole.
    Variables (D : dataset A).
    Notation W := (wrap T D).

    Lemma lm_step_start w o io it : nth w o 0 = Lw w ->
      ds_step W w (mkW (T := T) (D := D) o io it) LmStart = (mkW (T := T) (D := D) o io it, LmReset, Tau).
    Proof.
      intros E. cbn [wrap ds_step]. unfold wrap_step. cbn [limit_ds t_act w_loc]. rewrite E, Nat.ltb_irrefl. reflexivity.
    Qed.

    (** two states at the end of an epoch, whatever the inner dataset was doing *)
    Lemma limit_reset_same w o1 o2 io1 io2 it1 it2 : w < nw -> resettable D true nw ->
      reach w true nw (io1, cur_it (D := D) it1) -> reach w true nw (io2, cur_it (D := D) it2) ->
      same_stream (D := W) w (mkW (T := T) (D := D) o1 io1 it1, LmReset) (mkW (T := T) (D := D) o2 io2 it2, LmReset).
    Proof.
      intros Hw HR R1 R2.
      set (f := fun io => (mkW (T := T) (D := D) (repeat 0 nw) (ds_restore D None io) None, LmEnd) : st W).
      apply (@same_stream_trans _ W w _ (f io1)); [apply (same_stream_tau (D := W)); reflexivity|].
      apply (@same_stream_trans _ W w _ (f io2)); [|apply (same_stream_sym (D := W)); apply (same_stream_tau (D := W)); reflexivity].
      apply (@R_same_stream _ _ T D w nw true false (Qof false false (ds_restore_sample D w))) with (L := lm_L w).
      - intros; exact I + (intro; discriminate).
      - intros; reflexivity.
      - right; reflexivity.
      - discriminate.
      - apply lm_sim. exact Hw.
      - right. intros s Rs. apply HR; auto.
      - exists true. unfold f. unfold loc, eff. cbn [fst snd w_loc w_in w_it cur_it]. split; [|split; [|split; [|split; [|auto]]]].
        + unfold lm_L, lm_Inv, lm_norm. cbn [fst snd]. rewrite repeat_length, nth_repeat0. auto 10.
        + eapply same_stream_trans; [exact (HR w (io1, cur_it (D := D) it1) Hw R1)|].
          apply same_stream_sym. exact (HR w (io2, cur_it (D := D) it2) Hw R2).
        + exact (r_reset (s := (io1, cur_it (D := D) it1)) eq_refl R1).
        + exact (r_reset (s := (io2, cur_it (D := D) it2)) eq_refl R2).
    Qed.

    (** *** what comes out *)
    Lemma lm_yields w rs (ys : list (sample A)) : w < nw -> forall b i o, length o = nw -> i + length ys <= Lw w ->
      exists b' o', length o' = nw /\
        lrun (T := T) rs w b (o, LmNext i) (map Some ys) (map Yield ys) b' (o', LmNext (i + length ys)).
    Proof.
      intros Hw. induction ys as [|a ys IH]; intros b i o Ho Hi; cbn [map length] in *.
      - exists b, o. split; [exact Ho|]. rewrite Nat.add_0_r. constructor.
      - destruct (IH false (S i) (upd o w (S i))) as (b' & o' & Ho' & L); [rewrite upd_length; exact Ho|lia|].
        exists b', o'. split; [exact Ho'|].
        assert (E : i <? Lw w = true) by (apply Nat.ltb_lt; lia).
        replace (i + S (length ys)) with (S i + length ys) by lia.
        set (k := fun r : option (sample A) => match r with
                    | Some a => if i <? Lw w then (upd o w (S i), LmNext (S i), Yield a) else (o, LmReset, Tau)
                    | None => (o, LmReset, Tau)
                    end).
        assert (Ek : k (Some a) = (upd o w (S i), LmNext (S i), Yield a)) by (unfold k; rewrite E; reflexivity).
        pose proof (@lr_pull _ _ T rs w b (o, LmNext i) k (Some a) (map Some ys) (map Yield ys) b' (o', LmNext (S i + length ys)) eq_refl) as X.
        rewrite Ek in X. apply X; [reflexivity|exact I|exact L].
    Qed.

    Lemma lm_to_reset w rs (xs : list (sample A)) e : w < nw ->
      (e = [None] /\ length xs <= Lw w) \/ (e = [] /\ length xs = S (Lw w)) -> 0 < Lw w ->
      exists b o, lrun (T := T) rs w true (t_init T, t_iter T) (map Some xs ++ e) (map Yield (firstn (Lw w) xs)) b (o, LmReset).
    Proof.
      intros Hw He HL0.
      assert (exists r, map Some xs ++ e = map Some (firstn (Lw w) xs) ++ [r] /\ (r = None \/ length (firstn (Lw w) xs) = Lw w)) as (r & -> & Hr).
      { destruct He as [[-> Hx]|[-> Hx]].
        - exists None. rewrite firstn_all2 by exact Hx. auto.
        - pose proof (firstn_skipn (Lw w) xs) as X. assert (HK := skipn_length (Lw w) xs).
          destruct (skipn (Lw w) xs) as [|a [|a2 q]]; cbn in HK; try lia.
          exists (Some a). rewrite app_nil_r. split; [|right; rewrite firstn_length; lia].
          rewrite <- X at 1. apply map_app. }
      set (ys := firstn (Lw w) xs) in *.
      assert (Hy : length ys <= Lw w) by apply firstn_le_length.
      destruct (@lm_yields w rs ys Hw true 0 (repeat 0 nw) (repeat_length _ _) Hy) as (b1 & o1 & Ho1 & L1).
      exists (is_none r), o1.
      change (map Yield ys) with (obs (@Tau (sample A)) ++ map Yield ys).
      eapply lr_local with (o := repeat 0 nw) (g := LmNext 0); [|reflexivity|exact I|].
      { unfold act. cbn [limit_ds t_act t_init t_iter fst snd]. rewrite nth_repeat0.
        replace (0 <? Lw w) with true by (symmetry; apply Nat.ltb_lt; exact HL0). reflexivity. }
      cbn [after]. rewrite <- (app_nil_r (map Yield ys)). eapply lrun_app; [exact L1|].
      set (i := 0 + length ys) in *.
      set (k := fun r : option (sample A) => match r with
                    | Some a => if i <? Lw w then (upd o1 w (S i), LmNext (S i), Yield a) else (o1, LmReset, Tau)
                    | None => (o1, LmReset, Tau)
                    end).
      assert (Ek : k r = (o1, LmReset, Tau)).
      { destruct r as [a|]; [|reflexivity]. destruct Hr as [?|Hr]; [discriminate|].
        unfold k. replace (i <? Lw w) with false; [reflexivity|]. symmetry. apply Nat.ltb_ge. unfold i. lia. }
      pose proof (@lr_pull _ _ T rs w b1 (o1, LmNext i) k r [] [] (is_none r) (o1, LmReset) eq_refl) as X.
      rewrite Ek in X. apply X; [reflexivity|exact I|constructor].
    Qed.

    (** Each epoch of worker [w] consists of the first samples of the inner dataset, up to the
        worker's share of the limit, and the next epoch is the same again. *)
    Theorem limit_forward w (xs : list (sample A)) e : w < nw -> resettable D true nw ->
      (e = [Done] /\ length xs <= Lw w) \/ (e = [] /\ length xs = S (Lw w)) ->
      emits w (fresh D) (map Yield xs ++ e) ->
      exists s', goes (D := W) w (fresh W) (epoch (firstn (Lw w) xs)) s' /\ same_stream w s' (fresh W).
    Proof.
      intros Hw HR He E.
      assert (F : forall (s1 : st W) o, loc s1 = (o, LmReset) -> reach w true nw (eff s1) ->
                exists s', goes (D := W) w s1 [Done] s' /\ same_stream w s' (fresh W)).
      { intros [[o0 io it] g0] o Hl Hr. unfold loc in Hl. cbn in Hl. injection Hl as -> ->.
        exists (mkW (T := T) (D := D) (repeat 0 nw) (ds_restore D None io) None, LmStart). split.
        - eapply go_tau; [reflexivity|]. eapply go_done; [reflexivity|constructor].
        - apply (@R_same_stream _ _ T D w nw true false (Qof false false (ds_restore_sample D w))) with (L := lm_L w).
          + intros; exact I + (intro; discriminate).
          + intros; reflexivity.
          + right; reflexivity.
          + discriminate.
          + apply lm_sim. exact Hw.
          + right. intros s Rs. apply HR; auto.
          + exists true. unfold loc, eff. cbn [fst snd w_loc w_in w_it cur_it fresh wrap ds_init ds_iter].
            split; [|split; [|split; [|split; [constructor|auto]]]].
            * unfold lm_L, lm_Inv, lm_norm. cbn [fst snd limit_ds t_init t_iter]. rewrite repeat_length, nth_repeat0. repeat split; auto; lia.
            * exact (HR w (io, cur_it (D := D) it) Hw Hr).
            * exact (r_reset (s := (io, cur_it (D := D) it)) eq_refl Hr). }
      assert (He' : exists e', e = map inp e' /\ ((e' = [None] /\ length xs <= Lw w) \/ (e' = [] /\ length xs = S (Lw w)))).
        { destruct He as [[-> H]|[-> H]]; [exists [None]|exists []]; auto. }
        destruct He' as (e' & -> & He'). rewrite <- inp_some, <- map_app in E.
        destruct (Nat.eq_dec (Lw w) 0) as [Z|Z].
        { destruct (F ((mkW (T := T) (D := D) (t_init T) (ds_init D) None, LmReset)) (t_init T) eq_refl) as (s' & G & S'); [constructor|].
          exists s'. split; [|exact S']. rewrite Z. cbn [firstn epoch map app].
          eapply go_tau; [|exact G]. cbn [fst snd fresh wrap ds_init ds_iter ds_step]. unfold wrap_step. cbn [w_loc limit_ds t_act t_iter t_init].
          rewrite Z. reflexivity. }
        destruct (@lm_to_reset w (ds_restore_sample D w) xs e' Hw He' ltac:(lia)) as (b & o & LR).
        rewrite <- (app_nil_r (map inp _)) in E.
        destruct (@emits_goes _ D w (fresh D) _ _ (@clean_map_inp _ _) E) as (si & G & _).
        destruct (wrap_run LR (s := fresh W) eq_refl (@fresh_it_ok _ _ T D true) G) as (s1 & G1 & L1 & _ & _ & R1).
        destruct (F s1 o L1 (R1 true nw (r_init _ _ _ _))) as (s' & G2 & S2).
        exists s'. split; [|exact S2]. unfold epoch. eapply goes_trans; eauto.
    Qed.

    (** Resuming is exact wherever the uninterrupted iterator continues without an exception. *)
    Theorem limit_resumes rout : resumable D true nw -> resettable D true nw ->
      forall w (s : st W) sts e s', w < nw -> reach w rout nw s -> length sts = nw ->
        nth_error sts w = Some (Some (ds_save W w (fst s))) ->
        next w s e s' -> match e with Raise _ => False | _ => True end ->
        same_stream w s (ds_restore W (Some (ds_merge W sts)) (ds_init W), ds_iter W).
    Proof.
      intros RD HR w s sts e s' Hw Rs Hl Hs N He.
      assert (Hst1 := nth_error_map_some (option_map fst) Hs).
      assert (Hst2 := nth_error_map_some (option_map snd) Hs).
      assert (Dec : lm_below w (loc s) \/ snd s = LmNext (Lw w)).
      { unfold lm_below. destruct s as [x g]. cbn [loc snd]. destruct g as [|i| |]; try (left; discriminate).
        destruct (Nat.eq_dec i (Lw w)); [right; subst i; reflexivity|left; congruence]. }
      destruct Dec as [B|B].
      - eapply (@wrap_resumable_at A A T D nw true rout false false); eauto; try discriminate.
        apply lm_local_resumable.
      - assert (LO := @lm_local_ok rout false false w (ds_restore_sample D w) Hw).
        destruct (@good_reach _ _ T D w nw true rout (Qof false false (ds_restore_sample D w))
          ltac:(intros; intro; discriminate) ltac:(intros; reflexivity) (or_intror eq_refl) ltac:(auto) _ _ _ _ LO s Rs)
          as (b & [[HL HP] _] & HR0 & Hb).
        destruct s as [[o io it] g]. cbn [snd] in B. subst g. unfold loc, eff in *. cbn [fst snd w_loc w_in w_it] in *.
        (* the restored dataset goes straight to the end of the epoch *)
        set (s2 := (ds_restore W (Some (ds_merge W sts)) (ds_init W), ds_iter W)).
        assert (M : nth w (merge_nat (map (option_map fst) sts)) 0 = Lw w).
        { exact (eq_trans (merge_nat_nth Hst1) (proj2 HP)). }
        assert (S2 : same_stream (D := W) w s2 (mkW (T := T) (D := D) (merge_nat (map (option_map fst) sts))
                       (ds_restore D (Some (ds_merge D (map (option_map snd) sts))) (ds_init D)) None, LmReset)).
        { apply (same_stream_tau (D := W)). exact (@lm_step_start w _ _ None M). }
        apply (@same_stream_trans _ W w _ _ _) with (2 := same_stream_sym S2).
        (* the uninterrupted one asks the inner dataset once more *)
        destruct N as [n N].
        assert (Ha : act (T := T) (ds_restore_sample D w) w (loc (T := T) (D := D) (mkW (T := T) (D := D) o io it, LmNext (Lw w))) =
                  Pull (fun r => match r with
                                 | Some a => if Lw w <? Lw w then (upd o w (S (Lw w)), LmNext (S (Lw w)), Yield a) else (o, LmReset, Tau)
                                 | None => (o, LmReset, Tau) end)) by reflexivity.
        destruct (nextn w n (io, cur_it (D := D) it)) as [[ei si]|] eqn:Ei.
        2:{ pose proof (@wrap_pull_none _ _ T D w _ _ _ Ha Ei) as X. pose proof (eq_trans (eq_sym N) X). discriminate. }
        assert (Hnx : next w (io, cur_it (D := D) it) ei si) by (exists n; exact Ei).
        assert (GP := @goes_pull _ _ T D w _ (mkW (T := T) (D := D) o io it, LmNext (Lw w)) ei si Ha Hnx).
        assert (FIN : exists s1, goes (D := W) w (mkW (T := T) (D := D) o io it, LmNext (Lw w)) [] s1 /\
                        loc s1 = (o, LmReset) /\ reach w true nw (eff s1)).
        { destruct ei as [a| | |x].
          - rewrite Nat.ltb_irrefl in GP. destruct (GP eq_refl I) as (s1 & G1 & L1 & E1). exists s1. split; [exact G1|]. split; [exact L1|].
            rewrite E1. exact (r_yield HR0 Hnx).
          - exfalso. eapply next_not_tau; exact Hnx.
          - destruct (GP eq_refl) as (s1 & G1 & L1 & E1 & _). exists s1. split; [exact G1|]. split; [exact L1|].
            rewrite E1. exact (r_done HR0 Hnx).
          - exfalso. destruct (@wrap_pull_some _ _ T D w _ _ _ _ _ Ha Ei) as (m' & Hm & Hj).
            specialize (Hj (n - m')). replace (m' + (n - m')) with n in Hj by lia.
            pose proof (eq_trans (eq_sym N) Hj) as Y. cbn [after_pull fin] in Y. injection Y as -> ->. exact He. }
        destruct FIN as (s1 & G1 & L1 & R1).
        destruct s1 as [[o1 io1 it1] g1]. unfold loc in L1. cbn in L1. injection L1 as -> ->.
        assert (SS : same_stream (D := W) w (mkW (T := T) (D := D) o io it, LmNext (Lw w)) (mkW (T := T) (D := D) o io1 it1, LmReset)).
        { apply goes_nil_same. exact G1. }
        eapply (@same_stream_trans _ W w); [exact SS|].
        apply limit_reset_same; auto.
        exact (r_restore (s := (io, cur_it (D := D) it)) HR0 (eq_trans (map_length _ _) Hl) Hst2).
    Qed.
  End Whole.
End Limit.
