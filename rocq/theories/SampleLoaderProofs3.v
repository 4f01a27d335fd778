(** Proofs about the model of the sample loader: histories and progress. *)
From Coq Require Import QArith.
From Verif Require Import Base Dataset DatasetProofs WrapSpec Rng RngProofs Sharder SampleLoader SampleLoaderSpec SampleLoaderProofs SampleLoaderProofs2.
Local Close Scope Q_scope.
Local Close Scope Z_scope.
Local Open Scope nat_scope.

Lemma n_yields_app {P} (a b : list (event (sample P))) : n_yields (a ++ b) = n_yields a + n_yields b.
Proof. induction a as [|[]]; cbn; auto. Qed.
Lemma n_yields_map {P} (xs : list (sample P)) : n_yields (map Yield xs) = length xs.
Proof. induction xs; cbn; auto. Qed.
Lemma concat_snoc {A} (ls : list (list A)) l : concat (ls ++ [l]) = concat ls ++ l.
Proof. rewrite concat_app. cbn. rewrite app_nil_r. reflexivity. Qed.

Lemma epochs_seen_yield {P} loop es (part : list (sample P)) a :
  epochs_seen loop es part ++ [Yield a] = epochs_seen loop es (part ++ [a]).
Proof. unfold epochs_seen. rewrite <- app_assoc, map_app. reflexivity. Qed.
Lemma epochs_seen_done {P} es (part : list (sample P)) :
  epochs_seen false es part ++ [Done] = epochs_seen false (es ++ [part]) [].
Proof.
  unfold epochs_seen. rewrite map_app, concat_app. cbn. unfold epoch. rewrite <- !app_assoc, app_nil_r. cbn. reflexivity.
Qed.
Lemma epochs_seen_loop {P} es (part : list (sample P)) :
  epochs_seen true es part = epochs_seen true (es ++ [part]) [].
Proof. unfold epochs_seen. rewrite concat_snoc, map_app. cbn [map]. rewrite app_nil_r. reflexivity. Qed.
Lemma epochs_seen_yields {P} loop es (part : list (sample P)) :
  n_yields (epochs_seen loop es part) = length (concat es) + length part.
Proof.
  unfold epochs_seen. rewrite n_yields_app, n_yields_map. f_equal. destruct loop; [apply n_yields_map|].
  induction es as [|e es IH]; cbn [map concat]; [reflexivity|].
  rewrite n_yields_app, app_length, IH. unfold epoch. rewrite n_yields_app, n_yields_map. cbn. lia.
Qed.

Section IL.
  Context {A : Type}.
  Lemma il_join (c zs : list A) ls xs : interleaved [c; zs] xs -> interleaved ls zs -> interleaved (c :: ls) xs.
  Proof.
    intros H. remember [c; zs] as l0 eqn:E. revert c zs ls E. induction H as [l0 H|l1 x l l2 xs H IH]; intros c zs ls E I.
    - subst l0. inversion_clear H. inversion_clear H1. subst. apply il_add_nil. exact I.
    - destruct l1 as [|y [|z [|? ?]]]; cbn in E; try discriminate.
      + injection E as <- ->. apply (@il_cons _ [] x l ls). cbn [app]. eapply IH; [reflexivity|exact I].
      + injection E as -> <- ->. inversion I; subst. apply (@il_cons _ (c :: l1) x l0 l2). cbn [app].
        eapply IH; [reflexivity|]. exact H2.
  Qed.
  Lemma il_split (c : list A) rest xs : interleaved (c :: rest) xs -> exists ys, interleaved rest ys /\ interleaved [c; ys] xs.
  Proof.
    intros H. remember (c :: rest) as l0 eqn:E. revert c rest E. induction H as [l0 H|l1 x l l2 xs H IH]; intros c rest E.
    - subst l0. inversion_clear H. subst c. exists []. split; [constructor; assumption|constructor; auto].
    - destruct l1 as [|y l1]; cbn in E.
      + injection E as <- ->. destruct (IH _ _ eq_refl) as (ys & I1 & I2). exists ys. split; [exact I1|].
        exact (@il_cons _ [] x l [ys] _ I2).
      + injection E as -> <-. destruct (IH _ _ eq_refl) as (ys & I1 & I2). exists (x :: ys). split.
        * constructor. exact I1.
        * exact (@il_cons _ [c] x ys [] _ I2).
  Qed.
  Lemma il_prepend2 (c ys xs part : list A) : interleaved [c; ys] xs -> interleaved [c; part ++ ys] (part ++ xs).
  Proof.
    intros H. induction part as [|x part IH]; [exact H|]. exact (@il_cons _ [c] x (part ++ ys) [] _ IH).
  Qed.
End IL.

Section P.
  Context {X : Type} (R : rng_ops).
  Variables (shards : list (list shseq)) (content : shseq -> list (sample X))
            (par : nat) (shuffle : shuffling) (loop : bool)
            (rsample : nat -> rkey -> result (sample X)).
  Notation L := (loader_ds R shards content par shuffle loop rsample).
  Notation ws := (worker_shards shards).
  Notation nw := (length shards).
  Notation hd := (@sl_head X R shards par shuffle).
  Notation lp := (@sl_loop X R shards content par shuffle loop).
  Notation once := (@shards_once R par shuffle).
  Notation slot_at := (@slot_at R par).
  Notation sok := (slot_ok shards par).
  Notation lc w := (@lcase X shards content shuffle loop w).
  Notation sinv := (@SampleLoaderProofs.sinv X R shards content par shuffle loop rsample).
  Notation savable := (@SampleLoaderProofs.savable X R shards content par shuffle loop rsample).
  Variable w : nat.
  Hypothesis HK : forall v, distinct_keys (ws v).
  Hypothesis W : w < nw.
  Hypothesis NE : ws w <> [].
  Hypothesis HC : counts_ok shards w.
  Hypothesis HP : par >= 1.

    Lemma slot_at_upd r l s : w < length l -> slot_at w (mkSl r (upd l w s)) = s.
    Proof. intros H. unfold SampleLoader.slot_at. cbn [so_slots]. apply nth_upd_same. exact H. Qed.

    Lemma idle_none s : filled s -> par >= 1 -> length (sl_act s) = par -> Forall (eq None) (sl_act s) -> sl_pend s = [].
    Proof.
      intros [F|F] Hp Hl HN; [exact F|]. destruct (sl_act s) as [|p l]; [cbn in Hl; lia|].
      inversion_clear F. inversion_clear HN. subst p. discriminate.
    Qed.

  (** *** what has been delivered *)
  Section Hist.
    Variables (full : list (sample X) -> Prop) (pre : list (sample X) -> slot -> Prop).
    Hypothesis pre_start : forall order s r r', once w (ws w) r = (Ok order, r') -> sok w s ->
      sl_act s = map (fun t => Some (t, 0)) (firstn par order) ++ repeat None (par - length order) ->
      sl_pend s = skipn par order -> pre [] s.
    Hypothesis pre_step : forall part s s' g e, sok w s -> sok w s' -> pre part s -> lc w s s' g e -> g <> SgHead ->
      match e with Yield row => pre (part ++ [row]) s' | Tau => pre part s' | _ => True end.
    Hypothesis pre_end : forall part s, sok w s -> pre part s -> Forall (eq None) (sl_act s) -> sl_pend s = [] -> full part.

    Definition gpart (g : sl_gen) (part : list (sample X)) (s : slot) : Prop :=
      match g with
      | SgLoop _ => pre part s
      | _ => (idle s /\ part = []) \/ (~ idle s /\ pre part s)
      end.

    Definition hinv (outs : list (event (sample X))) (s : st L) : Prop :=
      sinv w s /\ filled (slot_at w (fst s)) /\
      exists es part, outs = epochs_seen loop es part /\ Forall full es /\
        sl_ep (slot_at w (fst s)) = length es /\ sl_epc (slot_at w (fst s)) = length part /\
        sl_cnt (slot_at w (fst s)) = length (concat es) + length part /\
        gpart (snd s) part (slot_at w (fst s)).

    Lemma hinv_step outs s : hinv outs s ->
      match ds_step L w (fst s) (snd s) with
      | (o, g, Tau) => hinv outs (o, g)
      | (o, g, e) =>
          match e with
          | Yield a => hinv (outs ++ [Yield a]) (o, g)
          | Done => hinv (outs ++ [Done]) (o, SgStart)
          | _ => True
          end
      end.
    Proof.
      intros (SI & HF & es & part & Eo & HE & Cep & Cepc & Ccnt & HG).
      pose proof (@step_inv X R shards content par shuffle loop rsample HK w s W SI) as SI'.
      destruct s as [o g]. cbn [fst snd] in *. pose proof SI as (HL & HS & HGp). cbn [fst snd] in *.
      assert (WL : w < length (so_slots o)) by lia.
      cbn [ds_step loader_ds] in *. destruct g as [| |probs].
      - destruct HS as (H1 & H2 & H3 & H4). rewrite H4 in *. destruct (ws w) as [|t l] eqn:Ew; [congruence|]. cbn [fst snd] in *.
        assert (SE : slot_at w (mkSl (so_rng o) (clear_other_slots par w (so_slots o))) = slot_at w o).
        { unfold SampleLoader.slot_at at 1. cbn [so_slots]. rewrite (slot_at_clear par rsample (so_rng o) _ WL). destruct o; reflexivity. }
        split; [exact SI'|]. cbn [fst snd]. rewrite !SE. split; [exact HF|]. exists es, part. auto 8.
      - destruct (hd w (so_rng o) (slot_at w o)) as [[[r' s'] g'] e] eqn:EH.
        pose proof (head_case rsample HS EH) as C.
        assert (SI2 : match e with Raise _ => True | _ => sinv w (mkSl r' (upd (so_slots o) w s'), g') end).
        { destruct e; try exact I; try exact SI'; try exact (proj1 SI'). }
        clear SI'. pose proof (head_filled rsample HP C HF) as HF'.
        inversion C; subst; auto.
        + split; [exact SI2|]. cbn [fst snd]. rewrite slot_at_upd by exact WL. split; [exact HF|].
          exists es, part. repeat (split; auto). cbn [gpart] in *. destruct HG as [[A _]|[_ A]]; [contradiction|exact A].
        + destruct H3 as (Q1 & Q2 & Q3). split; [exact SI2|]. cbn [fst snd]. rewrite slot_at_upd by exact WL. split; [exact HF'|].
          destruct HG as [[_ Hn]|[Hn _]]; [|contradiction]. subst part.
          exists es, []. repeat (split; [congruence|]). cbn [gpart]. eapply pre_start; eauto.
          destruct SI2 as (_ & S2 & _). cbn [fst] in S2. rewrite slot_at_upd in S2 by exact WL. exact S2.
      - destruct (lp w (so_rng o) (slot_at w o) probs) as [[[r' s'] g'] e] eqn:EH.
        pose proof (loop_case rsample HC HS HGp EH) as C.
        assert (SI2 : match e with Raise _ => True | _ => sinv w (mkSl r' (upd (so_slots o) w s'), g') end).
        { destruct e; try exact I; try exact SI'; try exact (proj1 SI'). }
        clear SI'. pose proof (lcase_filled par rsample C HF) as HF'. cbn [gpart] in HG.
        assert (S2 : match e with Raise _ => True | _ => sok w s' end).
        { destruct e; auto; destruct SI2 as (_ & S2 & _); cbn [fst] in S2; rewrite slot_at_upd in S2 by exact WL; exact S2. }
        assert (G' : g' = SgHead \/ g' <> SgHead) by (destruct g'; [right|left|right]; congruence).
        destruct G' as [G'|G'].
        + subst g'. inversion C; subst; auto.
          assert (HN : sl_pend (slot_at w o) = []) by (apply idle_none; auto; apply HS).
          assert (FU : full part) by (eapply pre_end; eauto).
          assert (ID : idle s') by (split; congruence).
          destruct loop eqn:EL.
          * split; [exact SI2|]. cbn [fst snd]. rewrite slot_at_upd by exact WL. split; [exact HF'|].
            exists (es ++ [part]), []. split; [rewrite ?EL; apply epochs_seen_loop|]. split; [apply Forall_app; auto|].
            rewrite app_length, concat_snoc, app_length. cbn [length]. split; [lia|]. split; [lia|]. split; [lia|].
            left. auto.
          * split; [destruct SI2 as (A & B & _); split; [exact A|split; [exact B|exact I]]|]. cbn [fst snd]. rewrite slot_at_upd by exact WL. split; [exact HF'|].
            exists (es ++ [part]), []. split; [rewrite ?EL; apply epochs_seen_done|]. split; [apply Forall_app; auto|].
            rewrite app_length, concat_snoc, app_length. cbn [length]. split; [lia|]. split; [lia|]. split; [lia|].
            left. auto.
        + assert (PS := fun S2' => @pre_step part _ s' g' e HS S2' HG C G').
          destruct e as [row| | |]; auto.
          * specialize (PS S2). inversion C; subst; try congruence.
            split; [exact SI2|]. cbn [fst snd]. rewrite slot_at_upd by exact WL. split; [exact HF'|].
            exists es, (part ++ [row]). split; [apply epochs_seen_yield|]. split; [auto|].
            rewrite app_length. cbn [length]. split; [congruence|]. split; [lia|]. split; [lia|]. exact PS.
          * specialize (PS S2). assert (SC : same_counts s' (slot_at w o) /\ exists ps, g' = SgLoop ps).
            { inversion C; subst; try congruence; split; eauto. }
            destruct SC as ((Q1 & Q2 & Q3) & ps & ->).
            split; [exact SI2|]. cbn [fst snd]. rewrite slot_at_upd by exact WL. split; [exact HF'|].
            exists es, part. repeat (split; [congruence|]). exact PS.
          * inversion C; subst; try congruence.
    Qed.

    Lemma idle_act s : existsb is_some (sl_act s) = true -> ~ idle s.
    Proof. intros H. apply not_idle_dec. rewrite H. reflexivity. Qed.

    Theorem history_inv outs s : history w nw outs s -> hinv outs s /\ savable w s.
    Proof.
      induction 1 as [|outs s a s' H IH N|outs s s' H IH N|outs s sts H IH Hl Hs].
      - split; [|apply (@reach_savable X R shards content par shuffle loop rsample HK false w); [exact W|constructor]].
        assert (E0 : slot_at w (ds_init L) = empty_slot par) by apply nth_repeat_any.
        assert (I0 : idle (empty_slot par)).
        { split; [|reflexivity]. cbn [sl_act empty_slot]. apply Forall_forall. intros p Hp. apply repeat_spec in Hp. congruence. }
        split; [|split].
        + split; [cbn; apply repeat_length|]. cbn [fst snd]. rewrite E0. split; [apply slot_ok_empty|exact I].
        + left. cbn [fst]. rewrite E0. reflexivity.
        + exists [], []. cbn [fst snd]. rewrite E0. split; [destruct loop; reflexivity|]. split; [constructor|].
          repeat (split; [reflexivity|]). left. auto.
      - destruct IH as [IH SV].
        pose proof (@next_inv _ L w (hinv outs) (fun e s => match e with Yield a => hinv (outs ++ [Yield a]) s | _ => True end)) as NI.
        split.
        + apply (NI) with (e := Yield a) (s := s); auto. intros s0 H0. pose proof (hinv_step H0) as HH.
          destruct (ds_step L w (fst s0) (snd s0)) as [[o g] e]. destruct e; auto.
        + destruct IH as (SI & _).
          apply (@next_inv _ L w (sinv w) (fun e s => sinv w s /\ match e with Yield _ => savable w s | _ => True end)) in N; [tauto| |exact SI].
          intros s0 H0. apply step_inv; auto.
      - destruct IH as [IH SV].
        pose proof (@next_inv _ L w (hinv outs) (fun e s => match e with Done => hinv (outs ++ [Done]) (fst s, SgStart) | _ => True end)) as NI.
        assert (HD : hinv (outs ++ [Done]) (fst s', SgStart)).
        { apply (NI) with (e := Done) (s := s); auto. intros s0 H0. pose proof (hinv_step H0) as HH.
          destruct (ds_step L w (fst s0) (snd s0)) as [[o g] e]. destruct e; auto. }
        split; [exact HD|]. destruct HD as (SI & _). split; [exact SI|]. left. reflexivity.
      - destruct IH as [(SI & HF & es & part & Eo & HE & Cep & Cepc & Ccnt & HG) SV].
        destruct (@restored_slot X R shards content par shuffle loop rsample w s sts Hs Hl) as (A & B & C).
        pose proof SI as (HL & HS & _).
        rewrite restore_slot_ok in C by (auto; exact HS).
        assert (S0 : sinv w (ds_restore L (Some (ds_merge L sts)) (ds_init L), ds_iter L)).
        { split; [exact B|]. cbn [fst snd]. rewrite C. split; [exact HS|exact I]. }
        split; [|split; [exact S0|left; reflexivity]].
        split; [exact S0|]. cbn [fst snd]. rewrite !C. split; [exact HF|].
        exists es, part. repeat (split; [assumption|]).
        destruct SV as [_ [G|[G1 G2]]].
        + rewrite G in HG. exact HG.
        + rewrite G2 in HG. right. split; [apply idle_act; exact G1|exact HG].
    Qed.

    Theorem history_epochs outs s : history w nw outs s ->
      let saved := snd (ds_save L w (fst s)) in
      exists es part, outs = epochs_seen loop es part /\ Forall full es /\
        sl_ep saved = length es /\ sl_epc saved = length part /\ sl_cnt saved = n_yields outs /\
        ((idle saved /\ part = []) \/ pre part saved).
    Proof.
      intros H saved. destruct (history_inv H) as [(SI & HF & es & part & Eo & HE & Cep & Cepc & Ccnt & HG) SV].
      exists es, part. split; [exact Eo|]. split; [exact HE|]. split; [exact Cep|]. split; [exact Cepc|].
      split; [rewrite Eo, epochs_seen_yields; exact Ccnt|].
      destruct (snd s); cbn [gpart] in HG; [| |right; exact HG]; destruct HG as [[? ?]|[_ ?]]; auto.
    Qed.
  End Hist.

  (** *** instances *)
  Lemma once_epoch k order : Permutation order (copies k (ws w)) ->
    forall s, sl_act s = map (fun t => Some (t, 0)) (firstn par order) ++ repeat None (par - length order) ->
    sl_pend s = skipn par order -> forall xs, interleaved (rem content s) xs -> shuffled_epoch content k (ws w) xs.
  Proof.
    intros Pm s Ha Hp xs I. destruct (@rem_fresh X content par s order Ha Hp) as (n & PR).
    unfold shuffled_epoch. apply (il_app_perm I) in PR. apply il_repeat_nil in PR.
    eapply il_app_perm; [exact PR|]. apply Permutation_map. exact Pm.
  Qed.

  Theorem history_shuffled k outs s : rng_ok R -> shuffle = Over k -> history w nw outs s ->
    let saved := snd (ds_save L w (fst s)) in
    exists es part, outs = epochs_seen loop es part /\ Forall (shuffled_epoch content k (ws w)) es /\
      sl_ep saved = length es /\ sl_epc saved = length part /\ sl_cnt saved = n_yields outs /\
      (exists xs, shuffled_epoch content k (ws w) (part ++ xs)).
  Proof.
    intros OK ES H saved.
    destruct (@history_epochs (shuffled_epoch content k (ws w)) (fun part s => forall xs, interleaved (rem content s) xs -> shuffled_epoch content k (ws w) (part ++ xs))) with (outs := outs) (s := s)
      as (es & part & Eo & HE & A & B & C & D); auto.
    - intros order s0 r r' EO _ Ha Hp xs I. apply (once_ok OK NE) in EO. rewrite ES in EO. eapply once_epoch; eauto.
    - intros part s0 s' g e HS HS' Hpre C G. assert (NR : shuffle <> Replace) by congruence.
      pose proof (lcase_rem NR C G) as LR. destruct e; auto.
      intros xs I. rewrite <- app_assoc. apply Hpre. apply LR. exact I.
    - intros part s0 HS Hpre HN Hp. rewrite <- (app_nil_r part). apply Hpre. constructor.
      unfold rem. rewrite Hp. cbn [map]. rewrite app_nil_r. clear -HN. induction HN as [|p l <- HN IH]; cbn; constructor; auto.
    - exists es, part. repeat (split; [assumption|]). destruct D as [[_ ->]|D].
      + exists (concat (map content (copies k (ws w)))). apply il_concat.
      + eexists. apply D. apply il_concat.
  Qed.

  Theorem history_in_order outs s : shuffle = NoShuffle -> par = 1 -> history w nw outs s ->
    let saved := snd (ds_save L w (fst s)) in
    exists es part, outs = epochs_seen loop es part /\ Forall (eq (concat (map content (ws w)))) es /\
      sl_ep saved = length es /\ sl_epc saved = length part /\ sl_cnt saved = n_yields outs /\
      (exists xs, concat (map content (ws w)) = part ++ xs).
  Proof.
    intros ES P1 H saved.
    destruct (@history_epochs (eq (concat (map content (ws w)))) (fun part s => concat (map content (ws w)) = part ++ concat (rem content s))) with (outs := outs) (s := s)
      as (es & part & Eo & HE & A & B & C & D); auto.
    - intros order s0 r r' EO _ Ha Hp. unfold shards_once in EO. rewrite ES in EO. injection EO as <- _.
      unfold rem. rewrite Ha, Hp, P1. destruct (ws w) as [|t l]; [congruence|]. cbn. reflexivity.
    - intros part s0 s' g e HS HS' Hpre C G.
      assert (H1 : length (sl_act s0) = 1) by (destruct HS as (_ & _ & Q & _); congruence).
      inversion C; subst; try congruence; auto.
      + rewrite Hpre, <- app_assoc. f_equal. unfold rem. rewrite H0, H4, H5. rewrite (H3 eq_refl) in *. cbn.
        rewrite (skipn_cons_nth H2). reflexivity.
      + rewrite Hpre. f_equal. unfold rem. rewrite H0, H4, H5. rewrite (H3 eq_refl) in *. cbn.
        rewrite (skipn_none H2). rewrite H0 in H1. cbn in H1. destruct a2; [|discriminate]. reflexivity.
      + rewrite Hpre. f_equal. unfold rem. rewrite H0, H5, H6, H7. rewrite (H3 eq_refl) in *. cbn.
        rewrite (skipn_none H2). reflexivity.
    - intros part s0 HS Hpre HN Hp. rewrite Hpre. unfold rem. rewrite Hp. cbn [map]. rewrite app_nil_r.
      replace (concat (map (rem1 content) (sl_act s0))) with (@nil (sample X)); [apply app_nil_r|].
      clear -HN. induction HN as [|p l <- HN IH]; cbn; auto.
    - exists es, part. repeat (split; [assumption|]). destruct D as [[_ ->]|D]; [|eauto]. eexists. reflexivity.
  Qed.

  Theorem history_replace outs s : rng_ok R -> shuffle = Replace -> history w nw outs s ->
    exists xs ss rest, outs = map Yield xs /\ Forall (fun t => In t (ws w)) ss /\
      interleaved (map content ss) (xs ++ rest) /\ sl_cnt (snd (ds_save L w (fst s))) = length xs.
  Proof.
    intros OK ES H.
    destruct (@history_epochs (fun _ => False) (fun part s => Forall (fun p => is_some p = true) (sl_act s) /\
        exists ss, Forall (fun t => In t (ws w)) ss /\ forall xs, interleaved (rem content s) xs -> interleaved (map content ss) (part ++ xs))) with (outs := outs) (s := s)
      as (es & part & Eo & HE & A & B & C & D); auto.
    - intros order s0 r r' EO _ Ha Hp. apply (once_ok OK NE) in EO. rewrite ES in EO. destruct EO as [EO Hl]. split.
      + rewrite Ha, Hl, Nat.sub_diag. cbn [repeat]. rewrite app_nil_r. apply Forall_forall. intros p Hin. apply in_map_iff in Hin.
        destruct Hin as (t & <- & _). reflexivity.
      + exists order. split; [exact EO|]. intros xs I. destruct (@rem_fresh X content par s0 order Ha Hp) as (n & PR).
        apply (il_app_perm I) in PR. apply il_repeat_nil in PR. exact PR.
    - intros part s0 s' g e HS HS' [HA (ss & Hss & Hpre)] C G. inversion C; subst; try congruence; auto.
      + split; [rewrite H0 in HA; rewrite H3; apply Forall_mid in HA; apply Forall_mid; tauto|].
        exists ss. split; [exact Hss|]. intros xs I. rewrite <- app_assoc. apply Hpre. cbn [app].
        apply (@il_app_perm _ ([] ++ (row :: skipn (S k) (content sh)) :: (map (rem1 content) a1 ++ map (rem1 content) a2 ++ map content (sl_pend s0)))).
        * constructor. eapply il_app_perm; [exact I|]. rewrite (rem_split _ H3), H4. reflexivity.
        * rewrite (rem_split _ H0). cbn [rem1 app]. rewrite (skipn_cons_nth H1). reflexivity.
      + split; [rewrite H0 in HA; rewrite H4; apply Forall_mid in HA; apply Forall_mid; tauto|].
        exists ss. split; [exact Hss|]. intros xs I. apply Hpre.
        apply (@il_app_perm _ ([] :: (content t :: map (rem1 content) a1 ++ map (rem1 content) a2 ++ map content (sl_pend s')))).
        * apply il_add_nil. eapply il_app_perm; [exact I|]. rewrite (rem_split _ H4). reflexivity.
        * rewrite (rem_split _ H0). cbn [rem1]. rewrite (skipn_none H1), H3. cbn [map].
          constructor. rewrite !app_assoc. apply Permutation_middle.
      + split; [rewrite H0 in HA; rewrite H5; apply Forall_mid in HA; apply Forall_mid; tauto|].
        exists (t :: ss). split; [constructor; auto|].
        intros xs I. cbn [map].
        assert (I2 : interleaved (content t :: (map (rem1 content) a1 ++ map (rem1 content) a2 ++ map content (sl_pend s'))) xs).
        { eapply il_app_perm; [exact I|]. rewrite (rem_split _ H5). reflexivity. }
        destruct (il_split I2) as (ys & I3 & I4). apply (@il_join _ (content t) (part ++ ys)).
        * apply il_prepend2. exact I4.
        * apply Hpre. eapply il_app_perm; [apply il_add_nil; exact I3|].
          rewrite (rem_split _ H0). cbn [rem1]. rewrite (skipn_none H1), H4, H6. reflexivity.
    - intros part s0 HS [HA _] HN Hp. destruct HS as (_ & _ & Q & _). destruct (sl_act s0); [cbn in Q; lia|].
      inversion_clear HA. inversion_clear HN. subst. discriminate.
    - assert (es = []) as ->. { destruct es; [reflexivity|]. inversion_clear HE. contradiction. }
      assert (Eo' : outs = map Yield part) by (rewrite Eo; unfold epochs_seen; destruct loop; reflexivity).
      exists part. destruct D as [[_ ->] | [_ (ss & Hss & D)]].
      + exists [], []. split; [exact Eo'|]. split; [constructor|]. split; [constructor; constructor|].
        rewrite C, Eo', n_yields_map. reflexivity.
      + exists ss, (concat (rem content (snd (ds_save L w (fst s))))). split; [exact Eo'|]. split; [exact Hss|].
        split; [apply D; apply il_concat|]. rewrite C, Eo', n_yields_map. reflexivity.
  Qed.

  (** the sub-shards in progress *)
  Definition op1 (p : option progress) : list shseq := match p with None => [] | Some (t, _) => [t] end.
  Definition open (s : slot) : list shseq := flat_map op1 (sl_act s).
  Lemma op1_none n : flat_map op1 (repeat None n) = [].
  Proof. induction n as [|n IH]; cbn [repeat flat_map op1 app]; auto. Qed.
  Lemma op1_some l : flat_map op1 (map (fun t => Some (t, 0)) l) = l.
  Proof. induction l as [|x l IH]; cbn [map flat_map op1 app]; [reflexivity|]. f_equal. exact IH. Qed.
  Lemma op1_idle l : Forall (eq None) l -> flat_map op1 l = [].
  Proof. induction 1 as [|p l <- H IH]; cbn [flat_map op1 app]; auto. Qed.

  Lemma open_split s a1 p a2 : sl_act s = a1 ++ p :: a2 ->
    Permutation (open s) (op1 p ++ flat_map op1 (a1 ++ a2)).
  Proof.
    intros E. unfold open. rewrite E, !flat_map_app. cbn [flat_map]. rewrite !app_assoc.
    apply Permutation_app_tail. apply Permutation_app_comm.
  Qed.

  Theorem history_open k outs s : rng_ok R -> (shuffle = Over k \/ (shuffle = NoShuffle /\ k = 1)) -> history w nw outs s ->
    let saved := snd (ds_save L w (fst s)) in
    exists rest, Permutation (open saved ++ sl_pend saved ++ rest) (copies k (ws w)).
  Proof.
    intros OK ES H saved.
    destruct (@history_epochs (fun _ => True) (fun part s => exists rest, Permutation (open s ++ sl_pend s ++ rest) (copies k (ws w)))) with (outs := outs) (s := s)
      as (es & part & Eo & HE & A & B & C & D); auto.
    - intros order s0 r r' EO _ Ha Hp. exists []. rewrite app_nil_r.
      assert (PO : Permutation order (copies k (ws w))).
      { apply (once_ok OK NE) in EO. destruct ES as [E|[E ->]]; rewrite E in EO; [exact EO|].
        rewrite EO. unfold copies. cbn. rewrite app_nil_r. reflexivity. }
      rewrite <- PO. unfold open. rewrite Ha, Hp, flat_map_app.
      rewrite op1_none, op1_some, app_nil_r.
      rewrite firstn_skipn. reflexivity.
    - intros part s0 s' g e HS HS' (rest & PR) C G. inversion C; subst; try congruence; auto.
      + exists rest. rewrite <- PR, (open_split H0), (open_split H3), H4. reflexivity.
      + exists (sh :: rest). rewrite <- PR, (open_split H0), (open_split H4), H3. cbn [app op1].
        rewrite app_assoc. rewrite <- !Permutation_middle. rewrite <- !app_assoc. apply perm_swap.
      + exists (sh :: rest). rewrite <- PR, (open_split H0), (open_split H5), H4, H6. cbn [app op1].
        symmetry. apply Permutation_middle.
      + destruct ES as [E|[E _]]; congruence.
    - destruct D as [[[I1 I2] _]|D]; [|exact D]. exists (copies k (ws w)). fold saved in I1, I2. rewrite I2.
      unfold open. rewrite op1_idle by exact I1. reflexivity.
  Qed.

  Theorem history_par outs s : history w nw outs s -> length (open (snd (ds_save L w (fst s)))) <= par.
  Proof.
    intros H. destruct (@history_inv (fun _ => True) (fun _ _ => True)) with (outs := outs) (s := s) as [_ ((_ & (_ & _ & Q & _) & _) & _)]; auto.
    { intros. destruct e; exact I. }
    cbn [ds_save loader_ds snd]. eapply Nat.le_trans; [|apply Nat.eq_le_incl; exact Q]. unfold open. generalize (sl_act (slot_at w (fst s))). clear.
    induction l as [|[[t k]|] l IH]; cbn [flat_map op1 app length]; lia.
  Qed.

  (** *** progress *)
  Hypothesis OK : rng_ok R.
  Hypothesis HN : shuffle = NoShuffle -> par = 1.

  Definition pinv (s : st L) : Prop := sinv w s /\ filled (slot_at w (fst s)).

  Lemma pinv_step s : pinv s ->
    match ds_step L w (fst s) (snd s) with (o, g, Raise _) => False | (o, g, Done) => loop = false /\ pinv (o, g) | (o, g, _) => pinv (o, g) end.
  Proof.
    intros (SI & HF).
    pose proof (@step_inv X R shards content par shuffle loop rsample HK w s W SI) as SI'.
    destruct s as [o g]. cbn [fst snd] in *. pose proof SI as (HL & HS & HGp). cbn [fst snd] in *.
    assert (WL : w < length (so_slots o)) by lia.
    cbn [ds_step loader_ds] in *. destruct g as [| |probs].
    - pose proof HS as (H1 & H2 & H3 & H4). rewrite H4 in *. destruct (ws w) as [|t l] eqn:Ew; [congruence|].
      split; [exact SI'|]. cbn [fst]. unfold SampleLoader.slot_at. cbn [so_slots]. rewrite (slot_at_clear par rsample (so_rng o) _ WL). destruct o; exact HF.
    - destruct (hd w (so_rng o) (slot_at w o)) as [[[r' s'] g'] e] eqn:EH.
      pose proof (head_no_raise content rsample OK HS NE EH) as NR.
      pose proof (head_filled rsample HP (head_case rsample HS EH) HF) as HF'.
      pose proof (head_case rsample HS EH) as C.
      destruct e; try contradiction; try (inversion C; fail). split; [exact SI'|].
      cbn [fst]. rewrite slot_at_upd by exact WL. exact HF'.
    - destruct (lp w (so_rng o) (slot_at w o) probs) as [[[r' s'] g'] e] eqn:EH.
      pose proof (loop_no_raise rsample OK HC HS HGp HN NE EH) as NR.
      pose proof (loop_case rsample HC HS HGp EH) as C.
      pose proof (lcase_filled par rsample C HF) as HF'.
      assert (HF2 : filled (slot_at w (mkSl r' (upd (so_slots o) w s')))) by (rewrite slot_at_upd by exact WL; destruct e; auto; contradiction).
      destruct e; try contradiction.
      + split; [exact (proj1 SI')|exact HF2].
      + split; [exact SI'|exact HF2].
      + split; [|split; [exact (proj1 SI')|exact HF2]]. inversion C. destruct loop; congruence.
  Qed.

  Lemma pinv_init : pinv (fresh L).
  Proof.
    assert (E0 : slot_at w (ds_init L) = empty_slot par) by apply nth_repeat_any.
    split.
    - split; [cbn; apply repeat_length|]. cbn [fst snd fresh]. rewrite E0. split; [apply slot_ok_empty|exact I].
    - left. cbn [fst fresh]. rewrite E0. reflexivity.
  Qed.

  Lemma pinv_iter o g : pinv (o, g) -> pinv (o, SgStart).
  Proof. intros ((A & B & _) & F). split; [split; [exact A|split; [exact B|exact I]]|exact F]. Qed.

  Lemma pinv_next s e s' : pinv s -> next w s e s' -> pinv s' /\ (e = Done -> loop = false) /\ (forall x, e <> Raise x).
  Proof.
    intros HI N.
    apply (@next_inv _ L w pinv (fun e s' => pinv s' /\ (e = Done -> loop = false) /\ (forall x, e <> Raise x))) in N; auto.
    intros s0 H0. apply pinv_step in H0. destruct (ds_step L w (fst s0) (snd s0)) as [[o g] [a| | |x]]; auto.
    - split; [exact H0|]. split; [discriminate|]. intros; discriminate.
    - destruct H0. split; [assumption|]. split; [auto|]. intros; discriminate.
    - contradiction.
  Qed.

  Lemma reach_pinv rst s : reach w rst nw s -> pinv s.
  Proof.
    induction 1 as [|s a s' HR IH N|s s' HR IH N|s sts HR IH Hl Hs|s Hr HR IH].
    - apply pinv_init.
    - eapply pinv_next; eauto.
    - destruct s' as [o g]. eapply pinv_iter. eapply pinv_next; eauto.
    - destruct (@restored_slot X R shards content par shuffle loop rsample w s sts Hs Hl) as (A & B & C).
      destruct IH as ((HL & HS & _) & F). rewrite restore_slot_ok in C by (auto; exact HS).
      split; [split; [exact B|]|]; cbn [fst snd]; rewrite C; [split; [exact HS|exact I]|exact F].
    - assert (E0 : slot_at w (ds_restore L None (fst s)) = empty_slot par) by apply nth_repeat_any.
      split; [split; [cbn; apply repeat_length|]|]; cbn [fst snd]; rewrite E0; [split; [apply slot_ok_empty|exact I]|left; reflexivity].
  Qed.

  Theorem loader_never_raises rst (s : st L) e s' : reach w rst nw s -> next w s (Raise e) s' -> False.
  Proof. intros HR N. destruct (pinv_next (reach_pinv HR) N) as (_ & _ & Q). apply (Q e). reflexivity. Qed.

  Theorem loader_never_ends rst (s s' : st L) : loop = true -> reach w rst nw s -> ~ next w s Done s'.
  Proof. intros EL HR N. destruct (pinv_next (reach_pinv HR) N) as (_ & Q & _). rewrite Q in EL; [discriminate|reflexivity]. Qed.

  (** from the sample loop: rows until the epoch is over *)
  Definition finishes (o : ds_obj L) (probs : list Q) : Prop :=
    exists xs (o' : ds_obj L), (forall l, @emits X L w (o', SgHead) l -> loop = true -> @emits X L w (o, SgLoop probs) (map Yield xs ++ l)) /\
      (loop = false -> @emits X L w (o, SgLoop probs) (map Yield xs ++ [Done])) /\ pinv (o', SgHead) /\ idle (slot_at w o') /\
      interleaved (rem content (slot_at w o)) xs.

  Lemma loop_end o probs r' s' e : pinv (o, SgLoop probs) -> lp w (so_rng o) (slot_at w o) probs = (r', s', SgHead, e) -> finishes o probs.
  Proof.
    intros HI EH. pose proof (pinv_step HI) as PS. pose proof HI as ((HL & HS & HGp) & HF). cbn [fst snd] in HL, HS, HGp, HF, PS.
    assert (WL : w < length (so_slots o)) by lia. cbn [ds_step loader_ds] in PS.
    pose proof (loop_case rsample HC HS HGp EH) as C. rewrite EH in PS.
    assert (ST : ds_step L w o (SgLoop probs) = (mkSl r' (upd (so_slots o) w s'), SgHead, e)) by (cbn [ds_step loader_ds]; rewrite EH; reflexivity).
    exists [], (mkSl r' (upd (so_slots o) w s')). cbn [map app].
    assert (Q : e = (if loop then Tau else Done) /\ idle s' /\ interleaved (rem content (slot_at w o)) []).
    { inversion C; subst; [|contradiction]. split; [reflexivity|].
      assert (PN : sl_pend (slot_at w o) = []) by (apply idle_none; auto; apply HS).
      split; [split; congruence|]. constructor. unfold rem. rewrite PN. cbn [map]. rewrite app_nil_r.
      match goal with H : Forall (eq None) _ |- _ => clear -H; induction H as [|p l <- H IH]; cbn; constructor; auto end. }
    destruct Q as (Ee & ID & RN).
    assert (ID' : idle (slot_at w (mkSl r' (upd (so_slots o) w s')))) by (rewrite slot_at_upd by exact WL; exact ID).
    assert (PI : pinv (mkSl r' (upd (so_slots o) w s'), SgHead)) by (rewrite Ee in PS; destruct loop; [exact PS|exact (proj2 PS)]).
    split; [|split; [|split; [exact PI|split; [exact ID'|exact RN]]]].
    - intros l El Ell. rewrite Ell in Ee. subst e. apply (@same_stream_tau _ L w (o, SgLoop probs) _ _ ST). exact El.
    - intros Ell. rewrite Ell in Ee. subst e. eapply em_done; [apply next_now; [exact ST|discriminate]|constructor].
  Qed.

  Lemma loop_runs (NR : shuffle <> Replace) n : forall o probs, pinv (o, SgLoop probs) -> left content (slot_at w o) <= n -> finishes o probs.
  Proof.
    induction n as [|n IH]; intros o probs HI Hn.
    all: pose proof (pinv_step HI) as PS; pose proof HI as ((HL & HS & HGp) & HF); cbn [fst snd] in HL, HS, HGp, HF, PS;
      assert (WL : w < length (so_slots o)) by lia; cbn [ds_step loader_ds] in PS;
      destruct (lp w (so_rng o) (slot_at w o) probs) as [[[r' s'] g'] e] eqn:EH;
      pose proof (loop_case rsample HC HS HGp EH) as C;
      pose proof (lcase_left par rsample NR C) as LL;
      assert (ST : ds_step L w o (SgLoop probs) = (mkSl r' (upd (so_slots o) w s'), g', e)) by (cbn [ds_step loader_ds]; rewrite EH; reflexivity);
      assert (G' : g' = SgHead \/ g' <> SgHead) by (destruct g'; [right|left|right]; congruence);
      destruct G' as [G'|G']; [subst g'; exact (loop_end HI EH)|].
    - exfalso. specialize (LL G'). destruct e; try contradiction; lia.
    - specialize (LL G'). destruct e as [row| | |x]; try contradiction.
      + assert (EG : exists ps, g' = SgLoop ps) by (inversion C; subst; eauto; congruence). destruct EG as [ps ->].
        destruct (IH _ _ PS) as (xs & o' & A & B & D & E & RM).
        { cbn [fst]. rewrite slot_at_upd by exact WL. lia. }
        rewrite slot_at_upd in RM by exact WL. exists (row :: xs), o'. split; [|split; [|split; [assumption|split; [assumption|exact (lcase_rem NR C G' RM)]]]].
        * intros l El Ell. cbn [map app]. eapply em_yield; [apply next_now; [exact ST|discriminate]|]. apply A; assumption.
        * intros Ell. cbn [map app]. eapply em_yield; [apply next_now; [exact ST|discriminate]|]. apply B; assumption.
      + assert (EG : exists ps, g' = SgLoop ps) by (inversion C; subst; eauto; try congruence). destruct EG as [ps ->].
        destruct (IH _ _ PS) as (xs & o' & A & B & D & E & RM).
        { cbn [fst]. rewrite slot_at_upd by exact WL. lia. }
        rewrite slot_at_upd in RM by exact WL. exists xs, o'. split; [|split; [|split; [assumption|split; [assumption|exact (lcase_rem NR C G' RM)]]]].
        * intros l El Ell. apply (@same_stream_tau _ L w (o, SgLoop probs) _ _ ST). apply A; assumption.
        * intros Ell. apply (@same_stream_tau _ L w (o, SgLoop probs) _ _ ST). apply B; assumption.
      + exfalso. inversion C; subst; congruence.
  Qed.

  Lemma start_tau o : pinv (o, SgStart) -> exists o1, ds_step L w o SgStart = (o1, SgHead, Tau) /\ pinv (o1, SgHead).
  Proof.
    intros HI. pose proof (pinv_step HI) as PS. destruct HI as ((_ & (_ & _ & _ & H4) & _) & _). cbn [fst snd ds_step loader_ds] in *.
    rewrite H4 in *. destruct (ws w) as [|t l] eqn:E; [exfalso; congruence|]. eauto.
  Qed.

  Lemma head_tau o : pinv (o, SgHead) -> exists o1 probs, ds_step L w o SgHead = (o1, SgLoop probs, Tau) /\ pinv (o1, SgLoop probs) /\
    (idle (slot_at w o) -> shuffle <> Replace -> (forall k, shuffle = Over k -> k >= 1) ->
      forall t, In t (ws w) -> In (content t) (rem content (slot_at w o1))) /\
    (idle (slot_at w o) -> shuffle = Replace -> sl_pend (slot_at w o1) = [] /\ Forall (fun p => exists t, In t (ws w) /\ p = Some (t, 0)) (sl_act (slot_at w o1))).
  Proof.
    intros HI. pose proof (pinv_step HI) as PS. destruct HI as ((HL & HS & _) & HF). cbn [fst snd ds_step loader_ds] in *.
    assert (WL : w < length (so_slots o)) by lia.
    destruct (hd w (so_rng o) (slot_at w o)) as [[[r' s'] g'] e] eqn:EH.
    pose proof (head_case rsample HS EH) as C. inversion C; subst; try contradiction.
    - eexists _, _. split; [reflexivity|]. split; [exact PS|]. split; intros; contradiction.
    - eexists _, _. split; [reflexivity|]. split; [exact PS|]. rewrite slot_at_upd by exact WL.
      pose proof (once_ok OK NE H0) as OO. split.
      + intros _ NR KP t Ht. destruct (@rem_fresh X content par s' order H1 H2) as (n & PR).
        eapply Permutation_in; [symmetry; exact PR|]. apply in_or_app. right. apply in_map.
        destruct shuffle as [| |k] eqn:ES; [congruence|congruence|].
        eapply Permutation_in; [symmetry; exact OO|]. specialize (KP k eq_refl). unfold copies. destruct k; [lia|]. cbn. apply in_or_app. auto.
      + intros _ ES. rewrite ES in OO. destruct OO as [O1 O2]. rewrite H1, H2, O2, Nat.sub_diag. cbn [repeat]. rewrite app_nil_r. split.
        * apply skipn_all2. lia.
        * rewrite firstn_all2 by lia. clear -O1. induction O1; cbn; constructor; eauto.
  Qed.

  Theorem epoch_completes rst (s : st L) : shuffle <> Replace -> loop = false -> reach w rst nw s ->
    exists xs, emits w s (map Yield xs ++ [Done]).
  Proof.
    intros NR EL HR. pose proof (reach_pinv HR) as HI. destruct s as [o g].
    assert (HH : forall o, pinv (o, SgHead) -> exists xs, @emits X L w (o, SgHead) (map Yield xs ++ [Done])).
    { intros o0 H0. destruct (head_tau H0) as (o1 & ps & ST & PI & _).
      destruct (loop_runs NR (n := left content (slot_at w o1)) PI ltac:(auto)) as (xs & o' & _ & B & _).
      exists xs. apply (@same_stream_tau _ L w (o0, SgHead) _ _ ST). apply B. exact EL. }
    destruct g as [| |ps].
    - destruct (start_tau HI) as (o1 & ST & PI). destruct (HH _ PI) as (xs & E). exists xs.
      apply (@same_stream_tau _ L w (o, SgStart) _ _ ST). exact E.
    - apply HH. exact HI.
    - destruct (loop_runs NR (n := left content (slot_at w o)) HI ltac:(auto)) as (xs & o' & _ & B & _). eauto.
  Qed.

  Theorem loop_yields rst (s : st L) : shuffle <> Replace -> (forall k, shuffle = Over k -> k >= 1) -> loop = true ->
    (exists t, In t (ws w) /\ content t <> []) -> reach w rst nw s ->
    exists a s', next w s (Yield a) s'.
  Proof.
    intros NR KP EL (t & Ht & Hc) HR. pose proof (reach_pinv HR) as HI. destruct s as [o g].
    assert (HH0 : forall o, pinv (o, SgHead) -> idle (slot_at w o) -> exists a, @emits X L w (o, SgHead) [Yield a]).
    { intros o0 H0 ID. destruct (head_tau H0) as (o1 & ps & ST & PI & RM & _). specialize (RM ID NR KP t Ht).
      destruct (loop_runs NR (n := left content (slot_at w o1)) PI ltac:(auto)) as (xs & o' & A & _ & _ & _ & IL).
      destruct xs as [|x xs].
      - exfalso. inversion IL; subst. pose proof (proj1 (Forall_forall _ _) H _ RM). congruence.
      - exists x. apply (@same_stream_tau _ L w (o0, SgHead) _ _ ST). apply (@emits_prefix _ L w _ [Yield x] (map Yield xs)).
        specialize (A [] ltac:(constructor) EL). rewrite app_nil_r in A. exact A. }
    assert (HL0 : forall o ps, pinv (o, SgLoop ps) -> exists a, @emits X L w (o, SgLoop ps) [Yield a]).
    { intros o0 ps H0. destruct (loop_runs NR (n := left content (slot_at w o0)) H0 ltac:(auto)) as (xs & o' & A & _ & PI & ID & _).
      destruct xs as [|x xs].
      - destruct (HH0 _ PI ID) as (a & E). exists a. exact (A _ E EL).
      - exists x. apply (@emits_prefix _ L w _ [Yield x] (map Yield xs)).
        specialize (A [] ltac:(constructor) EL). rewrite app_nil_r in A. exact A. }
    assert (HH : forall o, pinv (o, SgHead) -> exists a, @emits X L w (o, SgHead) [Yield a]).
    { intros o0 H0. destruct (head_tau H0) as (o1 & ps & ST & PI & _). destruct (HL0 _ _ PI) as (a & E). exists a.
      apply (@same_stream_tau _ L w (o0, SgHead) _ _ ST). exact E. }
    assert (HE : exists a, @emits X L w (o, g) [Yield a]).
    { destruct g as [| |ps]; auto. destruct (start_tau HI) as (o1 & ST & PI). destruct (HH _ PI) as (a & E). exists a.
      apply (@same_stream_tau _ L w (o, SgStart) _ _ ST). exact E. }
    destruct HE as (a & E). apply emits_yield_inv in E. destruct E as (s' & N & _). eauto.
  Qed.

  (** with replacement: exhausted sub-shards *)
  Definition dry (p : option progress) : bool :=
    match p with Some (s, k) => match nth_error (content s) k with None => true | _ => false end | None => false end.

  Lemma draw_dry s s' g (HR : shuffle = Replace) (HCont : forall t, In t (ws w) -> content t <> []) : sok w s ->
    Forall (fun p => is_some p = true) (sl_act s) -> ~ Forall (eq None) (sl_act s) -> lc w s s' g Tau ->
    exists ps', g = SgLoop ps' /\ Forall (fun p => is_some p = true) (sl_act s') /\ length (filter dry (sl_act s')) < length (filter dry (sl_act s)).
  Proof.
    intros (HSP & _) HA NEND C.
    assert (DN : forall t, In t (ws w) -> dry (Some (t, 0)) = false).
    { intros t Ht. unfold dry. specialize (HCont t Ht). destruct (content t); [congruence|reflexivity]. }
    assert (DS : forall a1 a2 sh k t, sl_act s = a1 ++ Some (sh, k) :: a2 -> nth_error (content sh) k = None -> sl_act s' = a1 ++ Some (t, 0) :: a2 ->
      In t (ws w) -> Forall (fun p => is_some p = true) (sl_act s') /\ length (filter dry (sl_act s')) < length (filter dry (sl_act s))).
    { intros a1 a2 sh k t E1 E2 E3 Ht. rewrite E1 in *. rewrite E3. apply Forall_mid in HA. split; [apply Forall_mid; tauto|].
      rewrite !filter_app. cbn [filter]. rewrite DN by exact Ht. replace (dry (Some (sh, k))) with true by (cbn [dry]; rewrite E2; reflexivity).
      rewrite !app_length. cbn [length]. lia. }
    inversion C; subst; try contradiction; try congruence; eexists; (split; [reflexivity|]); eapply DS; eauto.
    rewrite H2 in HSP. inversion HSP. assumption.
  Qed.

  Lemma draw_yields (HR : shuffle = Replace) (HCont : forall t, In t (ws w) -> content t <> []) n :
    forall o ps, pinv (o, SgLoop ps) -> Forall (fun p => is_some p = true) (sl_act (slot_at w o)) ->
    length (filter dry (sl_act (slot_at w o))) <= n -> exists a, @emits X L w (o, SgLoop ps) [Yield a].
  Proof.
    induction n as [|n IH]; intros o ps HI HA Hn.
    all: pose proof (pinv_step HI) as PS; pose proof HI as ((HL & HS & HGp) & HF); cbn [fst snd] in HL, HS, HGp, HF, PS;
      assert (WL : w < length (so_slots o)) by lia; cbn [ds_step loader_ds] in PS;
      destruct (lp w (so_rng o) (slot_at w o) ps) as [[[r' s'] g'] e] eqn:EH;
      pose proof (loop_case rsample HC HS HGp EH) as C;
      assert (ST : ds_step L w o (SgLoop ps) = (mkSl r' (upd (so_slots o) w s'), g', e)) by (cbn [ds_step loader_ds]; rewrite EH; reflexivity).
    all: assert (NEND : ~ Forall (eq None) (sl_act (slot_at w o))) by
      (intros FN; destruct HS as (_ & _ & Q & _); destruct (sl_act (slot_at w o)) as [|p l]; [cbn in Q; lia|];
       inversion_clear HA; inversion_clear FN; subst p; discriminate).
    all: destruct e as [row| | |x]; try contradiction;
      [ exists row; eapply em_yield; [apply next_now; [exact ST|discriminate]|constructor] | | exfalso; inversion C; subst; contradiction ].
    all: pose proof (draw_dry HR HCont HS HA NEND C) as DR.
    - destruct DR as (ps' & _ & _ & D). lia.
    - destruct DR as (ps' & -> & HA' & D). destruct (IH (mkSl r' (upd (so_slots o) w s')) ps' PS) as (a & E).
      + rewrite slot_at_upd by exact WL. exact HA'.
      + rewrite slot_at_upd by exact WL. lia.
      + exists a. apply (@same_stream_tau _ L w (o, SgLoop ps) _ _ ST). exact E.
  Qed.

  Lemma history_reach outs (s : st L) : history w nw outs s -> reach w false nw s.
  Proof.
    induction 1; [constructor|eapply r_yield; eauto|eapply r_done; eauto|eapply r_restore; eauto].
  Qed.

  Theorem replace_yields outs (s : st L) : shuffle = Replace -> (forall t, In t (ws w) -> content t <> []) -> history w nw outs s ->
    exists a s', next w s (Yield a) s'.
  Proof.
    intros ES HCont H. pose proof (reach_pinv (history_reach H)) as HI.
    set (pre := fun (_ : list (sample X)) s => Forall (fun p => is_some p = true) (sl_act s)).
    set (full := fun _ : list (sample X) => True).
    assert (P1 : forall order s r r', once w (ws w) r = (Ok order, r') -> sok w s ->
      sl_act s = map (fun t => Some (t, 0)) (firstn par order) ++ repeat None (par - length order) ->
      sl_pend s = skipn par order -> pre [] s).
    { intros order s0 r r' EO _ Ha Hp. apply (once_ok OK NE) in EO. rewrite ES in EO. destruct EO as [EO Hl]. unfold pre.
      rewrite Ha, Hl, Nat.sub_diag. cbn [repeat]. rewrite app_nil_r. apply Forall_forall. intros p Hin. apply in_map_iff in Hin.
      destruct Hin as (t & <- & _). reflexivity. }
    assert (P2 : forall part s s' g e, sok w s -> sok w s' -> pre part s -> lc w s s' g e -> g <> SgHead ->
      match e with Yield row => pre (part ++ [row]) s' | Tau => pre part s' | _ => True end).
    { intros part s0 s' g e HS HS' HA C G. unfold pre in *. inversion C; subst; try congruence; auto;
        match goal with HA0 : sl_act s0 = _, HA1 : sl_act s' = _ |- _ => rewrite HA0 in HA; rewrite HA1; apply Forall_mid in HA; apply Forall_mid; tauto end. }
    assert (P3 : forall part s, sok w s -> pre part s -> Forall (eq None) (sl_act s) -> sl_pend s = [] -> full part) by (intros; exact I).
    destruct (history_inv P1 P2 P3 H) as [HV _].
    pose proof (hinv_step P1 P2 P3) as HST.
    assert (HLp : forall outs o ps, hinv full pre outs (o, SgLoop ps) -> pinv (o, SgLoop ps) -> exists a, @emits X L w (o, SgLoop ps) [Yield a]).
    { intros outs0 o0 ps (_ & _ & es & part & _ & _ & _ & _ & _ & G) PI. eapply (draw_yields ES HCont); [exact PI|exact G|reflexivity]. }
    assert (HH : forall outs o, hinv full pre outs (o, SgHead) -> pinv (o, SgHead) -> exists a, @emits X L w (o, SgHead) [Yield a]).
    { intros outs0 o0 HV0 H0. destruct (head_tau H0) as (o1 & ps & ST & PI & _).
      pose proof (HST _ _ HV0) as HV1. cbn [fst snd] in HV1. rewrite ST in HV1.
      destruct (HLp _ _ _ HV1 PI) as (a & E). exists a. apply (@same_stream_tau _ L w (o0, SgHead) _ _ ST). exact E. }
    assert (HE : exists a, @emits X L w s [Yield a]).
    { destruct s as [o g]. destruct g as [| |ps]; eauto.
      destruct (start_tau HI) as (o1 & ST & PI). pose proof (HST _ _ HV) as HV1. cbn [fst snd] in HV1. rewrite ST in HV1.
      destruct (HH _ _ HV1 PI) as (a & E). exists a.
      apply (@same_stream_tau _ L w (o, SgStart) _ _ ST). exact E. }
    destruct HE as (a & E). apply emits_yield_inv in E. destruct E as (s' & N & _). eauto.
  Qed.
End P.
