From Verif Require Import Base Dataset DatasetProofs Wrap WrapProofs WrapRun WrapTrace WrapSpec WrapLib
  Rng RngProofs Buffer BufferProofs ShuffleBuffer.

Section Shuffle.
  Context {A : Type} (R : rng_ops) (nw size : nat).
  Notation T := (shuffle_buffer (A := A) R nw size).

  Section Resume.
    Variables (w : nat) (rs : rkey -> result (sample A)).
    Hypothesis Hw : w < nw.

    Definition sb_ok (drain : Prop) (l : list (sample A)) (x : lst T) : Prop :=
      Forall (fun a => rs (rk a) = Ok a) l /\
      ((snd x = SbLoop /\ buf_is w nw l (sb_buf (fst x))) \/
       (drain /\ snd x = SbDrain /\ buf_is w nw l (sb_buf (fst x))) \/
       (snd x = SbStart /\ (buf_is w nw l (sb_buf (fst x)) \/ buf_pending w nw l (sb_buf (fst x))))).

    Lemma sb_settle l (x : lst T) : sb_ok False l x -> exists b,
      ltaus rs w x (mkSb b (sb_rng (fst x)), SbLoop) /\ buf_is w nw l b.
    Proof.
      intros [HF H]. destruct x as [[b r] g]. cbn in *. destruct H as [[-> H]|[[[] _]|[-> H]]].
      - exists b. split; [constructor|exact H].
      - assert (X : exists b', buf_start rs w b = Ok b' /\ buf_is w nw l b').
        { destruct H as [H|H]; [apply buf_start_is; exact H|apply buf_start_pending; auto]. }
        destruct X as (b' & E & H'). exists b'. split; [|exact H'].
        eapply lt_step; [|constructor]. unfold act. cbn. rewrite E. reflexivity.
    Qed.

    Lemma buf_pop_set (l : list (sample A)) i b : buf_is w nw l b -> forall a b', buf_pop w i b = Some (a, b') ->
      In a l /\ buf_is w nw (remove_at i l) b'.
    Proof.
      intros H a b' E. rewrite (buf_pop_is i H) in E. destruct (nth_error l i) as [x|] eqn:N; [|discriminate].
      injection E as <- <-. split; [eapply nth_error_In; eauto|]. eapply buf_set_is; eauto.
    Qed.

    Lemma remove_at_forall {X} (P : X -> Prop) l i : Forall P l -> Forall P (remove_at i l).
    Proof.
      intros H. unfold remove_at. apply Forall_app. rewrite Forall_forall in H.
      split; apply Forall_forall; intros x Hx; apply H.
      - rewrite <- (firstn_skipn i l), in_app_iff. auto.
      - rewrite <- (firstn_skipn (S i) l), in_app_iff. auto.
    Qed.
  End Resume.

  Definition sb_Inv (w : nat) rs (ne : bool) (b : bool) (x : lst T) : Prop :=
    exists l, sb_ok w rs (ne = false /\ b = true) l x.

  Lemma sb_yield_post w rs ne b (Hw : w < nw) l o g o' g' e :
    Forall (fun a => rs (rk a) = Ok a) l -> buf_is w nw l (sb_buf o) ->
    (g = SbLoop \/ (g = SbDrain /\ ne = false /\ b = true)) ->
    sb_yield (R := R) w o g = Local o' g' e ->
    post (T := T) (fun y => rs (rk y) = Ok y) (ne = false) (sb_Inv w rs ne) (sb_Inv w rs ne) b (o', g', e).
  Proof.
    intros HF H Hg Ha. unfold sb_yield in Ha.
    destruct (wrng_below w (buf_len w (sb_buf o)) (sb_rng o)) as [i r].
    destruct (buf_pop w i (sb_buf o)) as [[a b']|] eqn:P; injection Ha as <- <- <-; [|exact I].
    destruct (buf_pop_set Hw H P) as [Hin Hb].
    split; [rewrite Forall_forall in HF; auto|].
    exists (remove_at i l). split; [apply remove_at_forall; exact HF|].
    destruct Hg as [->|(-> & Hn)]; [left|right; left]; auto.
  Qed.

  Lemma sb_yield_local w o g : exists o' e, sb_yield (A := A) (R := R) w o g = Local o' g e.
  Proof.
    unfold sb_yield. destruct (wrng_below w (buf_len w (sb_buf o)) (sb_rng o)) as [i r].
    destruct (buf_pop w i (sb_buf o)) as [[a b']|]; eauto.
  Qed.

  Lemma shuffle_local_ok rst ne w rs : w < nw ->
    local_ok (T := T) rs w nw rst (Qof ne true rs) (fun y => rs (rk y) = Ok y) (ne = false)
      (sb_Inv w rs ne) (sb_Inv w rs ne).
  Proof.
    intros Hw. constructor.
    - exists []. split; [constructor|]. right. right. split; [reflexivity|]. left. apply buf_init_is.
    - auto.
    - intros b [o g] o' g' e (l & HF & H) Ha. destruct H as [[Hg H]|[(Hd & Hg & H)|[Hg H]]]; cbn in Hg, H; subst g.
      + unfold act in Ha. cbn [shuffle_buffer t_act sb_act fst snd] in Ha. destruct (size <=? buf_len w (sb_buf o)); [|discriminate].
        exact (sb_yield_post Hw HF H (or_introl eq_refl) Ha).
      + unfold act in Ha. cbn [shuffle_buffer t_act sb_act fst snd] in Ha. destruct (0 <? buf_len w (sb_buf o)) eqn:E.
        * exact (sb_yield_post Hw HF H (or_intror (conj eq_refl Hd)) Ha).
        * injection Ha as <- <- <-. cbn. destruct Hd as [Hd ->]. split; [exact Hd|]. split; [auto|].
          exists l. split; [exact HF|]. right. right. auto.
      + assert (X : exists b', buf_start rs w (sb_buf o) = Ok b' /\ buf_is w nw l b').
        { destruct H as [H|H]; [apply buf_start_is; exact H|apply buf_start_pending; auto]. }
        destruct X as (b' & E & H'). unfold act in Ha. cbn [shuffle_buffer t_act sb_act fst snd] in Ha. rewrite E in Ha. injection Ha as <- <- <-.
        exists l. split; [exact HF|]. left. auto.
    - intros b [o g] k r (l & HF & H) Ha HQ. destruct H as [[Hg H]|[(Hd & Hg & H)|[Hg H]]]; cbn in Hg, H; subst g.
      + unfold act in Ha. cbn [shuffle_buffer t_act sb_act fst snd] in Ha.
        destruct (size <=? buf_len w (sb_buf o)); [destruct (sb_yield_local w o SbLoop) as (? & ? & E); congruence|].
        injection Ha as <-. destruct r as [a|].
        * exists (l ++ [a]). split; [apply Forall_app; split; [exact HF|repeat constructor; apply HQ; reflexivity]|].
          left. split; [reflexivity|]. apply buf_append_is; auto.
        * exists l. split; [exact HF|]. right. left. auto.
      + unfold act in Ha. cbn [shuffle_buffer t_act sb_act fst snd] in Ha.
        destruct (0 <? buf_len w (sb_buf o)); [destruct (sb_yield_local w o SbDrain) as (? & ? & E); congruence|discriminate].
      + unfold act in Ha. cbn [shuffle_buffer t_act sb_act fst snd] in Ha. destruct (buf_start rs w (sb_buf o)); discriminate.
    - intros b [o g] o' g' _ Ha. exfalso. unfold act in Ha. destruct g; cbn [shuffle_buffer t_act sb_act fst snd] in Ha.
      + destruct (buf_start rs w (sb_buf o)); discriminate.
      + destruct (size <=? buf_len w (sb_buf o)); [|discriminate]. destruct (sb_yield_local w o SbLoop) as (? & ? & E); congruence.
      + destruct (0 <? buf_len w (sb_buf o)); [|discriminate]. destruct (sb_yield_local w o SbDrain) as (? & ? & E); congruence.
    - intros b [o g] sts (l & HF & H) Hl Hs. exists l. split; [exact HF|]. right. right. split; [reflexivity|]. right.
      cbn. apply buf_restore_pending with (b := sb_buf o).
      + destruct H as [[_ H]|[(_ & _ & H)|[_ H]]]; auto.
      + rewrite map_length. exact Hl.
      + exact (nth_error_map_some (option_map snd) Hs).
    - intros b [o g] _ _. exists []. split; [constructor|]. right. right. split; [reflexivity|]. left. apply buf_init_is.
  Qed.

  Lemma sb_ok_false w rs l x b : sb_ok w rs (true = false /\ b = true) l x -> sb_ok w rs False l x.
  Proof. intros [HF H]. split; [exact HF|]. intuition discriminate. Qed.

  Lemma shuffle_local_resumable rst : local_resumable T rst nw true true.
  Proof.
    intros w rs Hw.
    exists (sb_Inv w rs true), (sb_Inv w rs true),
      (fun _ x y => geff w (sb_rng (fst x)) = geff w (sb_rng (fst y)) /\
                    exists l, sb_ok w rs False l x /\ sb_ok w rs False l y).
    split; [|split].
    - eapply local_ok_weaken; [| |apply shuffle_local_ok; exact Hw]; auto.
    - intros b [[b1' r1] g1] [[b2' r2] g2] (Hg & l & H1 & H2). cbn [fst sb_rng] in Hg.
      destruct (sb_settle Hw H1) as (b1 & L1 & B1). destruct (sb_settle Hw H2) as (b2 & L2 & B2).
      cbn [fst sb_rng] in L1, L2.
      exists (mkSb b1 r1, SbLoop), (mkSb b2 r2, SbLoop).
      split; [exact L1|]. split; [exact L2|].
      destruct H1 as [HF _]. unfold act. cbn [shuffle_buffer t_act sb_act fst snd sb_buf sb_rng]. rewrite (buf_is_len B1), (buf_is_len B2).
      destruct (size <=? length l).
      + unfold sb_yield. cbn [sb_buf sb_rng]. rewrite (buf_is_len B1), (buf_is_len B2), (below_eff (length l) Hg).
        destruct (wrng_below w (length l) r2) as [i r].
        rewrite (buf_pop_is i B1), (buf_pop_is i B2). destruct (nth_error l i) as [a|]; cbn; [|reflexivity].
        split; [reflexivity|]. split; [reflexivity|]. exists (remove_at i l).
        split; (split; [apply remove_at_forall; exact HF|left; split; [reflexivity|eapply buf_set_is; eauto]]).
      + cbn. intros [a|] HQ; [|cbn in HQ; discriminate]. cbn.
        split; [exact Hg|]. exists (l ++ [a]).
        assert (HF' : Forall (fun a => rs (rk a) = Ok a) (l ++ [a])).
        { apply Forall_app. split; [exact HF|]. repeat constructor. apply HQ. reflexivity. }
        split; (split; [exact HF'|left; split; [reflexivity|apply buf_append_is; auto]]).
    - intros b [o g] sts (l & H) _ Hl Hs. apply sb_ok_false in H. cbn.
      split.
      + symmetry. apply geff_restore. exact (nth_error_map_some (option_map fst) Hs).
      + exists l. split; [exact H|]. destruct H as [HF H]. split; [exact HF|]. right. right. split; [reflexivity|]. right.
        apply buf_restore_pending with (b := sb_buf o).
        * destruct H as [[_ H]|[[[] _]|[_ H]]]; auto.
        * rewrite map_length. exact Hl.
        * exact (nth_error_map_some (option_map snd) Hs).
  Qed.

  Lemma shuffle_no_reset : no_reset T.
  Proof.
    intros rs w o g o' g' Ha. destruct g; cbn [shuffle_buffer t_act sb_act fst snd] in Ha.
    - destruct (buf_start rs w (sb_buf o)); discriminate.
    - destruct (size <=? buf_len w (sb_buf o)); [|discriminate]. unfold sb_yield in Ha.
      destruct (wrng_below _ _ _) as [i r']. destruct (buf_pop w i (sb_buf o)) as [[a b']|]; discriminate.
    - destruct (0 <? buf_len w (sb_buf o)); [|discriminate]. unfold sb_yield in Ha.
      destruct (wrng_below _ _ _) as [i r']. destruct (buf_pop w i (sb_buf o)) as [[a b']|]; discriminate.
  Qed.
End Shuffle.

Section ShuffleTrace.
  Context {A : Type} (R : rng_ops) (nw size w : nat) (D : dataset A).
  Hypothesis Hw : w < nw.
  Notation T := (shuffle_buffer (A := A) R nw size).
  Notation rs := (ds_restore_sample D w).

  Definition sb_full (xs ys : list (sample A)) : Prop := Permutation ys xs.
  (** [ys] came out, [rest] is in the buffer; and when the last of [ys] came out only the inner
      samples [x0] had been read, all but fewer than [size] of them having come out *)
  Definition sb_early (xs ys : list (sample A)) : Prop :=
    ys = [] \/ exists x0 x1 r0, xs = x0 ++ x1 /\ length r0 < size /\ Permutation x0 (ys ++ r0).
  Definition sb_part (xs ys : list (sample A)) : Prop :=
    (exists rest, length rest <= size /\ Permutation xs (ys ++ rest)) /\ sb_early xs ys.

  Definition sb_J (ins : list (option (sample A))) (outs : list (event (sample A))) (b : bool) (x : lst T) : Prop :=
    exists i o xs ys l,
      map inp ins = i ++ map Yield xs ++ (match snd x with SbDrain => [Done] | _ => [] end) /\
      outs = o ++ map Yield ys /\ per_epoch sb_full i o /\
      buf_is w nw l (sb_buf (fst x)) /\ length l <= size /\ Permutation xs (ys ++ l) /\ sb_early xs ys /\
      match snd x with SbDrain => b = true | SbStart => xs = [] /\ ys = [] /\ l = [] | SbLoop => True end.

  Lemma sb_yield_cases (o : t_obj T) g l : buf_is w nw l (sb_buf o) ->
    exists i r, wrng_below w (length l) (sb_rng o) = (i, r) /\
    ((exists a b', nth_error l i = Some a /\ buf_is w nw (remove_at i l) b' /\
       sb_yield (R := R) w o g = Local (mkSb b' r) g (Yield a)) \/
     (nth_error l i = None /\ exists o', sb_yield (R := R) w o g = Local o' g (Raise IndexError))).
  Proof.
    intros H. unfold sb_yield. rewrite (buf_is_len H).
    destruct (wrng_below w (length l) (sb_rng o)) as [i r]. exists i, r. split; [reflexivity|].
    rewrite (buf_pop_is i H). destruct (nth_error l i) as [a|] eqn:E.
    - left. exists a. eexists. split; [reflexivity|]. split; [|reflexivity]. eapply buf_set_is; eauto.
    - right. split; [reflexivity|]. eexists. reflexivity.
  Qed.

  Lemma perm_pop (xs ys l : list (sample A)) i a : nth_error l i = Some a -> Permutation xs (ys ++ l) ->
    Permutation xs ((ys ++ [a]) ++ remove_at i l).
  Proof.
    intros N P. rewrite P, <- app_assoc. apply Permutation_app_head. cbn. apply remove_at_perm. exact N.
  Qed.

  Lemma sb_early_now xs ys l i a : nth_error l i = Some a -> length l <= size -> Permutation xs (ys ++ l) ->
    sb_early xs (ys ++ [a]).
  Proof.
    intros N Hl P. right. exists xs, [], (remove_at i l). split; [symmetry; apply app_nil_r|].
    assert (L : i < length l) by (apply nth_error_Some; congruence). pose proof (remove_at_length L). split; [lia|].
    apply perm_pop; auto.
  Qed.

  Lemma sb_trace_ok : trace_ok D w sb_J.
  Proof.
    intros ins outs b [o g] (i & ou & xs & ys & l & E1 & E2 & PE & B & Hl & P & EA & Hg). cbn [fst snd] in *.
    destruct g; unfold act; cbn [shuffle_buffer t_act sb_act fst snd].
    - destruct (buf_start_is rs B) as (b' & E & B'). rewrite E. intros _. split; [exact I|].
      cbn [obs after]. rewrite app_nil_r. exists i, ou, xs, ys, l. cbn [fst snd sb_buf]. auto 12.
    - rewrite (buf_is_len B). destruct (size <=? length l) eqn:S.
      + destruct (sb_yield_cases SbLoop B) as (k & r & _ & [(a & b' & N & B' & ->)|(N & o' & ->)]).
        * intros _. split; [exact I|]. cbn [obs after]. 
          exists i, ou, xs, (ys ++ [a]), (remove_at k l). cbn [fst snd sb_buf].
          split; [exact E1|]. split; [rewrite map_Yield_snoc, app_assoc, <- E2; reflexivity|].
          split; [exact PE|]. split; [exact B'|].
          assert (L : k < length l) by (apply nth_error_Some; congruence).
          pose proof (remove_at_length L). split; [lia|]. split; [apply perm_pop; auto|].
          split; [eapply sb_early_now; eauto|exact I].
        * discriminate.
      + apply Nat.leb_gt in S. intros [a|] _; cbn [ev_of obs after is_none]; (split; [exact I|]); rewrite app_nil_r.
        * exists i, ou, (xs ++ [a]), ys, (l ++ [a]). cbn [fst snd sb_buf].
          split; [rewrite map_inp_snoc, E1, map_Yield_snoc, !app_nil_r, app_assoc; reflexivity|].
          split; [exact E2|]. split; [exact PE|]. split; [apply buf_append_is; auto|].
          split; [rewrite app_length; cbn; lia|]. split; [|split; [|exact I]].
          -- rewrite app_assoc. apply Permutation_app_tail. exact P.
          -- destruct EA as [->|(x0 & x1 & r0 & -> & Hr & Pr)]; [left; reflexivity|].
             right. exists x0, (x1 ++ [a]), r0. rewrite app_assoc. auto.
        * exists i, ou, xs, ys, l. cbn [fst snd sb_buf].
          split; [rewrite map_inp_snoc, E1, app_nil_r, <- app_assoc; reflexivity|]. auto 12.
    - destruct (0 <? buf_len w (sb_buf o)) eqn:S.
      + destruct (sb_yield_cases SbDrain B) as (k & r & _ & [(a & b' & N & B' & ->)|(N & o' & ->)]).
        * intros _. split; [exact I|]. cbn [obs after].
          exists i, ou, xs, (ys ++ [a]), (remove_at k l). cbn [fst snd sb_buf].
          split; [exact E1|]. split; [rewrite map_Yield_snoc, app_assoc, <- E2; reflexivity|].
          split; [exact PE|]. split; [exact B'|].
          assert (L : k < length l) by (apply nth_error_Some; congruence).
          pose proof (remove_at_length L). split; [lia|]. split; [apply perm_pop; auto|].
          split; [eapply sb_early_now; eauto|exact Hg].
        * discriminate.
      + intros _. rewrite (buf_is_len B) in S. destruct l; [|discriminate].
        split; [right; exact Hg|]. cbn [obs after].
        exists (i ++ epoch xs), (ou ++ epoch ys), [], [], []. cbn [fst snd sb_buf shuffle_buffer t_iter map].
        split; [rewrite E1; unfold epoch; cbn; rewrite !app_nil_r; reflexivity|].
        split; [rewrite E2; unfold epoch; rewrite app_nil_r, app_assoc; reflexivity|].
        split; [constructor; [exact PE|]; rewrite app_nil_r in P; exact (Permutation_sym P)|].
        split; [exact B|]. split; [cbn; lia|]. split; [constructor|]. split; [left; reflexivity|auto].
  Qed.

  Lemma sb_J_init : sb_J [] [] true (t_init T, t_iter T).
  Proof.
    exists [], [], [], [], []. cbn. repeat (split; [first [reflexivity|apply pe_nil|apply buf_init_is|left; reflexivity|lia]|]). auto.
  Qed.

  Lemma sb_J_epochwise ins outs b x : sb_J ins outs b x -> epochwise sb_full sb_part (map inp ins) outs.
  Proof.
    intros (i & o & xs & ys & l & E1 & E2 & PE & B & Hl & P & EA & Hg).
    exists i, o, xs, ys, (match snd x with SbDrain => [Done] | _ => [] end).
    split; [exact E1|]. split; [destruct (snd x); auto|]. split; [exact E2|]. split; [exact PE|].
    split; [exists l; auto|exact EA].
  Qed.

  Theorem shuffle_trace outs : clean outs -> emits (D := wrap T D) w (fresh (wrap T D)) outs ->
    exists ins, clean ins /\ emits w (fresh D) ins /\ epochwise sb_full sb_part ins outs.
  Proof.
    intros HC E.
    destruct (@wrap_trace _ _ T D w sb_J sb_trace_ok outs (fresh (wrap T D)) true HC sb_J_init
                (@fresh_it_ok _ _ T D true) E)
      as (ins & b & l & E1 & J1).
    exists (map inp ins). split.
    - apply Forall_forall. intros e He. apply in_map_iff in He as ([a|] & <- & _); exact I.
    - split; [exact E1|]. eapply sb_J_epochwise; eauto.
  Qed.

  Definition sb_mu (x : lst T) : nat :=
    match snd x with
    | SbStart => buf_len w (sb_buf (fst x)) + 2
    | SbLoop => buf_len w (sb_buf (fst x))
    | SbDrain => buf_len w (sb_buf (fst x)) + 3
    end.

  Lemma sb_progress : rng_ok R -> 0 < size -> trace_progress D w sb_J sb_mu.
  Proof.
    intros OK Hs ins outs b [o g] (i & ou & xs & ys & l & E1 & E2 & PE & B & Hl & P & EA & Hg). cbn [fst snd] in *.
    assert (YL : 0 < length l -> forall g, exists o' a, sb_yield (R := R) w o g = Local o' g (Yield a) /\
                  S (buf_len w (sb_buf o')) = length l).
    { intros Hp g0. destruct (sb_yield_cases g0 B) as (k & r & E & [(a & b' & N & B' & Y)|(N & _)]).
      - exists (mkSb b' r), a. split; [exact Y|]. cbn [sb_buf]. rewrite (buf_is_len B').
        apply remove_at_length. apply nth_error_Some. congruence.
      - exfalso. apply nth_error_None in N. pose proof (@below_lt R OK w (length l) (sb_rng o) Hp) as L.
        rewrite E in L. cbn in L. lia. }
    destruct g; unfold act; cbn [shuffle_buffer t_act sb_act fst snd].
    - destruct (buf_start_is rs B) as (b' & E & B'). rewrite E. split; [reflexivity|].
      unfold sb_mu. cbn [after fst snd sb_buf]. rewrite (buf_is_len B), (buf_is_len B'). lia.
    - rewrite (buf_is_len B). destruct (size <=? length l) eqn:S.
      + apply Nat.leb_le in S. destruct (YL ltac:(lia) SbLoop) as (o' & a & -> & Hlen).
        split; [reflexivity|]. unfold sb_mu. cbn [after fst snd]. rewrite (buf_is_len B). lia.
      + intros [a|]; reflexivity.
    - rewrite (buf_is_len B). destruct (0 <? length l) eqn:S.
      + apply Nat.ltb_lt in S. destruct (YL S SbDrain) as (o' & a & -> & Hlen).
        split; [reflexivity|]. unfold sb_mu. cbn [after fst snd]. rewrite (buf_is_len B). lia.
      + split; [reflexivity|]. unfold sb_mu. cbn [after fst snd shuffle_buffer t_iter]. lia.
  Qed.

  (** a complete inner epoch becomes a complete epoch *)
  Theorem shuffle_epoch xs : rng_ok R -> 0 < size -> produces w (fresh D) xs ->
    exists ys, produces (D := wrap T D) w (fresh (wrap T D)) ys /\ Permutation ys xs.
  Proof.
    intros OK Hs HP. unfold produces in *. change (map Yield xs ++ [Done]) with (epoch xs) in HP.
    rewrite <- inp_epoch in HP.
    destruct (@wrap_forward _ _ T D w sb_J sb_trace_ok sb_mu (sb_progress OK Hs) (fresh (wrap T D)) true _ sb_J_init
                (@fresh_it_ok _ _ T D true) HP)
      as (outs & b & [o g] & E & (i & ou & xs' & ys' & l & E1 & E2 & PE & B & Hl & P & EA & Hg) & Pu).
    rewrite inp_epoch in E1. cbn [fst snd] in *.
    assert (G : match g with SbDrain => [Done] | _ => [] end = @nil (event (sample A))).
    { destruct g; auto. exfalso. unfold pulls, act in Pu. cbn [shuffle_buffer t_act sb_act fst snd] in Pu.
      destruct (sb_yield_local w o SbDrain) as (? & ? & X). revert Pu. rewrite X.
      destruct (0 <? buf_len w (sb_buf o)); exact (fun x => x). }
    rewrite G, app_nil_r in E1. symmetry in E1.
    destruct (per_epoch_single PE E1) as (-> & ys & -> & F).
    apply Permutation_nil in P. apply app_eq_nil in P as [-> ->]. cbn in E2. rewrite app_nil_r in E2. subst outs.
    exists ys. split; [exact E|exact F].
  Qed.
End ShuffleTrace.
