(** Proofs about RandomFns.v *)
From Coq Require Import String.
From Verif Require Import Base Dataset DatasetProofs Wrap WrapProofs WrapRun WrapTrace WrapSpec WrapLib
  Wrappers MapModel Batch RandomFns.

Section Random.
  Context {V G : Type} (nw : nat) (seed : nat -> G) (P : rpipe V G).
  Notation T := (random_ds nw seed P).

  Lemma stages_not_done fs w : forall idx g (a : sample V) idx' g' , run_stages (G := G) fs w idx g a <> (Done, idx', g').
  Proof.
    induction fs as [|[f|p] fs IH]; intros idx g a idx' g'; cbn; [discriminate| |]; destruct idx as [|i idx]; try discriminate.
    - destruct (f g w i (pl a)) as [[b| | |] g1]; try discriminate.
      destruct (run_stages fs w idx g1 _) as [[e idx2] g2] eqn:E. intros H. injection H as -> _ _. eapply IH; exact E.
    - destruct (p g w i (pl a)) as [[[|]|x] g1]; try discriminate.
      destruct (run_stages fs w idx g1 _) as [[e idx2] g2] eqn:E. intros H. injection H as -> _ _. eapply IH; exact E.
  Qed.

  (** no batcher, or one that always returns a batch *)
  Definition batcher_ok : Prop := forall b, rp_batch P = Some b -> forall g w i l, exists y g', rb_fn b g w i l = (UOk y, g').
  (** nothing is left over when the inner dataset ends *)
  Definition no_rest (ne : bool) : Prop := ne = true \/ forall b, rp_batch P = Some b -> rb_drop b = true.

  (** what follows a pull: the loop, with nothing pending if a sample is delivered *)
  Lemma pull_cases ne rs w i g batch keys r : batcher_ok -> no_rest ne -> Qof ne false rs r ->
    (rp_batch P = None -> batch = [] /\ keys = []) ->
    match run_pull P w i g batch keys r with
    | (Yield _, _, _, pt) => pt = RLoop [] [] /\ r <> None
    | (Tau, _, _, pt) => r <> None /\ exists b k, pt = RLoop b k /\ (rp_batch P = None -> b = [] /\ k = [])
    | (Done, _, _, pt) => r = None /\ pt = REnd
    | _ => True
    end.
  Proof.
    intros HB HN HQ HP. unfold run_pull. destruct r as [a|].
    - destruct (run_stages (rp_pre P) w (ri_pre i) g a) as [[e idx] g1] eqn:E1.
      destruct e as [a'| | |x]; [|split; [discriminate|]; eauto|exfalso; eapply stages_not_done; exact E1|exact I].
      destruct (rp_batch P) as [b|] eqn:EB.
      + destruct (length (batch ++ [a']) =? rb_size b).
        * unfold run_flush. destruct (HB b EB g1 w (ri_batch (mkRidx idx (ri_batch i) (ri_post i))) (map pl (batch ++ [a']))) as (y & g2 & ->).
          unfold run_post. destruct (run_stages (rp_post P) w _ g2 _) as [[e idx2] g3] eqn:E2.
          destruct e as [a2| | |x]; [split; [reflexivity|discriminate]| |exfalso; eapply stages_not_done; exact E2|exact I].
          split; [discriminate|]. exists [], []. split; [reflexivity|]. auto.
        * split; [discriminate|]. eexists _, _. split; [reflexivity|]. discriminate.
      + unfold run_post. destruct (run_stages (rp_post P) w _ g1 _) as [[e idx2] g3] eqn:E2.
        destruct e as [a2| | |x]; [split; [reflexivity|discriminate]| |exfalso; eapply stages_not_done; exact E2|exact I].
        split; [discriminate|]. exists [], []. auto.
    - destruct (rp_batch P) as [b|] eqn:EB; [|auto].
      destruct HN as [->|HN]; [cbn in HQ; discriminate|]. rewrite (HN b EB), andb_false_r. auto.
  Qed.

  Definition rc_sized (o : rc_obj G) : Prop := length (rc_idx o) = nw /\ length (rc_rng o) = nw.

  Definition rc_Inv (b : bool) (x : lst T) : Prop :=
    rc_sized (fst x) /\ exists bt k, snd x = RLoop bt k /\ (rp_batch P = None -> bt = [] /\ k = []).
  Definition rc_Sav (b : bool) (x : lst T) : Prop := rc_sized (fst x) /\ snd x = RLoop [] [].

  Lemma rc_local_ok rst ne w rs : w < nw -> batcher_ok -> no_rest ne ->
    local_ok (T := T) rs w nw rst (Qof ne false rs) (fun _ => True) (ne = false) rc_Inv rc_Sav.
  Proof.
    intros Hw HB HN. constructor.
    - split; [split; apply repeat_length|reflexivity].
    - intros b [o pt] [H1 H2]. cbn [fst snd] in *. split; [exact H1|]. exists [], []. auto.
    - intros b [o pt] o' g' e [H1 (bt & k & H2 & H3)] Ha. cbn [fst snd] in *. subst pt. discriminate.
    - intros b [o pt] kk r [H1 (bt & k & H2 & H3)] Ha HQ. cbn [fst snd] in *. subst pt. unfold act in Ha. cbn in Ha. injection Ha as <-.
      pose proof (pull_cases w (nth w (rc_idx o) (ridx0 P)) (rc_gen seed w o) HB HN HQ H3) as C.
      destruct (run_pull P w _ _ bt k r) as [[[e i] g] pt]. cbn [rc_store].
      assert (Z : rc_sized (mkRc (upd (rc_idx o) w i) (upd (rc_rng o) w (Some g)))).
      { destruct H1. split; cbn; rewrite upd_length; assumption. }
      destruct e as [y| | |x]; cbn [post].
      + split; [exact I|]. split; [exact Z|]. apply C.
      + split; [exact Z|]. destruct C as (_ & b2 & k2 & -> & HE). cbn [snd]. eauto.
      + destruct C as [-> _]. cbn in HQ. split; [exact HQ|]. split; [right; reflexivity|]. split; [exact Z|reflexivity].
      + exact I.
    - intros b [o pt] o' g' [H1 (bt & k & H2 & H3)] Ha. cbn [fst snd] in *. subst pt. discriminate.
    - intros b [o pt] sts _ Hl Hs. split; [|reflexivity]. split; cbn; rewrite map_length; exact Hl.
    - intros b [o pt] _ [[H1 H2] H3]. split; [|reflexivity]. split; cbn; [apply repeat_length|exact H2].
  Qed.

  Lemma random_local_resumable rst ne : batcher_ok -> no_rest ne -> local_resumable T rst nw ne false.
  Proof.
    intros HB HN w rs Hw.
    exists rc_Inv, rc_Sav,
      (fun _ x y => rc_sized (fst x) /\ rc_sized (fst y) /\ nth w (rc_idx (fst x)) (ridx0 P) = nth w (rc_idx (fst y)) (ridx0 P) /\
         rc_gen seed w (fst x) = rc_gen seed w (fst y) /\ snd x = snd y /\
         exists bt k, snd x = RLoop bt k /\ (rp_batch P = None -> bt = [] /\ k = [])).
    split; [|split].
    - eapply local_ok_weaken; [| |apply rc_local_ok; eauto]; auto.
    - intros b [o1 p1] [o2 p2] (Z1 & Z2 & EI & EG & EP & bt & k & E1 & E2). cbn [fst snd] in *. subst p2. subst p1.
      exists (o1, RLoop bt k), (o2, RLoop bt k). split; [constructor|]. split; [constructor|].
      unfold act. cbn [random_ds t_act fst snd amatch]. intros r HQ. rewrite EI, EG.
      pose proof (pull_cases w (nth w (rc_idx o2) (ridx0 P)) (rc_gen seed w o2) HB HN HQ E2) as C.
      destruct (run_pull P w _ _ bt k r) as [[[e i] g] pt]. cbn [rc_store].
      assert (M : forall o, rc_sized o -> rc_sized (mkRc (upd (rc_idx o) w i) (upd (rc_rng o) w (Some g))) /\
                nth w (upd (rc_idx o) w i) (ridx0 P) = i /\ nth w (upd (rc_rng o) w (Some g)) None = Some g).
      { intros o [L1 L2]. split; [split; cbn; rewrite upd_length; assumption|]. rewrite !nth_upd_same by lia. auto. }
      destruct (M _ Z1) as (A1 & A2 & A3). destruct (M _ Z2) as (B1 & B2 & B3).
      assert (LL : forall pt' : rc_pt V, (exists bt k, pt' = RLoop bt k /\ (rp_batch P = None -> bt = [] /\ k = [])) ->
         rc_sized (mkRc (upd (rc_idx o1) w i) (upd (rc_rng o1) w (Some g))) /\ rc_sized (mkRc (upd (rc_idx o2) w i) (upd (rc_rng o2) w (Some g))) /\
         nth w (upd (rc_idx o1) w i) (ridx0 P) = nth w (upd (rc_idx o2) w i) (ridx0 P) /\
         rc_gen seed w (mkRc (upd (rc_idx o1) w i) (upd (rc_rng o1) w (Some g))) = rc_gen seed w (mkRc (upd (rc_idx o2) w i) (upd (rc_rng o2) w (Some g))) /\
         pt' = pt' /\ exists bt k, pt' = RLoop bt k /\ (rp_batch P = None -> bt = [] /\ k = [])).
      { intros pt' HP. split; [exact A1|]. split; [exact B1|]. rewrite A2, B2. split; [reflexivity|].
        unfold rc_gen. cbn [rc_rng]. rewrite A3, B3. auto. }
      destruct e as [y| | |x]; cbn [ematch fst snd rc_idx].
      + split; [reflexivity|]. apply LL. destruct C as [-> _]. exists [], []. auto.
      + apply LL. apply C.
      + destruct C as [-> _]. split; [right; reflexivity|]. apply (LL (RLoop [] [])). exists [], []. auto.
      + reflexivity.
    - intros b [o pt] sts [Z HS] _ Hl Hs. cbn [fst snd] in *. subst pt.
      split; [exact Z|]. cbn [random_ds t_save t_merge t_restore t_init t_iter] in *. cbn [fst snd rc_idx].
      split; [split; cbn; rewrite map_length; exact Hl|].
      split. { erewrite (nth_error_nth (map _ sts)); [reflexivity|]. rewrite nth_error_map, Hs. reflexivity. }
      split. { unfold rc_gen at 2. cbn [rc_rng]. erewrite (nth_error_nth (map _ sts)); [|rewrite nth_error_map, Hs; reflexivity]. reflexivity. }
      split; [reflexivity|]. exists [], []. auto.
  Qed.

  Lemma random_no_reset : no_reset T.
  Proof. intros rs w o pt o' pt' H. cbn in H. destruct pt; discriminate. Qed.

End Random.

(** two processes with different seeds behave alike once the generators have been restored *)
Section Seeds.
  Context {V G : Type} (nw : nat) (s1 s2 : nat -> G) (P : rpipe V G) (D : dataset V) (w : nat).
  Notation W1 := (wrap (random_ds nw s1 P) D).
  Notation W2 := (wrap (random_ds nw s2 P) D).
  Hypothesis Hw : w < nw.

  Definition twins (x : st W1) (y : st W2) : Prop :=
    w_loc (fst x) = w_loc (fst y) /\ w_in (fst x) = w_in (fst y) /\ w_it (fst x) = w_it (fst y) /\ snd x = snd y /\
    length (rc_rng (w_loc (fst x))) = nw /\ exists g, nth w (rc_rng (w_loc (fst x))) None = Some g.

  Lemma twins_nextn n : forall x y, twins x y ->
    match nextn (D := W1) w n x, nextn (D := W2) w n y with
    | None, None => True
    | Some (e1, x'), Some (e2, y') => e1 = e2 /\ twins x' y'
    | _, _ => False
    end.
  Proof.
    induction n as [|n IH]; intros [[ox ix tx] px] [[oy iy ty] py] (E1 & E2 & E3 & E4 & HL & g & HG); cbn [fst snd w_loc w_in w_it] in *; subst oy iy ty py; [exact I|].
    cbn [nextn fst snd]. cbn [wrap ds_step]. unfold wrap_step. cbn [random_ds t_act w_loc w_in w_it].
    destruct px as [bt k|].
    - destruct (ds_step D w ix (cur_it tx)) as [[io ig] e].
      assert (GE : rc_gen s2 w ox = rc_gen s1 w ox) by (unfold rc_gen; rewrite HG; reflexivity).
      destruct e as [a| | |e].
      + rewrite GE. destruct (run_pull P w _ (rc_gen s1 w ox) bt k (Some a)) as [[[e i] g'] pt]. cbn [rc_store].
        assert (TW : forall it, twins (mkW (T := random_ds nw s1 P) (mkRc (upd (rc_idx ox) w i) (upd (rc_rng ox) w (Some g')) : t_obj (random_ds nw s1 P)) io it, pt : t_gen (random_ds nw s1 P))
                        (mkW (T := random_ds nw s2 P) (mkRc (upd (rc_idx ox) w i) (upd (rc_rng ox) w (Some g')) : t_obj (random_ds nw s2 P)) io it, pt : t_gen (random_ds nw s2 P))).
        { intros it. split; [reflexivity|]. split; [reflexivity|]. split; [reflexivity|]. split; [reflexivity|]. cbn [fst w_loc rc_rng].
          rewrite upd_length, nth_upd_same by lia. eauto. }
        destruct e as [y| | |e]; [|apply (IH _ _ (TW _))| |]; cbn [drop_it]; split; try reflexivity; apply TW.
      + apply IH. split; [reflexivity|]. split; [reflexivity|]. split; [reflexivity|]. split; [reflexivity|]. cbn [fst w_loc]. eauto.
      + rewrite GE. destruct (run_pull P w _ (rc_gen s1 w ox) bt k None) as [[[e i] g'] pt]. cbn [rc_store].
        assert (TW : forall it, twins (mkW (T := random_ds nw s1 P) (mkRc (upd (rc_idx ox) w i) (upd (rc_rng ox) w (Some g')) : t_obj (random_ds nw s1 P)) io it, pt : t_gen (random_ds nw s1 P))
                        (mkW (T := random_ds nw s2 P) (mkRc (upd (rc_idx ox) w i) (upd (rc_rng ox) w (Some g')) : t_obj (random_ds nw s2 P)) io it, pt : t_gen (random_ds nw s2 P))).
        { intros it. split; [reflexivity|]. split; [reflexivity|]. split; [reflexivity|]. split; [reflexivity|]. cbn [fst w_loc rc_rng].
          rewrite upd_length, nth_upd_same by lia. eauto. }
        destruct e as [y| | |e]; [|apply (IH _ _ (TW _))| |]; cbn [drop_it]; split; try reflexivity; apply TW.
      + split; [reflexivity|]. split; [reflexivity|]. split; [reflexivity|]. split; [reflexivity|]. split; [reflexivity|]. cbn [fst w_loc]. eauto.
    - split; [reflexivity|]. split; [reflexivity|]. split; [reflexivity|]. split; [reflexivity|]. split; [reflexivity|]. cbn [fst w_loc]. eauto.
  Qed.

  Lemma twins_done x y : twins x y -> twins (fst x, ds_iter W1) (fst y, ds_iter W2).
  Proof. intros (E1 & E2 & E3 & E4 & HL & HG). split; [exact E1|]. split; [exact E2|]. split; [exact E3|]. split; [reflexivity|]. auto. Qed.

  Lemma twins_emits x y l : twins x y -> emits (D := W1) w x l -> emits (D := W2) w y l.
  Proof.
    intros H E. revert y H. induction E as [s|s a s' l [n N] E IH|s s' l [n N] E IH|s e s' [n N]]; intros y H.
    - constructor.
    - pose proof (twins_nextn n H) as X. rewrite N in X. destruct (nextn (D := W2) w n y) as [[e2 y']|] eqn:N2; [|contradiction].
      destruct X as [<- X]. eapply em_yield; [exists n; exact N2|]. apply IH. exact X.
    - pose proof (twins_nextn n H) as X. rewrite N in X. destruct (nextn (D := W2) w n y) as [[e2 y']|] eqn:N2; [|contradiction].
      destruct X as [<- X]. eapply em_done; [exists n; exact N2|]. apply IH. apply twins_done. exact X.
    - pose proof (twins_nextn n H) as X. rewrite N in X. destruct (nextn (D := W2) w n y) as [[e2 y']|] eqn:N2; [|contradiction].
      destruct X as [<- X]. eapply em_raise. exists n; exact N2.
  Qed.
End Seeds.

(** *** what comes out *)
Section Trace.
  Context {V G : Type} (nw : nat) (seed : nat -> G) (P : rpipe V G) (D : dataset V) (w : nat).
  Notation T := (random_ds nw seed P).
  Hypothesis Hw : w < nw.
  Hypothesis HB : batcher_ok P.
  Hypothesis HN : no_rest P false.

  Definition rc_here (pt : rc_pt V) : list (sample V) * list rkey := match pt with RLoop b k => (b, k) | REnd => ([], []) end.

  (** the events caused by the inner results [ins], and the state they leave *)
  Fixpoint rc_fold (i : ridx) (g : G) (b : list (sample V)) (k : list rkey) (ins : list (option (sample V)))
      : list (event (sample V)) * (ridx * G * (list (sample V) * list rkey)) :=
    match ins with
    | [] => ([], (i, g, (b, k)))
    | r :: ins' =>
        let '(e, i', g', pt) := run_pull P w i g b k r in
        let '(es, st) := rc_fold i' g' (fst (rc_here pt)) (snd (rc_here pt)) ins' in
        (obs e ++ es, st)
    end.

  Lemma rc_fold_app l1 l2 : forall i g b k, rc_fold i g b k (l1 ++ l2) =
    let '(es, (i', g', (b', k'))) := rc_fold i g b k l1 in
    let '(es2, st) := rc_fold i' g' b' k' l2 in (es ++ es2, st).
  Proof.
    induction l1 as [|r l1 IH]; intros i g b k; cbn [rc_fold app].
    - destruct (rc_fold i g b k l2) as [es st]. reflexivity.
    - destruct (run_pull P w i g b k r) as [[[e i'] g'] pt]. rewrite IH.
      destruct (rc_fold i' g' (fst (rc_here pt)) (snd (rc_here pt)) l1) as [es [[i2 g2] [b2 k2]]].
      destruct (rc_fold i2 g2 b2 k2 l2) as [es2 st]. rewrite app_assoc. reflexivity.
  Qed.

  Definition rc_J (ins : list (option (sample V))) (outs : list (event (sample V))) (b : bool) (x : lst T) : Prop :=
    rc_sized nw (fst x) /\ exists bt k, snd x = RLoop bt k /\ (rp_batch P = None -> bt = [] /\ k = []) /\
      rc_fold (ridx0 P) (seed w) [] [] ins = (outs, (nth w (rc_idx (fst x)) (ridx0 P), rc_gen seed w (fst x), (bt, k))).

  Lemma rc_trace_ok : trace_ok D w rc_J.
  Proof.
    intros ins outs b [o pt] (Z & bt & k & EQ & EP & E). cbn [fst snd] in *. subst pt. unfold act. cbn [fst snd random_ds t_act] in *.
    intros r Hr.
    assert (HQ : Qof false false (ds_restore_sample D w) r) by (destruct r; cbn; auto; discriminate).
    pose proof (pull_cases w (nth w (rc_idx o) (ridx0 P)) (rc_gen seed w o) HB HN HQ EP) as C.
    set (ii := nth w (rc_idx o) (ridx0 P)) in *. set (gg := rc_gen seed w o) in *.
    assert (F : rc_fold (ridx0 P) (seed w) [] [] (ins ++ [r]) =
       let '(e, i', g', p') := run_pull P w ii gg bt k r in (outs ++ obs e, (i', g', rc_here p'))).
    { rewrite rc_fold_app, E. cbn [rc_fold]. destruct (run_pull P w ii gg bt k r) as [[[e i'] g'] p'].
      rewrite app_nil_r. destruct (rc_here p'); reflexivity. }
    clearbody ii gg. destruct (run_pull P w ii gg bt k r) as [[[e i] g] p']. cbn [rc_store ev_of] in *.
    assert (N1 : nth w (upd (rc_idx o) w i) (ridx0 P) = i) by (destruct Z; apply nth_upd_same; lia).
    assert (N2 : rc_gen seed w (mkRc (upd (rc_idx o) w i) (upd (rc_rng o) w (Some g))) = g).
    { unfold rc_gen. cbn [rc_rng]. destruct Z. rewrite nth_upd_same by lia. reflexivity. }
    assert (Z' : rc_sized nw (mkRc (upd (rc_idx o) w i) (upd (rc_rng o) w (Some g)))).
    { destruct Z. split; cbn; rewrite upd_length; assumption. }
    destruct e as [y| | |x]; [| | |discriminate Hr]; cbn [after done_ok obs] in *.
    - split; [exact I|]. split; [exact Z'|]. destruct C as [-> _]. exists [], []. split; [reflexivity|]. split; [auto|].
      cbn [fst snd rc_idx]. rewrite N1, N2, F. reflexivity.
    - split; [exact I|]. split; [exact Z'|]. destruct C as (_ & b2 & k2 & -> & HE). exists b2, k2. split; [reflexivity|]. split; [exact HE|].
      cbn [fst snd rc_idx]. rewrite N1, N2, F. reflexivity.
    - destruct C as [-> ->]. split; [right; reflexivity|]. split; [exact Z'|]. exists [], []. split; [reflexivity|]. split; [auto|].
      cbn [fst snd rc_idx]. rewrite N1, N2, F. reflexivity.
  Qed.

  Lemma nth_rep {X} (d x : X) : forall n k, k < n -> nth k (repeat x n) d = x.
  Proof. induction n as [|n IH]; intros [|k] H; cbn; try lia; auto. apply IH. lia. Qed.

  Lemma rc_J_init : rc_J [] [] true (t_init T, t_iter T).
  Proof.
    split; [split; apply repeat_length|]. exists [], []. split; [reflexivity|]. split; [auto|].
    cbn. rewrite nth_rep by exact Hw. unfold rc_gen. cbn [rc_rng]. rewrite nth_rep by exact Hw. reflexivity.
  Qed.

  (** everything that is emitted comes from what the inner dataset emits *)
  Lemma rc_trace outs : clean outs -> emits (D := wrap T D) w (fresh (wrap T D)) outs ->
    exists ins, emits w (fresh D) (map inp ins) /\ outs = fst (rc_fold (ridx0 P) (seed w) [] [] ins).
  Proof.
    intros HC E.
    destruct (@wrap_trace _ _ T D w rc_J rc_trace_ok outs (fresh (wrap T D)) true HC rc_J_init
                (@fresh_it_ok _ _ T D true) E) as (ins & b & l & E1 & (_ & bt & k & _ & _ & J1)).
    exists ins. split; [exact E1|]. rewrite J1. reflexivity.
  Qed.

  Lemma rc_forward ins : (forall i g b k r, is_raise (fst (fst (fst (run_pull P w i g b k r)))) = false) ->
    emits w (fresh D) (map inp ins) ->
    emits (D := wrap T D) w (fresh (wrap T D)) (fst (rc_fold (ridx0 P) (seed w) [] [] ins)).
  Proof.
    intros HR E.
    assert (PR : trace_progress D w rc_J (fun _ => 0)).
    { intros i o b [oo pt] (_ & bt & k & EQ & _). cbn [snd] in EQ. subst pt. unfold act. cbn [random_ds t_act fst snd]. intros r.
      specialize (HR (nth w (rc_idx oo) (ridx0 P)) (rc_gen seed w oo) bt k r).
      destruct (run_pull P w _ _ bt k r) as [[[e i'] g'] pt]. exact HR. }
    destruct (@wrap_forward _ _ T D w rc_J rc_trace_ok _ PR (fresh (wrap T D)) true ins rc_J_init
                (@fresh_it_ok _ _ T D true) E) as (outs & b & l & E1 & (_ & bt & k & _ & _ & J1) & _).
    rewrite J1. exact E1.
  Qed.
End Trace.
