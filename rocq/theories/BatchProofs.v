(** BatchDataset with a plain batcher. *)
From Coq Require Import String.
From Verif Require Import Base Dataset DatasetProofs Wrap WrapProofs WrapRun WrapTrace WrapSpec WrapLib
  Wrappers MapModel IdxProofs Batch BatchSpec.
Local Open Scope nat_scope.
Local Open Scope list_scope.

Lemma sequence_map_ok {X Y} (g : X -> result Y) (h : X -> Y) l : (forall x, In x l -> g x = Ok (h x)) -> sequence (map g l) = Ok (map h l).
Proof.
  induction l as [|x l IH]; intros H; [reflexivity|]. cbn. rewrite H by (left; reflexivity). rewrite IH by (intros; apply H; right; assumption). reflexivity.
Qed.

Lemma restore_all_ok {A} (rs : rkey -> result (sample A)) l : Forall (fun a => rs (rk a) = Ok a) l ->
  restore_all rs (map ATup (map rk l)) = Ok l.
Proof.
  intros F. unfold restore_all. rewrite !map_map. rewrite <- (map_id l) at 2. apply sequence_map_ok.
  rewrite Forall_forall in F. exact F.
Qed.

Section Batch.
  Context {A B : Type} (nw size : nat) (drop_last : bool) (f : nat -> nat -> list A -> ures B).
  Notation T := (batch_ds nw size drop_last f).

  Lemma bt_no_reset : no_reset T.
  Proof. intros rs w o g o' g'. destruct g; discriminate. Qed.

  (** *** resuming, restore keys *)
  Section Local.
    Hypothesis Hok : forall w i l, exists b, f w i l = UOk b.

    Definition bt_Inv (rs : rkey -> result (sample A)) (nr : bool) (b : bool) (x : lst T) : Prop :=
      length (fst x) = nw /\
      match snd x with
      | BLoop batch keys => keys = map rk batch /\ (nr = true -> Forall (fun a => rs (rk a) = Ok a) batch)
      | BEnd => b = true
      end.
    Definition bt_Sav rs nr (b : bool) (x : lst T) : Prop :=
      bt_Inv rs nr b x /\ match snd x with BLoop batch _ => batch = [] | BEnd => drop_last = false end.

    Lemma bt_local_ok rst ne nr w rs : w < nw ->
      local_ok (T := T) rs w nw rst (Qof ne nr rs) (fun y => nr = true -> t_restore_sample T rs w (rk y) = Ok y) (ne = false)
        (fun b x => bt_Inv rs nr b x /\ (snd x = BEnd -> ne = false /\ drop_last = false))
        (fun b x => bt_Sav rs nr b x /\ (snd x = BEnd -> ne = false)).
    Proof.
      intros Hw.
      assert (FL : forall o batch keys next, length o = nw -> keys = map rk batch -> (nr = true -> Forall (fun a => rs (rk a) = Ok a) batch) ->
        exists b i, bt_flush f w o batch keys next = (upd o w (S (nth w o 0)), next [], Yield (mkS b (batch_key i keys))) /\
          (nr = true -> t_restore_sample T rs w (batch_key i keys) = Ok (mkS b (batch_key i keys)))).
      { intros o batch keys next Ho -> HF. unfold bt_flush. destruct (Hok w (nth w o 0) (map pl batch)) as [b E]. rewrite E.
        exists b, (nth w o 0). split; [reflexivity|]. intros Hr. unfold batch_key, batch_name. cbn [batch_ds t_restore_sample].
        change (String.eqb "BatchDataset" "BatchDataset") with true. cbn iota. rewrite (restore_all_ok (HF Hr)). cbn [bind]. rewrite E. reflexivity. }
      constructor.
      - split; [|discriminate]. split; [|reflexivity]. split; [apply repeat_length|]. split; [reflexivity|]. constructor.
      - intros b [o g] [[H1 H2] H3]. split; [exact H1|]. intros E. cbn [snd] in *. rewrite E in H2. auto.
      - intros b [o g] o' g' e [[HL HP] HE] Ha. unfold act in Ha. destruct g as [batch keys|]; [discriminate|]. cbn in Ha. injection Ha as <- <- <-.
        cbn [fst snd] in *. destruct (HE eq_refl) as [H1 H2]. cbn [post]. split; [exact H1|]. split; [auto|]. split; [|discriminate].
        split; [|reflexivity]. split; [exact HL|]. split; [reflexivity|]. constructor.
      - intros b [o g] k r [[HL HP] HE] Ha HQ. unfold act in Ha. destruct g as [batch keys|]; [|discriminate]. cbn [batch_ds t_act fst snd] in Ha. injection Ha as <-.
        cbn [fst snd] in *. destruct HP as [HK HF]. destruct r as [a|]; cbn [is_none].
        + assert (HF' : nr = true -> Forall (fun a => rs (rk a) = Ok a) (batch ++ [a])).
          { intros Hr. apply Forall_app. split; [auto|]. repeat constructor. apply HQ, Hr. }
          assert (HK' : keys ++ [rk a] = map rk (batch ++ [a])) by (rewrite map_app, HK; reflexivity).
          destruct (length (batch ++ [a]) =? size).
          * destruct (@FL o (batch ++ [a]) _ (fun k => BLoop [] k) HL HK' HF') as (b0 & i & -> & R). cbn [post]. split; [exact R|].
            split; [|discriminate]. split; [|reflexivity]. split; [cbn; rewrite upd_length; exact HL|]. split; [reflexivity|constructor].
          * cbn [post]. split; [|discriminate]. split; [exact HL|]. split; [exact HK'|exact HF'].
        + destruct ((0 <? length batch) && negb drop_last) eqn:C.
          * destruct (@FL o batch _ (fun _ => BEnd) HL HK HF) as (b0 & i & -> & R). cbn [post]. split; [exact R|].
            apply andb_true_iff in C. destruct C as [_ C]. apply negb_true_iff in C.
            split; [|intros _; exact HQ]. split; [|exact C]. split; [cbn; rewrite upd_length; exact HL|reflexivity].
          * cbn [post]. split; [exact HQ|]. split; [auto|]. split; [|discriminate]. split; [|reflexivity]. split; [exact HL|]. split; [reflexivity|constructor].
      - intros b [o g] o' g' _ Ha. exfalso. eapply bt_no_reset; exact Ha.
      - intros b [o g] sts _ Hl Hs. split; [|discriminate]. split; [|reflexivity]. split; [cbn; rewrite merge_nat_length; exact Hl|]. split; [reflexivity|constructor].
      - intros b [o g] _ _. split; [|discriminate]. split; [|reflexivity]. split; [apply repeat_length|]. split; [reflexivity|constructor].
    Qed.

    Lemma bt_restores rst ne : local_yields T rst nw ne true
      (fun rs w y => t_restore_sample T rs w (rk y) = Ok y) (ne = false).
    Proof.
      intros w rs Hw. eexists _, _. eapply local_ok_weaken; [| |apply bt_local_ok; exact Hw]; cbn; auto.
    Qed.

    (** over an endless dataset, or if incomplete batches are dropped *)
    Lemma bt_local_resumable rst ne : ne = true \/ drop_last = true -> local_resumable T rst nw ne false.
    Proof.
      intros HD w rs Hw.
      exists (fun b x => bt_Inv rs false b x /\ (snd x = BEnd -> ne = false /\ drop_last = false)),
             (fun b x => bt_Sav rs false b x /\ (snd x = BEnd -> ne = false)),
             (fun _ x y => length (fst x) = nw /\ length (fst y) = nw /\ nth w (fst x) 0 = nth w (fst y) 0 /\ snd x = snd y /\ exists b k, snd x = BLoop b k).
      split; [|split].
      - eapply local_ok_weaken; [| |apply bt_local_ok; exact Hw]; auto.
      - intros b [o1 g1] [o2 g2] (H1 & H2 & E & EG & batch & keys & EB). cbn [fst snd] in *. subst g2. subst g1.
        exists (o1, BLoop batch keys), (o2, BLoop batch keys). split; [constructor|]. split; [constructor|].
        assert (FL : forall k bt (nx : list rkey -> bt_gen), (exists b k', nx [] = BLoop b k') ->
           ematch (T := T) (fun _ x y => length (fst x) = nw /\ length (fst y) = nw /\ nth w (fst x) 0 = nth w (fst y) 0 /\ snd x = snd y /\ exists b k, snd x = BLoop b k)
             false (bt_flush f w o1 bt k nx) (bt_flush f w o2 bt k nx)).
        { intros k bt nx HN. unfold bt_flush. rewrite E. destruct (Hok w (nth w o2 0) (map pl bt)) as [y ->]. cbn [ematch fst snd].
          split; [reflexivity|]. rewrite !upd_length, !nth_upd_same by lia. auto 10. }
        unfold act. cbn [batch_ds t_act fst snd amatch]. intros [a|] HQ; cbn [is_none].
        + destruct (length (batch ++ [a]) =? size); [apply FL; eauto|]. cbn [ematch fst snd]. repeat (split; [first [exact H1|exact H2|exact E|reflexivity]|]). eauto.
        + destruct HD as [->|HD]; [cbn in HQ; discriminate|]. rewrite HD, andb_false_r. cbn [ematch]. split; [auto|]. cbn. eauto 10.
      - intros b [o g] sts [[[HL HP] HS] HE] _ Hl Hs. cbn [fst snd] in *. split; [exact HL|].
        split; [cbn; rewrite merge_nat_length; exact Hl|]. split; [symmetry; apply merge_nat_nth; exact Hs|].
        destruct g as [batch keys|].
        + destruct HP as [HK _]. subst batch. subst keys. cbn. eauto.
        + destruct HD as [->|HD]; [discriminate (HE eq_refl)|congruence].
    Qed.
  End Local.

  (** *** what comes out *)
  Fixpoint bt_events (w i : nat) (buf : list (sample A)) (keys : list rkey) (l : list (event (sample A))) : list (event (sample B)) :=
    match l with
    | [] => []
    | Yield a :: l' =>
        if length (buf ++ [a]) =? size then
          match f w i (map pl (buf ++ [a])) with
          | UOk b => Yield (mkS b (batch_key i (keys ++ [rk a]))) :: bt_events w (S i) [] [] l'
          | _ => bt_events w (S i) [] (keys ++ [rk a]) l'
          end
        else bt_events w i (buf ++ [a]) (keys ++ [rk a]) l'
    | Done :: l' =>
        if (0 <? length buf) && negb drop_last then
          match f w i (map pl buf) with
          | UOk b => Yield (mkS b (batch_key i keys)) :: Done :: bt_events w (S i) [] [] l'
          | _ => Done :: bt_events w (S i) [] [] l'
          end
        else Done :: bt_events w i [] [] l'
    | _ :: l' => bt_events w i buf keys l'
    end.

  Section Trace.
    Variables (D : dataset A) (w : nat).
    Hypothesis Hw : w < nw.

    Definition bt_rest (x : lst T) (rest : list (event (sample A))) : list (event (sample B)) :=
      match snd x with
      | BLoop batch keys => bt_events w (nth w (fst x) 0) batch keys rest
      | BEnd => Done :: bt_events w (nth w (fst x) 0) [] [] rest
      end.
    Definition bt_J (ins : list (option (sample A))) (outs : list (event (sample B))) (b : bool) (x : lst T) : Prop :=
      length (fst x) = nw /\ (snd x = BEnd -> b = true) /\
      forall rest, bt_events w 0 [] [] (map inp ins ++ rest) = outs ++ bt_rest x rest.

    Lemma bt_trace_ok : trace_ok D w bt_J.
    Proof.
      intros ins outs b [o g] (HL & HB & HE). cbn [fst snd] in *. unfold act. destruct g as [batch keys|]; cbn [batch_ds t_act fst snd].
      - intros r Hr.
        assert (HE' : forall rest, bt_events w 0 [] [] (map inp (ins ++ [r]) ++ rest) = outs ++ bt_events w (nth w o 0) batch keys (inp r :: rest)).
        { intros rest. rewrite map_inp_snoc, <- app_assoc. cbn [app]. rewrite HE. reflexivity. }
        destruct r as [a|]; cbn [is_none inp bt_events] in *.
        + destruct (length (batch ++ [a]) =? size).
          * unfold bt_flush in *. destruct (f w (nth w o 0) (map pl (batch ++ [a]))) as [y| | |]; cbn [ev_of is_raise snd] in *; try discriminate;
              cbn [done_ok obs after fst snd]; (split; [exact I|]); (split; [cbn; rewrite upd_length; exact HL|]); (split; [discriminate|]);
              intros rest; rewrite HE'; cbn [bt_rest fst snd app]; rewrite nth_upd_same by lia; rewrite ?app_nil_r; rewrite <- ?app_assoc; reflexivity.
          * cbn [ev_of snd done_ok obs after fst]. split; [exact I|]. split; [exact HL|]. split; [discriminate|]. intros rest. rewrite HE', app_nil_r. reflexivity.
        + destruct ((0 <? length batch) && negb drop_last).
          * unfold bt_flush in *. destruct (f w (nth w o 0) (map pl batch)) as [y| | |]; cbn [ev_of is_raise snd] in *; try discriminate;
              cbn [done_ok obs after fst snd]; (split; [exact I|]); (split; [cbn; rewrite upd_length; exact HL|]); (split; [reflexivity|]);
              intros rest; rewrite HE'; cbn [bt_rest fst snd app]; rewrite nth_upd_same by lia; rewrite ?app_nil_r; rewrite <- ?app_assoc; reflexivity.
          * cbn [ev_of snd done_ok obs after fst]. split; [right; reflexivity|]. split; [exact HL|]. split; [discriminate|]. intros rest. rewrite HE', <- app_assoc. reflexivity.
      - intros _. split; [right; apply HB; reflexivity|]. split; [exact HL|]. split; [discriminate|].
        intros rest. rewrite HE. cbn [bt_rest snd fst after obs batch_ds t_iter]. rewrite <- app_assoc. reflexivity.
    Qed.

    Lemma bt_J_init : bt_J [] [] true (t_init T, t_iter T).
    Proof.
      split; [apply repeat_length|]. split; [discriminate|]. intros rest. cbn [map app bt_rest fst snd batch_ds t_init t_iter].
      replace (nth w (repeat 0 nw) 0) with 0; [reflexivity|]. clear. revert w. induction nw as [|n IH]; intros [|w]; cbn; auto.
    Qed.

    Theorem bt_forward ins : (forall w i l, f w i l <> UFatal) -> clean ins -> emits w (fresh D) ins ->
      emits w (fresh (wrap T D)) (bt_events w 0 [] [] ins).
    Proof.
      intros HR HC E. destruct (clean_inp HC) as (ins' & ->).
      assert (NF : forall o bt k nx, is_raise (ev_of (T := T) (bt_flush f w o bt k nx)) = false).
      { intros. unfold bt_flush. specialize (HR w (nth w o 0) (map pl bt)). destruct (f w (nth w o 0) (map pl bt)); try reflexivity. congruence. }
      assert (P : trace_progress D w bt_J (fun x => match snd x with BEnd => 1 | _ => 0 end)).
      { intros i o b [oo gg] _. unfold act. destruct gg as [batch keys|]; cbn [batch_ds t_act fst snd].
        - intros [a|]; cbn [ev_of snd].
          + destruct (length (batch ++ [a]) =? size); [apply NF|reflexivity].
          + destruct (_ && _); [apply NF|reflexivity].
        - split; [reflexivity|]. cbn. lia. }
      destruct (@wrap_forward _ _ T D w bt_J bt_trace_ok _ P (fresh (wrap T D)) true ins' bt_J_init (@fresh_it_ok _ _ T D true) E)
        as (outs & b & l & E1 & (_ & _ & J1) & Pl).
      specialize (J1 []). rewrite app_nil_r in J1. rewrite J1. destruct l as [o [batch keys|]]; [|destruct Pl].
      cbn [bt_rest snd bt_events]. rewrite app_nil_r. exact E1.
    Qed.

    (** everything that comes out is part of that *)
    Theorem bt_trace outs : clean outs -> emits w (fresh (wrap T D)) outs ->
      exists ins more, clean ins /\ emits w (fresh D) ins /\ bt_events w 0 [] [] ins = outs ++ more.
    Proof.
      intros HC E.
      destruct (@wrap_trace _ _ T D w bt_J bt_trace_ok outs (fresh (wrap T D)) true HC bt_J_init (@fresh_it_ok _ _ T D true) E)
        as (ins & b & l & E1 & (_ & _ & J1)).
      exists (map inp ins). specialize (J1 []). rewrite app_nil_r in J1. exists (bt_rest l []). split; [|split; [exact E1|exact J1]].
      apply Forall_forall. intros e He. apply in_map_iff in He as ([a|] & <- & _); exact I.
    Qed.
  End Trace.
End Batch.

(** *** [bt_events] cuts each epoch into groups *)
Section Groups.
  Context {A B : Type} (size : nat) (drop_last : bool) (f : nat -> nat -> list A -> ures B) (w : nat).
  Hypothesis Hsize : 0 < size.
  Notation ev := (bt_events size drop_last f w).

  Definition epl {X} (e : event (sample X)) : event X :=
    match e with Yield a => Yield (pl a) | Tau => Tau | Done => Done | Raise x => Raise x end.

  (** one group *)
  Lemma ev_fill (g : list (sample A)) : forall buf keys i l, length buf < size -> length (buf ++ g) = size ->
    ev i buf keys (map Yield g ++ l) =
    match f w i (map pl (buf ++ g)) with
    | UOk b => Yield (mkS b (batch_key i (keys ++ map rk g))) :: ev (S i) [] [] l
    | _ => ev (S i) [] (keys ++ map rk g) l
    end.
  Proof.
    induction g as [|a g IH]; intros buf keys i l HB HL; [rewrite app_nil_r in HL; lia|].
    cbn [map app bt_events]. destruct (Nat.eqb_spec (length (buf ++ [a])) size) as [E|E].
    - destruct g as [|a2 g]; [|rewrite app_length in E, HL; cbn in E, HL; lia]. reflexivity.
    - rewrite IH.
      + rewrite <- !app_assoc. reflexivity.
      + rewrite app_length in *. cbn in *. lia.
      + rewrite <- app_assoc. exact HL.
  Qed.

  Lemma ev_tail (g : list (sample A)) : forall buf keys i l, length (buf ++ g) < size ->
    ev i buf keys (map Yield g ++ l) = ev i (buf ++ g) (keys ++ map rk g) l.
  Proof.
    induction g as [|a g IH]; intros buf keys i l HL; [rewrite !app_nil_r; reflexivity|].
    cbn [map app bt_events]. destruct (Nat.eqb_spec (length (buf ++ [a])) size) as [E|E]; [rewrite app_length in E, HL; cbn in E, HL; lia|].
    rewrite IH; rewrite <- !app_assoc; [reflexivity|exact HL].
  Qed.

  (** complete groups, any batcher: contents *)
  Lemma ev_full_contents full : forall keys i l, Forall (fun g => length g = size) full -> exists keys',
    map epl (ev i [] keys (map Yield (concat full) ++ l)) =
    map Yield (batch_contents (f w) i (map (map pl) full)) ++ map epl (ev (i + length full) [] keys' l).
  Proof.
    induction full as [|g full IH]; intros keys i l F; [exists keys; cbn; rewrite Nat.add_0_r; reflexivity|].
    inversion_clear F as [|? ? Hg F']. cbn [concat map batch_contents length]. rewrite map_app, <- app_assoc. rewrite ev_fill by (cbn; lia). cbn [app].
    replace (i + S (length full)) with (S i + length full) by lia.
    destruct (f w i (map pl g)) as [b| | |]; cbn [map app epl].
    - destruct (IH [] (S i) l F') as [k' E]. exists k'. rewrite E. reflexivity.
    - destruct (IH (keys ++ map rk g) (S i) l F') as [k' E]. exists k'. rewrite E. reflexivity.
    - destruct (IH (keys ++ map rk g) (S i) l F') as [k' E]. exists k'. rewrite E. reflexivity.
    - destruct (IH (keys ++ map rk g) (S i) l F') as [k' E]. exists k'. rewrite E. reflexivity.
  Qed.

  (** complete groups, a batcher that never fails *)
  Lemma ev_full_exact (h : nat -> list A -> B) full : (forall i l, f w i l = UOk (h i l)) -> forall i l, Forall (fun g => length g = size) full ->
    ev i [] [] (map Yield (concat full) ++ l) = map Yield (batches h i full) ++ ev (i + length full) [] [] l.
  Proof.
    intros Hf. induction full as [|g full IH]; intros i l F; [cbn; rewrite Nat.add_0_r; reflexivity|].
    inversion_clear F as [|? ? Hg F']. cbn [concat map batches length]. rewrite map_app, <- app_assoc. rewrite ev_fill by (cbn; lia). cbn [app].
    replace (i + S (length full)) with (S i + length full) by lia. rewrite Hf, IH by exact F'. cbn [map app]. unfold batch_key. rewrite map_map. reflexivity.
  Qed.

  Lemma batch_contents_app (g : nat -> list A -> ures B) l1 l2 : forall i,
    batch_contents g i (l1 ++ l2) = batch_contents g i l1 ++ batch_contents g (i + length l1) l2.
  Proof.
    induction l1 as [|x l1 IH]; intros i; cbn [app batch_contents length]; [rewrite Nat.add_0_r; reflexivity|].
    rewrite IH, <- app_assoc. do 3 f_equal. lia.
  Qed.
  Lemma batches_app (h : nat -> list A -> B) l1 l2 : forall i,
    batches h i (l1 ++ l2) = batches h i l1 ++ batches h (i + length l1) l2.
  Proof.
    induction l1 as [|x l1 IH]; intros i; cbn [app batches length]; [rewrite Nat.add_0_r; reflexivity|].
    rewrite IH. do 2 f_equal. f_equal. lia.
  Qed.

  (** a whole epoch *)
  Lemma ev_epoch_contents i xs gs l : groups size drop_last xs gs ->
    map epl (ev i [] [] (epoch xs ++ l)) = map Yield (batch_contents (f w) i (map (map pl) gs)) ++ Done :: map epl (ev (i + length gs) [] [] l).
  Proof.
    intros (full & tail & F & HT & -> & ->). unfold epoch. rewrite map_app, <- !app_assoc.
    destruct (@ev_full_contents full [] i (map Yield tail ++ [Done] ++ l) F) as [k' ->]. rewrite ev_tail by (cbn; lia). cbn [app bt_events].
    destruct tail as [|a tail]; cbn [length Nat.ltb Nat.leb andb].
    - destruct drop_last; reflexivity.
    - destruct drop_last; cbn [negb]; [reflexivity|]. rewrite map_app, batch_contents_app, map_app, map_length, app_length, <- app_assoc. f_equal.
      cbn [map batch_contents]. destruct (f w (i + length full) _) as [b| | |]; cbn [map app epl]; repeat f_equal; cbn [length]; lia.
  Qed.

  Lemma ev_epoch_exact (h : nat -> list A -> B) i xs gs l : (forall i l, f w i l = UOk (h i l)) -> groups size drop_last xs gs ->
    ev i [] [] (epoch xs ++ l) = map Yield (batches h i gs) ++ Done :: ev (i + length gs) [] [] l.
  Proof.
    intros Hf (full & tail & F & HT & -> & ->). unfold epoch. rewrite map_app, <- !app_assoc.
    rewrite (ev_full_exact Hf) by exact F. rewrite ev_tail by (cbn; lia). cbn [app bt_events].
    destruct tail as [|a tail]; cbn [length Nat.ltb Nat.leb andb].
    - destruct drop_last; reflexivity.
    - destruct drop_last; cbn [negb]; [reflexivity|]. rewrite Hf, batches_app, map_app, app_length, <- app_assoc. f_equal.
      cbn [batches]. unfold batch_key, batch_name. cbn [app]. rewrite map_map. cbn [map app length]. do 3 f_equal. lia.
  Qed.

  (** an epoch in progress *)
  Lemma ev_part_exact (h : nat -> list A -> B) i xs full tail : (forall i l, f w i l = UOk (h i l)) ->
    Forall (fun g => length g = size) full -> length tail < size -> xs = concat full ++ tail ->
    ev i [] [] (map Yield xs) = map Yield (batches h i full).
  Proof.
    intros Hf F HT ->. rewrite map_app. rewrite (ev_full_exact Hf) by exact F. rewrite <- (app_nil_r (map Yield tail)), ev_tail by (cbn; lia). cbn [bt_events]. rewrite app_nil_r. reflexivity.
  Qed.
End Groups.

(** cutting into groups is always possible, in one way *)
Lemma cut_exists {X} size (xs : list X) : 0 < size -> exists full tail,
  Forall (fun g => length g = size) full /\ length tail < size /\ xs = concat full ++ tail.
Proof.
  intros Hs. remember (length xs) as n eqn:En. revert xs En. induction n as [n IH] using lt_wf_ind. intros xs En.
  destruct (Nat.lt_ge_cases (length xs) size) as [L|L]; [exists [], xs; repeat split; auto|].
  destruct (IH (n - size) ltac:(lia) (skipn size xs)) as (full & tail & F & HT & E); [rewrite skipn_length; lia|].
  exists (firstn size xs :: full), tail. split; [constructor; [rewrite firstn_length; lia|exact F]|]. split; [exact HT|].
  cbn [concat]. rewrite <- app_assoc, <- E, firstn_skipn. reflexivity.
Qed.

Lemma groups_exist {X} size drop (xs : list X) : 0 < size -> exists gs, groups size drop xs gs.
Proof. intros Hs. destruct (cut_exists xs Hs) as (full & tail & F & HT & E). eexists. exists full, tail. auto. Qed.

Lemma groups_count {X} size drop (xs : list X) gs : 0 < size -> groups size drop xs gs -> length gs = group_count size drop (length xs).
Proof.
  intros Hs (full & tail & F & HT & -> & ->). unfold group_count. rewrite app_length.
  assert (EL : length (concat full) = length full * size).
  { clear -F. induction F as [|g full Hg F IH]; [reflexivity|]. cbn [concat length]. rewrite app_length, IH, Hg. lia. }
  rewrite EL. destruct drop.
  - rewrite Nat.div_add_l by lia. rewrite (Nat.div_small (length tail)) by lia. lia.
  - destruct tail as [|a tail].
    + cbn [length]. rewrite Nat.add_0_r. replace (length full * size + size - 1) with (length full * size + (size - 1)) by lia.
      rewrite Nat.div_add_l by lia. rewrite Nat.div_small by lia. lia.
    + rewrite app_length. cbn [length] in *. replace (length full * size + S (length tail) + size - 1) with ((length full + 1) * size + length tail) by lia.
      rewrite Nat.div_add_l by lia. rewrite Nat.div_small by lia. lia.
Qed.
