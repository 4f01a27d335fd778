(** PackingDataset: buffers of an epoch, droughts. *)
From Coq Require Import String.
From Verif Require Import Base Dataset DatasetProofs Wrap WrapProofs WrapRun WrapTrace WrapSpec WrapLib
  Wrappers MapModel IdxProofs Buffer BufferProofs Batch BatchSpec BatchProofs Packing PackingSpec PackingProofs PackingProofs2.
Local Open Scope list_scope.
Local Open Scope nat_scope.

Lemma goes_emits_inv {P} (D : dataset P) w (s : st D) l s' : goes w s l s' -> forall l2, emits w s (l ++ l2) -> emits w s' l2.
Proof.
  induction 1 as [s|s o g l s' H G IH|s o g a l s' H G IH|s o g l s' H G IH]; intros l2 E.
  - exact E.
  - apply IH. apply (same_stream_tau H). exact E.
  - cbn [app] in E. destruct (emits_yield_inv E) as (s2 & N & E2). destruct (next_det N (next_now H ltac:(discriminate))) as [_ ->]. apply IH. exact E2.
  - cbn [app] in E. destruct (emits_done_inv E) as (s2 & N & E2). destruct (next_det N (next_now H ltac:(discriminate))) as [_ ->]. apply IH. exact E2.
Qed.

Section Chunks.
  Context {A B : Type} (size : nat).
  Variable pre : nat -> nat -> list (sample A) -> ures (list (list (sample A))).
  Variable f : nat -> nat -> list A -> ures B.
  Hypothesis Hs : 0 < size.
  Variable w : nat.
  Notation ev := (pk_events size pre f w).
  Notation dry := (dry_fold size pre w).

  Lemma ev_fill (c : list (sample A)) : forall buf i j l, length buf < size -> length (buf ++ c) = size ->
    ev i j buf (map Yield c ++ l) =
    map Yield (packs (f w) j (chosen (pre w) i (buf ++ c))) ++ ev (S i) (j + length (chosen (pre w) i (buf ++ c))) [] l.
  Proof.
    induction c as [|a c IH]; intros buf i j l HB HL; [rewrite app_nil_r in HL; lia|].
    cbn [map app pk_events]. destruct (Nat.eqb_spec (length (buf ++ [a])) size) as [E|E].
    - destruct c as [|a2 c]; [reflexivity|]. rewrite app_length in E, HL; cbn in E, HL; lia.
    - rewrite IH.
      + rewrite <- !app_assoc. reflexivity.
      + rewrite app_length in *. cbn in *. lia.
      + rewrite <- app_assoc. exact HL.
  Qed.

  Lemma ev_tail (c : list (sample A)) : forall buf i j l, length (buf ++ c) < size -> ev i j buf (map Yield c ++ l) = ev i j (buf ++ c) l.
  Proof.
    induction c as [|a c IH]; intros buf i j l HL; [rewrite app_nil_r; reflexivity|].
    cbn [map app pk_events]. destruct (Nat.eqb_spec (length (buf ++ [a])) size) as [E|E]; [rewrite app_length in E, HL; cbn in E, HL; lia|].
    rewrite IH; rewrite <- !app_assoc; [reflexivity|exact HL].
  Qed.

  Lemma ev_full (full : list (list (sample A))) : forall i j l, Forall (fun c => length c = size) full ->
    ev i j [] (map Yield (concat full) ++ l) =
    map Yield (packs (f w) j (chosen_all (pre w) i full)) ++ ev (i + length full) (j + length (chosen_all (pre w) i full)) [] l.
  Proof.
    induction full as [|c full IH]; intros i j l F; [cbn; rewrite !Nat.add_0_r; reflexivity|].
    inversion_clear F as [|? ? Hc F']. cbn [concat chosen_all length]. rewrite map_app, <- app_assoc, ev_fill by (cbn; lia). cbn [app].
    rewrite IH by exact F'. rewrite packs_app, map_app, <- app_assoc, app_length. do 2 f_equal. f_equal; lia.
  Qed.

  Lemma ev_epoch e chunks i j l : groups size false e chunks ->
    ev i j [] (epoch e ++ l) =
    epoch (packs (f w) j (chosen_all (pre w) i chunks)) ++ ev (i + length chunks) (j + length (chosen_all (pre w) i chunks)) [] l.
  Proof.
    intros (full & tail & F & HT & -> & ->). unfold epoch. rewrite map_app, <- !app_assoc. rewrite ev_full by exact F.
    rewrite ev_tail by exact HT. cbn [app pk_events]. destruct tail as [|a tail]; [reflexivity|].
    rewrite chosen_all_app, packs_app, map_app, !app_length, <- app_assoc. cbn [chosen_all length]. rewrite app_nil_r. do 2 f_equal. cbn [app]. f_equal. f_equal; lia.
  Qed.

  Lemma ev_part xs full tail i j : xs = concat full ++ tail -> Forall (fun c => length c = size) full -> length tail < size ->
    ev i j [] (map Yield xs) = map Yield (packs (f w) j (chosen_all (pre w) i full)).
  Proof.
    intros -> F HT. rewrite map_app, ev_full by exact F. rewrite <- (app_nil_r (map Yield tail)), ev_tail by exact HT. cbn. apply app_nil_r.
  Qed.

  Lemma ev_packed eps xs outs : forall i j, packed (pre w) (f w) size i j eps xs outs -> ev i j [] (concat (map epoch eps) ++ map Yield xs) = outs.
  Proof.
    intros i j H. induction H as [i j xs full tail E F HT|i j e eps xs chunks outs HG HP IH]; cbn [map concat app].
    - apply (ev_part i j E F HT).
    - rewrite <- app_assoc, (ev_epoch i j _ HG), IH. reflexivity.
  Qed.

  Lemma packed_exists eps xs : forall i j, exists outs, packed (pre w) (f w) size i j eps xs outs.
  Proof.
    induction eps as [|e eps IH]; intros i j.
    - destruct (cut_exists xs Hs) as (full & tail & HF & HT & EX). eexists. econstructor; eauto.
    - destruct (groups_exist false e Hs) as [chunks HG]. destruct (IH (i + length chunks) (j + length (chosen_all (pre w) i chunks))) as [outs HO].
      eexists. econstructor 2; eauto.
  Qed.

  (** *** droughts *)
  Fixpoint dry_chunks (i r : nat) (ok : bool) (full : list (list (sample A))) : dry_state (A := A) :=
    match full with
    | [] => (i, [], r, ok)
    | c :: full' => dry_chunks (S i) (match chosen (pre w) i c with [] => S r | _ => 0 end) (ok && (r <? 10)) full'
    end.

  Lemma dry_fill (c : list (sample A)) : forall buf i r ok l, length buf < size -> length (buf ++ c) = size ->
    dry (map Yield c ++ l) (i, buf, r, ok) = dry l (dry_full pre w i (buf ++ c) r ok).
  Proof.
    induction c as [|a c IH]; intros buf i r ok l HB HL; [rewrite app_nil_r in HL; lia|].
    cbn [map app]. unfold dry_fold. cbn [fold_left dry_step]. destruct (Nat.eqb_spec (length (buf ++ [a])) size) as [E|E].
    - destruct c as [|a2 c]; [reflexivity|]. rewrite app_length in E, HL; cbn in E, HL; lia.
    - change (dry (map Yield c ++ l) (i, buf ++ [a], r, ok) = dry l (dry_full pre w i (buf ++ a :: c) r ok)). rewrite IH.
      + rewrite <- !app_assoc. reflexivity.
      + rewrite app_length in *. cbn in *. lia.
      + rewrite <- app_assoc. exact HL.
  Qed.

  Lemma dry_tail (c : list (sample A)) : forall buf i r ok l, length (buf ++ c) < size ->
    dry (map Yield c ++ l) (i, buf, r, ok) = dry l (i, buf ++ c, r, ok).
  Proof.
    induction c as [|a c IH]; intros buf i r ok l HL; [rewrite app_nil_r; reflexivity|].
    cbn [map app]. unfold dry_fold. cbn [fold_left dry_step]. destruct (Nat.eqb_spec (length (buf ++ [a])) size) as [E|E]; [rewrite app_length in E, HL; cbn in E, HL; lia|].
    change (dry (map Yield c ++ l) (i, buf ++ [a], r, ok) = dry l (i, buf ++ a :: c, r, ok)). rewrite IH; rewrite <- !app_assoc; [reflexivity|exact HL].
  Qed.

  Lemma dry_chunks_fold full : forall i r ok l, Forall (fun c => length c = size) full ->
    dry (map Yield (concat full) ++ l) (i, [], r, ok) = dry l (dry_chunks i r ok full).
  Proof.
    induction full as [|c full IH]; intros i r ok l F; [reflexivity|].
    inversion_clear F as [|? ? Hc F']. cbn [concat dry_chunks]. rewrite map_app, <- app_assoc, dry_fill by (cbn; lia). cbn [app]. unfold dry_full. apply IH. exact F'.
  Qed.

  Lemma dry_chunks_idx full : forall i r ok, exists r' ok', dry_chunks i r ok full = (i + length full, [], r', ok').
  Proof.
    induction full as [|c full IH]; intros i r ok; cbn [dry_chunks length]; [rewrite Nat.add_0_r; eauto|].
    replace (i + S (length full)) with (S i + length full) by lia. apply IH.
  Qed.

  (** before [full] came [r] fruitless buffers *)
  Lemma dry_chunks_ok full : forall before i r, r <= length before ->
    (forall n, n < r -> chosen (pre w) (i + (length before - S n)) (nth (length before - S n) before []) = []) ->
    ~ drought (pre w) i (before ++ full) ->
    exists r', dry_chunks (i + length before) r true full = (i + length before + length full, [], r', true) /\ r' <= length before + length full /\
      (forall n, n < r' -> chosen (pre w) (i + (length (before ++ full) - S n)) (nth (length (before ++ full) - S n) (before ++ full) []) = []).
  Proof.
    induction full as [|c full IH]; intros before i r Hr HB ND.
    - exists r. cbn [dry_chunks length]. rewrite app_nil_r, !Nat.add_0_r. auto.
    - cbn [dry_chunks]. assert (R : r < 10).
      { destruct (Nat.lt_ge_cases r 10) as [|G]; [assumption|]. exfalso. apply ND. exists (length before - 10). split; [rewrite app_length; cbn [length]; lia|].
        intros n Hn. specialize (HB (9 - n) ltac:(lia)). rewrite app_nth1 by lia.
        replace (length before - S (9 - n)) with (length before - 10 + n) in HB by lia. rewrite Nat.add_assoc in HB. exact HB. }
      rewrite (proj2 (Nat.ltb_lt _ _) R). cbn [andb].
      assert (EA : before ++ c :: full = (before ++ [c]) ++ full) by (rewrite <- app_assoc; reflexivity). rewrite EA in *.
      assert (LB : length (before ++ [c]) = S (length before)) by (rewrite app_length; cbn; lia).
      destruct (chosen (pre w) (i + length before) c) as [|g gs] eqn:E.
      + destruct (IH (before ++ [c]) i (S r)) as (r' & E' & L' & H').
        * lia.
        * intros n Hn. rewrite LB. destruct n as [|n].
          -- replace (S (length before) - 1) with (length before) by lia. rewrite app_nth2 by lia. rewrite Nat.sub_diag. exact E.
          -- rewrite app_nth1 by lia. replace (S (length before) - S (S n)) with (length before - S n) by lia. apply HB. lia.
        * exact ND.
        * rewrite LB in *. exists r'. replace (i + S (length before)) with (S (i + length before)) in E' by lia. rewrite E'.
          split; [cbn [length]; replace (S (i + length before) + length full) with (i + length before + S (length full)) by lia; reflexivity|]. split; [cbn [length]; lia|exact H'].
      + destruct (IH (before ++ [c]) i 0) as (r' & E' & L' & H').
        * lia.
        * intros n Hn. lia.
        * exact ND.
        * rewrite LB in *. exists r'. replace (i + S (length before)) with (S (i + length before)) in E' by lia. rewrite E'.
          split; [cbn [length]; replace (S (i + length before) + length full) with (i + length before + S (length full)) by lia; reflexivity|]. split; [cbn [length]; lia|exact H'].
  Qed.

  Lemma dry_ok eps xs : forall i, no_drought (pre w) size i eps xs -> snd (dry (concat (map epoch eps) ++ map Yield xs) (i, [], 0, true)) = true.
  Proof.
    intros i H. induction H as [i xs full tail E F HT ND|i e eps xs full tail E F HT ND H IH]; cbn [map concat app].
    - subst xs. rewrite map_app, dry_chunks_fold by exact F. destruct (@dry_chunks_ok full [] i 0) as (r' & E & _); [cbn; lia|intros; lia|exact ND|].
      rewrite Nat.add_0_r in E. rewrite E. rewrite <- (app_nil_r (map Yield tail)), dry_tail by exact HT. reflexivity.
    - subst e. unfold epoch at 1. rewrite map_app, <- !app_assoc, dry_chunks_fold by exact F. destruct (@dry_chunks_ok full [] i 0) as (r' & E & _); [cbn; lia|intros; lia|exact ND|].
      cbn [length] in E. rewrite Nat.add_0_r in E. rewrite E. rewrite dry_tail by exact HT. cbn [app].
      unfold dry_fold. cbn [fold_left dry_step]. destruct tail; rewrite ?Nat.add_0_r in IH; [exact IH|]. rewrite Nat.add_1_r in IH. exact IH.
  Qed.

  Lemma dry_epochs eps xs : forall i, no_drought (pre w) size i eps xs -> forall l,
    dry (concat (map epoch eps) ++ l) (i, [], 0, true) = dry l (i + n_buffers size eps, [], 0, true).
  Proof.
    intros i H. induction H as [i xs full tail E F HT ND|i e eps xs full tail E F HT ND H IH]; intros l; cbn [map concat app].
    - unfold n_buffers. cbn. rewrite Nat.add_0_r. reflexivity.
    - assert (C : group_count size false (length e) = length full + match tail with [] => 0 | _ => 1 end).
      { symmetry. assert (G : groups size false e (match tail with [] => full | _ => full ++ [tail] end)) by (exists full, tail; auto).
        rewrite <- (groups_count Hs G). destruct tail; [rewrite Nat.add_0_r|rewrite app_length]; reflexivity. }
      unfold n_buffers. cbn [map list_sum fold_right]. fold (list_sum (map (fun e => group_count size false (length e)) eps)). fold (n_buffers size eps).
      rewrite C. clear C. subst e. unfold epoch at 1. rewrite map_app, <- !app_assoc, dry_chunks_fold by exact F.
      destruct (@dry_chunks_ok full [] i 0) as (r' & E & _); [cbn; lia|intros; lia|exact ND|].
      cbn [length] in E. rewrite Nat.add_0_r in E. rewrite E. rewrite dry_tail by exact HT. cbn [app].
      specialize (IH l). unfold dry_fold in *. cbn [fold_left dry_step].
      replace (i + (length full + match tail with [] => 0 | _ => 1 end + n_buffers size eps)) with (i + length full + match tail with [] => 0 | _ => 1 end + n_buffers size eps) by lia.
      rewrite <- IH. destruct tail; [rewrite Nat.add_0_r|rewrite Nat.add_1_r]; reflexivity.
  Qed.

  (** the pre packer chooses at least one group from every full buffer *)
  Lemma choosy_no_drought eps xs : (forall i c, length c = size -> chosen (pre w) i c <> []) -> forall i, no_drought (pre w) size i eps xs.
  Proof.
    intros HC.
    assert (ND : forall i full, Forall (fun c => length c = size) full -> ~ drought (pre w) i full).
    { intros i full F (k & Hk & H). specialize (H 0 ltac:(lia)). revert H. apply HC. rewrite Forall_forall in F. apply F. apply nth_In. lia. }
    induction eps as [|e eps IH]; intros i.
    - destruct (cut_exists xs Hs) as (full & tail & HF & HT & EX). econstructor; eauto.
    - destruct (cut_exists e Hs) as (full & tail & HF & HT & EX). econstructor 2; eauto.
  Qed.
End Chunks.

(** *** ten fruitless rounds, then another full buffer *)
Section Raise.
  Context {A B : Type} (nw size : nat).
  Variable pre : nat -> nat -> list (sample A) -> ures (list (list (sample A))).
  Variable f : nat -> nat -> list A -> ures B.
  Notation T := (pack_ds nw size pre f).
  Hypothesis Hs : 0 < size.
  Variables (D : dataset A) (w : nat).
  Hypothesis Hw : w < nw.


  Lemma dry_chunks_app c1 : forall c2 i r ok, dry_chunks pre w i r ok (c1 ++ c2) =
    match dry_chunks pre w i r ok c1 with (i', _, r', ok') => dry_chunks pre w i' r' ok' c2 end.
  Proof. induction c1 as [|c c1 IH]; intros c2 i r ok; cbn [app dry_chunks]; [reflexivity|apply IH]. Qed.

  Lemma dry_count full : forall i r ok, (forall n, n < length full -> chosen (pre w) (i + n) (nth n full []) = []) ->
    snd (fst (dry_chunks pre w i r ok full)) = r + length full.
  Proof.
    induction full as [|c full IH]; intros i r ok H; cbn [dry_chunks length]; [cbn; lia|].
    pose proof (H 0 ltac:(cbn; lia)) as H0. rewrite Nat.add_0_r in H0. cbn [nth] in H0. rewrite H0.
    rewrite IH; [lia|]. intros n Hn. specialize (H (S n) ltac:(cbn; lia)). cbn [nth] in H. replace (S i + n) with (i + S n) by lia. exact H.
  Qed.

  Theorem pk_raises eps full dry10 c outs :
    (forall i l, pre w i l <> UFatal) -> (forall i l, f w i l <> UFatal) ->
    no_drought (pre w) size 0 eps (concat (full ++ dry10)) -> Forall (fun c => length c = size) (full ++ dry10) ->
    length dry10 = 10 ->
    (forall n, n < 10 -> chosen (pre w) (n_buffers size eps + length full + n) (nth n dry10 []) = []) ->
    length c = size ->
    packed (pre w) (f w) size 0 0 eps (concat (full ++ dry10)) outs ->
    emits w (fresh D) (concat (map epoch eps) ++ map Yield (concat (full ++ dry10) ++ c)) ->
    emits w (fresh (wrap T D)) (outs ++ [Raise OtherError]).
  Proof.
    intros NF1 NF2 ND F L10 HC Hc HP E.
    pose proof (@dry_epochs A B size pre f Hs w eps (concat (full ++ dry10)) 0 ND) as HI. cbn [Nat.add] in HI. fold (@dry0 A) in HI. set (i0 := n_buffers size eps) in *.
    destruct (@exists_last _ c) as (c0 & a & ->); [destruct c; [cbn in Hc; lia|discriminate]|].
    rewrite app_length in Hc. cbn in Hc.
    set (ins0 := concat (map epoch eps) ++ map Yield (concat (full ++ dry10) ++ c0)).
    assert (EI : concat (map epoch eps) ++ map Yield (concat (full ++ dry10) ++ c0 ++ [a]) = ins0 ++ [Yield a]).
    { unfold ins0. rewrite !map_app, <- !app_assoc. reflexivity. }
    rewrite EI in E.
    assert (CL : clean ins0).
    { unfold ins0. apply Forall_app. split; [|apply Forall_map, Forall_forall; exact (fun _ _ => I)].
      apply Forall_concat. apply Forall_map. apply Forall_forall. intros l _. apply Forall_app. split; [apply Forall_map, Forall_forall; exact (fun _ _ => I)|repeat constructor]. }
    destruct (clean_inp CL) as (ins' & EQ).
    destruct (dry_chunks_idx pre f Hs w full i0 0 true) as (r1 & ok1 & E1).
    pose proof (@dry_ok A B size pre f Hs w eps (concat (full ++ dry10)) 0 ND) as OK.
    change (0, [], 0, true) with (@dry0 A) in OK. rewrite HI in OK.
    rewrite <- (app_nil_r (map Yield (concat (full ++ dry10)))), (@dry_chunks_fold A B size pre f Hs w (full ++ dry10)) in OK by exact F.
    assert (ST : exists r, 10 <= r /\ dry_chunks pre w i0 0 true (full ++ dry10) = (i0 + length full + 10, [], r, true)).
    { rewrite dry_chunks_app in *. rewrite E1 in *. destruct (dry_chunks_idx pre f Hs w dry10 (i0 + length full) r1 ok1) as (r2 & ok2 & E2).
      pose proof (@dry_count dry10 (i0 + length full) r1 ok1) as CN. rewrite L10 in CN. specialize (CN HC). rewrite E2 in *. cbn in OK, CN. subst ok2. subst r2. rewrite L10. exists (r1 + 10). split; [lia|reflexivity]. }
    destruct ST as (r & Hr & ST).
    assert (DF : dry_fold size pre w ins0 dry0 = (i0 + length full + 10, c0, r, true)).
    { unfold ins0. rewrite HI, map_app, (@dry_chunks_fold A B size pre f Hs w (full ++ dry10)) by exact F. rewrite ST.
      rewrite <- (app_nil_r (map Yield c0)), (@dry_tail A B size pre f Hs w c0) by (cbn; lia). reflexivity. }
    rewrite EQ in *.
    assert (GD : pk_good size pre w ins') by (unfold pk_good; rewrite DF; reflexivity).
    destruct (@wrap_forward_on _ _ T D w _ (@pk_trace_ok A B nw size pre f Hs D w Hw) _ (@pk_good_mono A size pre w) _ (@pk_progress A B nw size pre f Hs D w Hw NF1 NF2)
       (fresh (wrap T D)) true ins' (@pk_J_init A B nw size pre f Hs w Hw) (@fresh_it_ok _ _ T D true) GD (emits_prefix E))
      as (outs2 & b & l & s' & si & EM & (lr & gl & pi & fi & ok & H & HL & HGl & HS & HD & HE & HF) & Pl & G1 & EL & IT & G2 & G3).
    rewrite <- EL in *. destruct s' as [[o io it] g]. cbn [loc fst snd w_loc] in *.
    pose proof (HE []) as HE0. rewrite app_nil_r in HE0.
    unfold pulls, act in Pl. cbn [pack_ds t_act fst snd loc w_loc] in Pl.
    destruct g as [|rr|].
    { destruct (pk_start (ds_restore_sample D w) w o); destruct Pl. }
    2:{ rewrite (pk_len_is H) in Pl. destruct gl as [|g1 gl1]; cbn [map] in Pl; [destruct Pl|].
        exfalso. destruct (@pk_final_is A B nw f w Hw _ _ _ _ _ _ PkDrain H) as (o2 & _ & Ef). rewrite Ef in Pl. destruct (f w fi (map pl g1)); exact Pl. }
    rewrite (pk_len_is H) in Pl. destruct gl as [|g1 gl1]; cbn [map] in Pl.
    2:{ exfalso. destruct (@pk_final_is A B nw f w Hw _ _ _ _ _ _ (PkLoop 0) H) as (o2 & _ & Ef). rewrite Ef in Pl. destruct (f w fi (map pl g1)); exact Pl. }
    destruct (@pk_read_step_is A B nw size w Hw pre _ (ds_restore_sample D w) lr pi fi o rr PkLoop PkDrain Hs H) as (ac & Ea & X).
    destruct (length lr <? size) eqn:LT.
    2:{ exfalso. rewrite Ea in Pl. destruct (length lr =? size); [|rewrite X in Pl; exact Pl]. destruct (made pre w pi lr); [|rewrite X in Pl; exact Pl]. destruct X as (o2 & _ & X). rewrite X in Pl. destruct (10 <? S rr); exact Pl. }
    apply Nat.ltb_lt in LT. assert (NE : (length lr =? size) = false) by (apply Nat.eqb_neq; lia). rewrite NE in HF.
    cbn [pk_round] in HF. rewrite DF in HF. injection HF as <- <- <- <-.
    destruct X as (k & -> & X1 & _).
    (* the outputs so far *)
    assert (EO : outs2 = outs).
    { unfold pk_out in HE0. rewrite NE in HE0. cbn [packs map app pk_events pk_drain] in HE0. rewrite app_nil_r in HE0. rewrite <- HE0, <- EQ. unfold ins0.
      rewrite <- (@ev_packed A B size pre f Hs w _ _ _ 0 0 HP). clear - F Hs Hc L10.
      assert (Q : forall i j, pk_events size pre f w i j [] (map Yield (concat (full ++ dry10) ++ c0)) = pk_events size pre f w i j [] (map Yield (concat (full ++ dry10)))).
      { intros i j. rewrite (@ev_part A B size pre f Hs w (concat (full ++ dry10) ++ c0) (full ++ dry10) c0 i j eq_refl F) by lia.
        rewrite (@ev_part A B size pre f Hs w (concat (full ++ dry10)) (full ++ dry10) [] i j); [reflexivity|rewrite app_nil_r; reflexivity|exact F|cbn; lia]. }
      assert (Q2 : forall es i j, pk_events size pre f w i j [] (concat (map epoch es) ++ map Yield (concat (full ++ dry10) ++ c0)) =
                                   pk_events size pre f w i j [] (concat (map epoch es) ++ map Yield (concat (full ++ dry10)))).
      { induction es as [|e es IH]; intros i j; cbn [map concat app]; [apply Q|]. destruct (groups_exist false e Hs) as [chunks HG].
        rewrite <- !app_assoc, !(@ev_epoch A B size pre f Hs w e chunks i j _ HG), IH. reflexivity. }
      apply Q2. }
    subst outs2. eapply goes_emits; [exact G1|].
    (* the next sample *)
    pose proof (goes_emits_inv G2 E) as E2. pose proof (goes_emits G3 E2) as E3. cbn [app] in E3.
    destruct (emits_yield_inv E3) as (si' & (m & N) & _).
    assert (Hact : act (T := T) (ds_restore_sample D w) w (o, PkLoop r) = Pull k).
    { unfold act. cbn [pack_ds t_act fst snd]. rewrite (pk_len_is H). cbn [map]. exact Ea. }
    destruct (wrap_pull_some (T := T) (D := D) (s := (mkW (T := T) o io it, PkLoop r)) Hact N) as (m' & _ & Hj).
    destruct (X1 a) as (o2 & Ek & H2).
    specialize (Hj 1). unfold after_pull in Hj. cbn [loc fst snd w_loc] in Hj. rewrite Ek in Hj. cbn [fin] in Hj. rewrite nextn_step in Hj.
    assert (LR : length (c0 ++ [a]) = size) by (rewrite app_length; cbn; lia).
    destruct (@pk_read_step_is A B nw size w Hw pre _ (ds_restore_sample D w) (c0 ++ [a]) _ fi o2 r PkLoop PkDrain Hs H2) as (ac & Ea2 & X).
    rewrite (proj2 (Nat.ltb_ge _ _)) in X by lia. rewrite (proj2 (Nat.eqb_eq _ _) LR) in X.
    assert (Y : exists o3, ac = Local o3 PkDrain (Raise OtherError)).
    { destruct (made pre w _ (c0 ++ [a])); [|eauto]. destruct X as (o3 & _ & ->). rewrite (proj2 (Nat.ltb_lt 10 (S r))) by lia. eauto. }
    destruct Y as (o3 & ->).
    assert (Hact2 : act (T := T) (ds_restore_sample D w) w (o2, PkLoop r) = Local o3 PkDrain (Raise OtherError)).
    { unfold act. cbn [pack_ds t_act fst snd]. rewrite (pk_len_is H2). cbn [map]. exact Ea2. }
    pose proof (wrap_local_step (T := T) (D := D) (s := (mkW (T := T) o2 (fst si') (drop_it T Tau (Some (snd si'))), PkLoop r)) Hact2) as SS.
    cbn [fst snd drop_it] in SS, Hj. rewrite SS in Hj. cbn [fin] in Hj. eapply em_raise. eexists. exact Hj.
  Qed.
End Raise.
