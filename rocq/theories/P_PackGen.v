(** Property C33: PackingDataset with a final packer that is a generator function. *)
From Coq Require Import String Permutation.
From Verif Require Import Base Dataset DatasetProofs Wrap WrapProofs WrapRun WrapTrace WrapSpec WrapLib
  Wrappers MapModel SourceProofs Buffer Batch BatchSpec BatchProofs P_Batch P_GroupBatch GenBatchTrace
  Packing PackingSpec PackingProofs GenBatchProofs PackingProofs2 PackingProofs3 P_Packing PackGenTrace TaskEncoderProofs.
Local Open Scope string_scope.
Local Open Scope list_scope.
Local Open Scope nat_scope.

Lemma expand_packs {A B} (f : nat -> list A -> list B) gs : forall j,
  flat_map expand (map Yield (packs (fun j l => UOk (f j l)) j gs)) = map Yield (gen_packs f j gs).
Proof.
  induction gs as [|g gs IH]; intros j; [reflexivity|]. cbn [packs gen_packs]. rewrite !map_app, flat_map_app, IH. f_equal.
  cbn [map flat_map]. rewrite app_nil_r. reflexivity.
Qed.

Lemma expand_packed {A B} (pre : nat -> list (sample A) -> ures (list (list (sample A)))) (f : nat -> list A -> list B) size i j eps xs outs :
  packed pre (fun j l => UOk (f j l)) size i j eps xs outs -> gen_packed pre f size i j eps xs (flat_map expand outs).
Proof.
  induction 1 as [i j xs full tail EX HF HT|i j e eps xs chunks outs HG _ IH].
  - rewrite expand_packs. eapply gp_part; eassumption.
  - unfold epoch. rewrite !flat_map_app, expand_packs. cbn [flat_map expand app]. 
    change (gen_packed pre f size i j (e :: eps) xs (epoch (gen_packs f j (chosen_all pre i chunks)) ++ flat_map expand outs)).
    apply gp_epoch; assumption.
Qed.

(** as C33_packs, the generator's outputs for a pack following each other *)
Theorem C33_generator_packs {A B} nw size (pre : nat -> nat -> list (sample A) -> ures (list (list (sample A)))) (f : nat -> nat -> list A -> list B * gend)
    (D : dataset A) w eps xs :
  0 < size -> w < nw -> (forall i l, pre w i l <> UFatal) -> (forall i l, snd (f w i l) <> GFatal) ->
  no_drought (pre w) size 0 eps xs ->
  emits w (fresh D) (concat (map epoch eps) ++ map Yield xs) ->
  exists outs, emits w (fresh (wrap (packgen_ds nw size pre f) D)) outs /\
    gen_packed (pre w) (fun i l => fst (f w i l)) size 0 0 eps xs outs.
Proof.
  intros Hs Hw H1 H2 ND E. destruct (@C33_packs A (list B) nw size pre (all_at_once f) D w eps xs Hs Hw H1) as (outs & EO & HP); [discriminate|exact ND|exact E|].
  exists (flat_map expand outs). split; [exact (packgen_forward H2 EO)|]. apply expand_packed. exact HP.
Qed.
Print Assumptions C33_generator_packs.

Theorem C33_generator_nothing_else {A B} nw size (pre : nat -> nat -> list (sample A) -> ures (list (list (sample A)))) (f : nat -> nat -> list A -> list B * gend)
    (D : dataset A) w outs :
  0 < size -> w < nw -> (forall i l, snd (f w i l) <> GFatal) -> clean outs ->
  emits w (fresh (wrap (packgen_ds nw size pre f) D)) outs ->
  exists eps xs more, emits w (fresh D) (concat (map epoch eps) ++ map Yield xs) /\
    gen_packed (pre w) (fun i l => fst (f w i l)) size 0 0 eps xs (outs ++ more).
Proof.
  intros Hs Hw H2 HC E.
  destruct (@packgen_back A B nw size pre f D w H2 outs (fresh (wrap (pack_ds nw size pre (all_at_once f)) D)) [] (fresh (wrap (packgen_ds nw size pre f) D)) HC) as (l1 & more & C1 & E1 & EQ);
    [left; split; reflexivity|exact E|].
  destruct (C33_nothing_else Hs Hw C1 E1) as (eps & xs & more1 & EI & HP). exists eps, xs, (more ++ flat_map expand more1). split; [exact EI|].
  cbn [map app] in EQ. rewrite app_assoc, <- EQ, <- flat_map_app. apply expand_packed. exact HP.
Qed.
Print Assumptions C33_generator_nothing_else.

(** what comes out is determined by what goes in *)
Theorem C33_generator_determined {A B} size (pre : nat -> list (sample A) -> ures (list (list (sample A)))) (h : nat -> list A -> list B) i j eps xs o1 o2 :
  0 < size -> gen_packed pre h size i j eps xs o1 -> gen_packed pre h size i j eps xs o2 -> o1 = o2.
Proof.
  intros Hs H1. revert o2. induction H1 as [i j xs full tail EX HF HT|i j e eps xs chunks outs HG _ IH]; intros o2 H2.
  - inversion H2 as [xs' full' tail' EX' HF' HT' E1 E2|]; subst. destruct (TaskEncoderProofs.cut_unique Hs HF HF' HT HT' EX') as [-> _]. reflexivity.
  - inversion H2 as [|e' eps' xs' chunks' outs' HG' HP']; subst. assert (chunks = chunks').
    { destruct HG as (f1 & t1 & A1 & B1 & C1 & ->). destruct HG' as (f2 & t2 & A2 & B2 & C2 & ->). subst e. 
      destruct (TaskEncoderProofs.cut_unique Hs A1 A2 B1 B2 C2) as [-> ->]. reflexivity. }
    subst chunks'. f_equal. apply IH. exact HP'.
Qed.

Example C33_generator_packs_nonvacuous :
  let pre := fun (_ _ : nat) (l : list (sample nat)) => UOk [l] in
  let f := fun (_ i : nat) (l : list nat) => ([(i, l); (i, rev l)], GErr) in
  (forall i l, pre 0 i l <> UFatal) /\ (forall i l, snd (f 0 i l) <> GFatal) /\
  no_drought (pre 0) 2 0 [map (fun n => mkS n [AInt n]) [5; 6; 7]] [] /\
  gen_packed (pre 0) (fun i l => fst (f 0 i l)) 2 0 0 [map (fun n => mkS n [AInt n]) [5; 6; 7]] []
    (map Yield
      [mkS (0, [5; 6]) [AStr "PackingDataset"; AInt 0; AInt 0; ATup [AInt 5]; ATup [AInt 6]];
       mkS (0, [6; 5]) [AStr "PackingDataset"; AInt 0; AInt 1; ATup [AInt 5]; ATup [AInt 6]];
       mkS (1, [7]) [AStr "PackingDataset"; AInt 1; AInt 0; ATup [AInt 7]];
       mkS (1, [7]) [AStr "PackingDataset"; AInt 1; AInt 1; ATup [AInt 7]]] ++ [Done]).
Proof.
  cbv zeta. split; [discriminate|]. split; [discriminate|]. split.
  - eapply (@nd_epoch nat (fun _ l => UOk [l]) 2 0 _ [] [] [[mkS 5 [AInt 5]; mkS 6 [AInt 6]]] [mkS 7 [AInt 7]]); [reflexivity|repeat constructor|cbn; lia|intros (k & L & _); cbn in L; lia|].
    eapply (@nd_part nat (fun _ l => UOk [l]) 2 _ [] [] []); [reflexivity|constructor|cbn; lia|intros (k & L & _); cbn in L; lia].
  - rewrite <- (app_nil_r [Done]), app_assoc.
    eapply (@gp_epoch nat (nat * list nat) (fun _ l => UOk [l]) (fun i l => [(i, l); (i, rev l)]) 2 0 0 _ [] [] [[mkS 5 [AInt 5]; mkS 6 [AInt 6]]; [mkS 7 [AInt 7]]]).
    + exists [[mkS 5 [AInt 5]; mkS 6 [AInt 6]]], [mkS 7 [AInt 7]]. repeat split; cbn; repeat constructor.
    + eapply (@gp_part nat _ _ _ 2 _ _ [] [] []); [reflexivity|constructor|cbn; lia].
Qed.
