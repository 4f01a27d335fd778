(** Property C35: IterMapDataset. *)
From Coq Require Import String.
From Verif Require Import Base Dataset DatasetProofs Wrap WrapProofs WrapRun WrapTrace WrapSpec WrapLib
  Wrappers MapModel SourceProofs P_Batch P_GroupBatch IterMap IterMapProofs.
Local Open Scope string_scope.
Local Open Scope list_scope.
Local Open Scope nat_scope.

(** A function that treats every sample by itself: out come the samples it makes of every inner sample, in
    order, epoch by epoch; a sample it fails on costs only the rest of that sample. *)
Theorem C35_in_order {A B} nw (f : nat -> A -> list B * gend) stateless (D : dataset A) w ins :
  w < nw -> (forall a, snd (f w a) <> GFatal) -> clean ins -> emits w (fresh D) ins ->
  exists outs, emits w (fresh (wrap (itermap_ds nw (per_sample f) stateless) D)) outs /\
    map content outs = flat_map (expand (f w)) ins.
Proof. intros Hw NF HC E. apply ps_forward; auto. Qed.
Print Assumptions C35_in_order.

Theorem C35_nothing_else {A B} nw (f : nat -> A -> list B * gend) stateless (D : dataset A) w outs :
  w < nw -> clean outs -> emits w (fresh (wrap (itermap_ds nw (per_sample f) stateless) D)) outs ->
  exists ins more, clean ins /\ emits w (fresh D) ins /\ flat_map (expand (f w)) ins = map content outs ++ more.
Proof. intros Hw HC E. eapply ps_trace; eauto. Qed.
Print Assumptions C35_nothing_else.

(** Restore keys, for every function that starts anew after each sample it yields (it may take any number
    of input samples for it) and does not raise. *)
Theorem C35_restores_partial {A B} nw (fn : iterfn A B) (D : dataset A) rst :
  memoryless fn -> hungry fn -> greedy fn -> never_fails fn ->
  restorable D rst nw -> restorable (wrap (itermap_ds nw fn true) D) rst nw.
Proof.
  intros H1 H2 H3 H4 HR. apply wrap_restores; [reflexivity|apply im_no_reset|exact HR|].
  eapply local_yields_weaken; [| |apply im_restores]; auto.
Qed.
Print Assumptions C35_restores_partial.

(** Resuming, for such functions (which may raise): exact, if no sample is yielded after the end of
    the input or the input never ends *)
Theorem C35_resumes_partial {A B} nw (fn : iterfn A B) stateless (D : dataset A) rst :
  memoryless fn -> hungry fn -> greedy fn -> endless D rst nw \/ no_tail fn ->
  resumable D rst nw -> resumable (wrap (itermap_ds nw fn stateless) D) rst nw.
Proof.
  intros H1 H2 H3 [HE|HT] HR.
  - apply (@wrap_resumable A B _ D nw rst rst true false); auto; try discriminate.
    + left. apply im_no_reset.
    + apply im_local_resumable; auto.
  - apply (@wrap_resumable A B _ D nw rst rst false false); auto; try discriminate.
    + left. apply im_no_reset.
    + apply im_local_resumable; auto.
Qed.
Print Assumptions C35_resumes_partial.

Theorem C35_endless {A B} nw (fn : iterfn A B) stateless (D : dataset A) rst :
  memoryless fn -> hungry fn -> greedy fn -> endless D rst nw -> endless (wrap (itermap_ds nw fn stateless) D) rst nw.
Proof.
  intros H1 H2 H3 HE. apply wrap_never_ends with (Y := fun _ _ _ => True); [reflexivity|apply im_no_reset|exact HE|].
  intros w rs Hw. exists (ir_Inv (stateless := stateless) true), (@ir_Sav A B nw fn stateless).
  eapply local_ok_weaken; [| |apply ir_local_ok; auto]; auto. discriminate.
Qed.

(** the two kinds of functions meant: at most one sample per input sample ... *)
(* its only states are "waiting" and "has a sample" *)
Definition filter_map {A B} (h : nat -> nat -> A -> option B) : iterfn A B :=
  {| if_st := option A;
     if_start := None;
     if_act := fun w i s =>
       match s with
       | None => IPull Some
       | Some a => match h w i a with Some b => IYield b None | None => IPull Some end
       end;
     if_end := fun w i s => ([], GEnd) |}.

Lemma filter_map_ok {A B} (h : nat -> nat -> A -> option B) :
  let fn := filter_map h in memoryless fn /\ hungry fn /\ greedy fn /\ never_fails fn /\ no_tail fn.
Proof.
  intros fn. split; [|split; [|split; [|split]]].
  - split; [|intros; cbn; lia]. intros w i [a|] b s' E; cbn in E; [|discriminate]. destruct (h w i a); [|discriminate]. injection E as _ <-. reflexivity.
  - intros w i. split; [eexists; reflexivity|reflexivity].
  - intros w i [a|] E; cbn in E; [|discriminate]. destruct (h w i a); discriminate.
  - split; [|intros; left; reflexivity]. intros w i [a|] E; cbn in E; [|discriminate]. destruct (h w i a); discriminate.
  - intros w i s. reflexivity.
Qed.

(** ... and one sample per [size] input samples *)
Lemma collect_ok {A B} size (f : nat -> nat -> list A -> B) : 0 < size ->
  let fn := collect size f in memoryless fn /\ hungry fn /\ greedy fn /\ never_fails fn.
Proof.
  intros Hs fn. split; [|split; [|split]].
  - split.
    + intros w i s b s' E. cbn [fn collect if_act if_end if_st] in E. destruct (length s <? size); [discriminate|]. injection E as _ <-. reflexivity.
    + intros w i s. cbn. destruct s; cbn; lia.
  - intros w i. split; [|reflexivity]. exists (fun a => [a]). cbn. destruct size; [lia|reflexivity].
  - intros w i s E. cbn [fn collect if_act if_end if_st] in E. destruct (length s <? size); discriminate.
  - split; [|intros; left; reflexivity]. intros w i s E. cbn [fn collect if_act if_end if_st] in E. destruct (length s <? size); discriminate.
Qed.

Theorem C35_at_most_one {A B} nw (h : nat -> nat -> A -> option B) (D : dataset A) rst :
  restorable D rst nw -> resumable D rst nw ->
  let W := wrap (itermap_ds nw (filter_map h) true) D in restorable W rst nw /\ resumable W rst nw.
Proof.
  intros HS HR W. destruct (filter_map_ok h) as (H1 & H2 & H3 & H4 & H5). split.
  - apply C35_restores_partial; auto.
  - apply C35_resumes_partial; auto.
Qed.
Print Assumptions C35_at_most_one.

Theorem C35_collecting {A B} nw size (f : nat -> nat -> list A -> B) (D : dataset A) rst :
  0 < size -> endless D rst nw -> restorable D rst nw -> resumable D rst nw ->
  let W := wrap (itermap_ds nw (collect size f) true) D in restorable W rst nw /\ resumable W rst nw.
Proof.
  intros Hs HE HS HR W. destruct (collect_ok f Hs) as (H1 & H2 & H3 & H4). split.
  - apply C35_restores_partial; auto.
  - apply C35_resumes_partial; auto.
Qed.
Print Assumptions C35_collecting.

Definition keep_even (_ _ n : nat) : option nat := if Nat.even n then Some (10 * n) else None.
Definition sum_up (_ i : nat) (l : list nat) : nat * list nat := (i, l).
Definition twice (_ n : nat) : list nat * gend := ([n; n], GEnd).
Definition fail_odd (_ n : nat) : list nat * gend := if Nat.even n then ([n], GEnd) else ([], GErr).

(** the key of a sample lists the inner samples that were taken for it, also those that were left out *)
Example C35_nonvacuous :
  let W := wrap (itermap_ds 1 (filter_map keep_even) true) (list_ds [1; 2; 3; 4; 6]) in
  produces (D := W) 0 (fresh W)
    [mkS 20 [AStr "IterMapDataset"; AInt 0; AInt 0; ATup [AInt 0]; ATup [AInt 1]];
     mkS 40 [AStr "IterMapDataset"; AInt 1; AInt 0; ATup [AInt 2]; ATup [AInt 3]];
     mkS 60 [AStr "IterMapDataset"; AInt 2; AInt 0; ATup [AInt 4]]].
Proof.
  cbv zeta. exact (runk_emits 0 60 4 (fresh (wrap (itermap_ds 1 (filter_map keep_even) true) (list_ds [1; 2; 3; 4; 6])))).
Qed.
Example C35_nonvacuous_collect :
  let W := wrap (itermap_ds 1 (collect 2 sum_up) true) (list_ds [5; 6; 7]) in
  produces (D := W) 0 (fresh W)
    [mkS (0, [5; 6]) [AStr "IterMapDataset"; AInt 0; AInt 0; ATup [AInt 0]; ATup [AInt 1]];
     mkS (1, [7]) [AStr "IterMapDataset"; AInt 1; AInt 0; ATup [AInt 2]]].
Proof.
  cbv zeta. exact (runk_emits 0 60 3 (fresh (wrap (itermap_ds 1 (collect 2 sum_up) true) (list_ds [5; 6; 7])))).
Qed.

(** two samples per input sample ("yielding zero or multiple samples per fetched sample is fine"): the
    second one's key does not list the input sample, and cannot be restored *)
Theorem C35_second_sample_refuted :
  (forall w a, snd (twice w a) = GEnd) /\ restorable (stream_ds S) true 1 /\
  ~ restorable (wrap (itermap_ds 1 (per_sample twice) true) (stream_ds S)) true 1.
Proof.
  split; [reflexivity|]. split; [apply stream_restorable|]. intros H.
  set (W := wrap (itermap_ds 1 (per_sample twice) true) (stream_ds S)) in H.
  assert (E : emits 0 (fresh W) [Yield (mkS 1 [AStr "IterMapDataset"; AInt 0; AInt 0; ATup [AInt 0]]); Yield (mkS 1 [AStr "IterMapDataset"; AInt 1; AInt 1])])
    by exact (runk_emits 0 60 2 (fresh W)).
  apply emits_yield_inv in E as (s1 & N1 & E). apply emits_yield_inv in E as (s2 & N2 & _).
  pose proof (r_yield (@r_init _ W 0 true 1) N1) as R1.
  specialize (H 0 s1 _ s2 Nat.lt_0_1 R1 N2). vm_compute in H. discriminate H.
Qed.
Print Assumptions C35_second_sample_refuted.

(** and the second sample is lost by saving in between *)
Theorem C35_second_sample_resume_refuted :
  resumable (stream_ds S) true 1 /\ ~ resumable (wrap (itermap_ds 1 (per_sample twice) true) (stream_ds S)) true 1.
Proof.
  split; [apply stream_resumable|]. set (W := wrap (itermap_ds 1 (per_sample twice) true) (stream_ds S)).
  apply (@not_resumable _ W 0 true 1 60 1 1 [Some (ds_save W 0 (fst (stk 0 60 1 (ds_init W, ds_iter W))))]); auto; vm_compute; congruence.
Qed.
Print Assumptions C35_second_sample_resume_refuted.

(** after the function failed on a sample, the next sample's key also lists the failed one, on which
    restoring fails again *)
Theorem C35_after_failure_refuted :
  (forall w a, length (fst (fail_odd w a)) <= 1) /\ restorable (stream_ds S) true 1 /\
  ~ restorable (wrap (itermap_ds 1 (per_sample fail_odd) true) (stream_ds S)) true 1.
Proof.
  split; [intros w a; unfold fail_odd; destruct (Nat.even a); cbn; lia|]. split; [apply stream_restorable|]. intros H.
  set (W := wrap (itermap_ds 1 (per_sample fail_odd) true) (stream_ds S)) in H.
  assert (E : emits 0 (fresh W) [Yield (mkS 2 [AStr "IterMapDataset"; AInt 1; AInt 0; ATup [AInt 0]; ATup [AInt 1]])])
    by exact (runk_emits 0 60 1 (fresh W)).
  apply emits_yield_inv in E as (s1 & N1 & _).
  specialize (H 0 _ _ s1 Nat.lt_0_1 (@r_init _ W 0 true 1) N1). vm_compute in H. discriminate H.
Qed.
Print Assumptions C35_after_failure_refuted.

(** collecting over a finite dataset: a checkpoint after the last, incomplete sample loses the epoch end *)
Theorem C35_collect_finite_resume_refuted :
  resumable (list_ds [1; 2; 3]) true 1 /\ ~ resumable (wrap (itermap_ds 1 (collect 2 sum_up) true) (list_ds [1; 2; 3])) true 1.
Proof.
  split; [apply list_resumable|]. set (W := wrap (itermap_ds 1 (collect 2 sum_up) true) (list_ds [1; 2; 3])).
  apply (@not_resumable _ W 0 true 1 60 2 1 [Some (ds_save W 0 (fst (stk 0 60 2 (ds_init W, ds_iter W))))]); auto; vm_compute; congruence.
Qed.
Print Assumptions C35_collect_finite_resume_refuted.
