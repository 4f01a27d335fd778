(** Properties C30 and C31: BatchDataset. *)
From Coq Require Import String.
From Verif Require Import Base Dataset DatasetProofs Wrap WrapProofs WrapRun WrapTrace WrapSpec WrapLib
  Wrappers MapModel IdxProofs SourceProofs Batch BatchSpec BatchProofs GenBatchProofs.
Local Open Scope string_scope.
Local Open Scope list_scope.
Local Open Scope nat_scope.

(** the batches of successive epochs, epoch [e] being cut into the groups [gss[e]]; the sample index
    counts on through the epochs *)
Fixpoint batched_epochs {A B} (h : nat -> list A -> B) (i : nat) (gss : list (list (list (sample A)))) : list (event (sample B)) :=
  match gss with
  | [] => []
  | gs :: gss' => epoch (batches h i gs) ++ batched_epochs h (i + length gs) gss'
  end.

(** the same, contents only, for a batcher that may skip *)
Fixpoint batched_contents {A B} (f : nat -> list A -> ures B) (i : nat) (gss : list (list (list (sample A)))) : list (event B) :=
  match gss with
  | [] => []
  | gs :: gss' => map Yield (batch_contents f i (map (map pl) gs)) ++ Done :: batched_contents f (i + length gs) gss'
  end.

Definition n_groups {X} (gss : list (list X)) : nat := list_sum (map (@length X) gss).

Lemma ev_epochs {A B} size drop (f : nat -> nat -> list A -> ures B) w h : 0 < size -> (forall i l, f w i l = UOk (h i l)) ->
  forall eps gss i l, Forall2 (groups size drop) eps gss ->
  bt_events size drop f w i [] [] (concat (map epoch eps) ++ l) =
  batched_epochs h i gss ++ bt_events size drop f w (i + n_groups gss) [] [] l.
Proof.
  intros Hs Hf. induction eps as [|xs eps IH]; intros gss i l F; inversion F as [|? gs ? gss' HG F']; subst; cbn [map concat batched_epochs app].
  - unfold n_groups. cbn. rewrite Nat.add_0_r. reflexivity.
  - rewrite <- app_assoc, (ev_epoch_exact Hs _ _ Hf HG), (IH gss') by exact F'. unfold epoch, n_groups. cbn [map list_sum fold_right].
    rewrite <- !app_assoc. cbn [app]. rewrite Nat.add_assoc. reflexivity.
Qed.

Lemma ev_epochs_contents {A B} size drop (f : nat -> nat -> list A -> ures B) w : 0 < size ->
  forall eps gss i l, Forall2 (groups size drop) eps gss ->
  map epl (bt_events size drop f w i [] [] (concat (map epoch eps) ++ l)) =
  batched_contents (f w) i gss ++ map epl (bt_events size drop f w (i + n_groups gss) [] [] l).
Proof.
  intros Hs. induction eps as [|xs eps IH]; intros gss i l F; inversion F as [|? gs ? gss' HG F']; subst; cbn [map concat batched_contents app].
  - unfold n_groups. cbn. rewrite Nat.add_0_r. reflexivity.
  - rewrite <- app_assoc, (ev_epoch_contents f w Hs _ _ HG), (IH gss') by exact F'. unfold n_groups. cbn [map list_sum fold_right].
    rewrite <- !app_assoc. cbn [app]. rewrite Nat.add_assoc. reflexivity.
Qed.

Lemma clean_decompose {A} (l : list (event (sample A))) : clean l -> exists eps xs, l = concat (map epoch eps) ++ map Yield xs.
Proof.
  induction l as [|e l IH]; intros C; [exists [], []; reflexivity|]. inversion C as [|? ? He C']; subst. destruct (IH C') as (eps & xs & ->).
  destruct e as [a| | |]; try contradiction.
  - destruct eps as [|ys eps]; [exists [], (a :: xs); reflexivity|]. exists ((a :: ys) :: eps), xs. reflexivity.
  - exists ([] :: eps), xs. reflexivity.
Qed.

Lemma groups_exist2 {X} size drop (eps : list (list X)) : 0 < size -> exists gss, Forall2 (groups size drop) eps gss.
Proof.
  intros Hs. induction eps as [|xs eps [gss IH]]; [exists []; constructor|]. destruct (groups_exist drop xs Hs) as [gs G].
  exists (gs :: gss). constructor; assumption.
Qed.

(** ** C30 *)
(** every complete epoch becomes the batches of its groups; of an epoch in progress, the complete groups *)
Theorem C30_batches {A B} nw size drop (h : nat -> nat -> list A -> B) (D : dataset A) w eps gss xs full tail :
  w < nw -> 0 < size ->
  emits w (fresh D) (concat (map epoch eps) ++ map Yield xs) ->
  Forall2 (groups size drop) eps gss ->
  xs = concat full ++ tail -> Forall (fun g => length g = size) full -> length tail < size ->
  emits w (fresh (wrap (batch_ds nw size drop (fun w i l => UOk (h w i l))) D))
    (batched_epochs (h w) 0 gss ++ map Yield (batches (h w) (n_groups gss) full)).
Proof.
  intros Hw Hs E F EX HF HT.
  assert (HC : clean (concat (map epoch eps) ++ map Yield xs)).
  { apply Forall_app. split; [|apply Forall_map, Forall_forall; exact (fun _ _ => I)].
    apply Forall_concat. apply Forall_map. apply Forall_forall. intros l _. apply Forall_app. split; [apply Forall_map, Forall_forall; exact (fun _ _ => I)|repeat constructor]. }
  pose proof (@bt_forward A B nw size drop (fun w i l => UOk (h w i l)) D w Hw _ ltac:(discriminate) HC E) as R.
  rewrite (@ev_epochs A B size drop (fun w i l => UOk (h w i l)) w (h w) Hs (fun _ _ => eq_refl) eps gss 0 _ F) in R. rewrite (@ev_part_exact A B size drop (fun w i l => UOk (h w i l)) w Hs (h w) _ xs full tail (fun _ _ => eq_refl) HF HT EX) in R. exact R.
Qed.
Print Assumptions C30_batches.

(** a batcher may also skip a batch or fail in a way that is ignored: the other batches are unaffected *)
Theorem C30_batches_skipping {A B} nw size drop (f : nat -> nat -> list A -> ures B) (D : dataset A) w eps gss :
  w < nw -> 0 < size -> (forall w i l, f w i l <> UFatal) ->
  emits w (fresh D) (concat (map epoch eps)) ->
  Forall2 (groups size drop) eps gss ->
  exists outs, emits w (fresh (wrap (batch_ds nw size drop f) D)) outs /\ map epl outs = batched_contents (f w) 0 gss.
Proof.
  intros Hw Hs HN E F.
  assert (HC : clean (concat (map epoch eps))).
  { apply Forall_concat. apply Forall_map. apply Forall_forall. intros l _. apply Forall_app. split; [apply Forall_map, Forall_forall; exact (fun _ _ => I)|repeat constructor]. }
  exists (bt_events size drop f w 0 [] [] (concat (map epoch eps))). split; [apply bt_forward; auto|].
  rewrite <- (app_nil_r (concat (map epoch eps))), (@ev_epochs_contents A B size drop f w Hs eps gss 0 [] F). cbn. apply app_nil_r.
Qed.
Print Assumptions C30_batches_skipping.

(** ... and nothing else comes out *)
Theorem C30_nothing_else {A B} nw size drop (h : nat -> nat -> list A -> B) (D : dataset A) w outs :
  w < nw -> 0 < size -> clean outs ->
  emits w (fresh (wrap (batch_ds nw size drop (fun w i l => UOk (h w i l))) D)) outs ->
  exists eps gss xs full tail more,
    emits w (fresh D) (concat (map epoch eps) ++ map Yield xs) /\
    Forall2 (groups size drop) eps gss /\ xs = concat full ++ tail /\ Forall (fun g => length g = size) full /\ length tail < size /\
    outs ++ more = batched_epochs (h w) 0 gss ++ map Yield (batches (h w) (n_groups gss) full).
Proof.
  intros Hw Hs HC E. destruct (bt_trace Hw HC E) as (ins & more & C & EI & EQ).
  destruct (clean_decompose C) as (eps & xs & ->). destruct (groups_exist2 drop eps Hs) as [gss F].
  destruct (cut_exists xs Hs) as (full & tail & HF & HT & EX).
  exists eps, gss, xs, full, tail, more. repeat (split; [assumption|]). rewrite <- EQ.
  rewrite (@ev_epochs A B size drop (fun w i l => UOk (h w i l)) w (h w) Hs (fun _ _ => eq_refl) eps gss 0 _ F). rewrite (@ev_part_exact A B size drop (fun w i l => UOk (h w i l)) w Hs (h w) _ xs full tail (fun _ _ => eq_refl) HF HT EX). reflexivity.
Qed.
Print Assumptions C30_nothing_else.

(** the groups of an epoch exist and their number is the epoch's length divided by the batch size,
    rounded down (drop_last) or up *)
Theorem C30_group_count {X} size drop (xs : list X) : 0 < size ->
  (exists gs, groups size drop xs gs) /\
  forall gs, groups size drop xs gs -> length gs = group_count size drop (length xs).
Proof. intros Hs. split; [apply groups_exist; exact Hs|]. intros gs. apply groups_count. exact Hs. Qed.
Print Assumptions C30_group_count.

Lemma sum_seq_const (c : nat -> nat) k n a : (forall i, a <= i < a + n -> c i = k) -> list_sum (map c (seq a n)) = n * k.
Proof.
  revert a. induction n as [|n IH]; intros a H; [reflexivity|]. cbn [seq map]. cbn [list_sum fold_right]. fold (list_sum (map c (seq (S a) n))).
  rewrite IH by (intros; apply H; lia). rewrite H by lia. reflexivity.
Qed.

Lemma total_split nw size drop n : 0 < nw -> total_batches nw size drop n =
  group_count size drop (n / nw) * (nw - n mod nw) + group_count size drop (n / nw + 1) * (n mod nw).
Proof.
  intros Hn. unfold total_batches. pose proof (Nat.mod_upper_bound n nw ltac:(lia)) as HM. set (r := n mod nw) in *.
  replace (seq 0 nw) with (seq 0 r ++ seq (0 + r) (nw - r)) by (rewrite <- seq_app; f_equal; lia).
  rewrite map_app, list_sum_app.
  rewrite (@sum_seq_const _ (group_count size drop (n / nw + 1))).
  2:{ intros i Hi. unfold worker_share. fold r. destruct (Nat.ltb_spec i r); [reflexivity|lia]. }
  rewrite (@sum_seq_const _ (group_count size drop (n / nw))).
  2:{ intros i Hi. unfold worker_share. fold r. destruct (Nat.ltb_spec i r); [lia|]. f_equal. lia. }
  nia.
Qed.

Lemma count_floor size drop m : 0 < size ->
  m / size + (if negb (m mod size =? 0) && negb drop then 1 else 0) = group_count size drop m.
Proof.
  intros Hs. unfold group_count. destruct drop; [rewrite andb_false_r; lia|]. rewrite andb_true_r.
  pose proof (Nat.div_mod m size ltac:(lia)) as E. pose proof (Nat.mod_upper_bound m size ltac:(lia)) as HM.
  destruct (Nat.eqb_spec (m mod size) 0) as [Z|Z]; cbn [negb].
  - replace (m + size - 1) with ((m / size) * size + (size - 1)) by lia. rewrite Nat.div_add_l by lia. rewrite (Nat.div_small (size - 1)) by lia. lia.
  - replace (m + size - 1) with ((m / size + 1) * size + (m mod size - 1)) by lia. rewrite Nat.div_add_l by lia. rewrite (Nat.div_small (m mod size - 1)) by lia. lia.
Qed.

(** the reported length is the number of batches if the samples divide evenly or incomplete batches
    are dropped *)
Theorem C30_length_partial nw size drop n : 0 < nw -> 0 < size -> drop = true \/ n mod nw = 0 ->
  batch_len nw size drop n = total_batches nw size drop n.
Proof.
  intros Hn Hs H. rewrite total_split by exact Hn. unfold batch_len. rewrite count_floor by exact Hs.
  destruct H as [-> | ->]; [|lia]. unfold group_count. rewrite andb_false_r. lia.
Qed.
Print Assumptions C30_length_partial.

(** otherwise it may be too high or too low *)
Theorem C30_length_refuted :
  batch_len 2 2 false 3 = 3 /\ total_batches 2 2 false 3 = 2 /\
  batch_len 2 2 false 9 = 4 /\ total_batches 2 2 false 9 = 5.
Proof. vm_compute. repeat split. Qed.
Print Assumptions C30_length_refuted.

Example C30_nonvacuous : groups 2 false [1; 2; 3] [[1; 2]; [3]] /\
  produces (D := wrap (batch_ds 1 2 false (fun _ i l => UOk (i, l))) (list_ds [10; 20; 30])) 0
    (fresh (wrap (batch_ds 1 2 false (fun _ i l => UOk (i, l))) (list_ds [10; 20; 30])))
    [mkS (0, [10; 20]) [AStr "BatchDataset"; AInt 0; ATup [AInt 0]; ATup [AInt 1]];
     mkS (1, [30]) [AStr "BatchDataset"; AInt 1; ATup [AInt 2]]].
Proof.
  split; [exists [[1; 2]], [3]; repeat (constructor; auto)|].
  exact (runk_emits 0 50 3 (fresh (wrap (batch_ds 1 2 false (fun _ i l => UOk (i, l))) (list_ds [10; 20; 30])))).
Qed.

(** resuming: over endless datasets (training), or when incomplete batches are dropped *)
Theorem C30_resumes_partial {A B} nw size drop (f : nat -> nat -> list A -> ures B) (D : dataset A) rst :
  (forall w i l, exists b, f w i l = UOk b) ->
  endless D rst nw \/ drop = true ->
  resumable D rst nw -> resumable (wrap (batch_ds nw size drop f) D) rst nw.
Proof.
  intros Hok [HE|HD] HR.
  - apply (@wrap_resumable A B _ D nw rst rst true false); auto; try discriminate.
    + left. apply bt_no_reset.
    + apply bt_local_resumable; auto.
  - apply (@wrap_resumable A B _ D nw rst rst false false); auto; try discriminate.
    + left. apply bt_no_reset.
    + apply bt_local_resumable; auto.
Qed.
Print Assumptions C30_resumes_partial.

(** with a finite inner dataset and an incomplete last batch, the restored iterator misses the end of
    the epoch *)
Theorem C30_resume_at_last_batch_refuted : exists (D : dataset nat) (f : nat -> nat -> list nat -> ures (list nat)),
  (forall w i l, exists b, f w i l = UOk b) /\ resumable D true 1 /\ ~ resumable (wrap (batch_ds 1 2 false f) D) true 1.
Proof.
  exists (list_ds [1; 2; 3]), (fun w i l => UOk l). split; [eauto|]. split; [apply list_resumable|].
  set (W := wrap (batch_ds 1 2 false (fun w i (l : list nat) => UOk l)) (list_ds [1; 2; 3])).
  apply (@not_resumable _ W 0 true 1 50 2 1 [Some (ds_save W 0 (fst (stk 0 50 2 (ds_init W, ds_iter W))))]); auto; vm_compute; congruence.
Qed.
Print Assumptions C30_resume_at_last_batch_refuted.

(** a batcher that is a generator: the interrupted generator is run again with the next sample index *)
Theorem C30_generator_resume_refuted : exists (D : dataset nat) (f : nat -> nat -> list nat -> list (nat * list nat) * gend),
  (forall w i l, snd (f w i l) = GEnd) /\ endless D true 1 /\ resumable D true 1 /\ restorable D true 1 /\ ~ resumable (wrap (batchgen_ds 1 2 false f) D) true 1.
Proof.
  exists (stream_ds S), (fun w i l => ([(i, l); (i, rev l)], GEnd)). split; [reflexivity|].
  split; [apply stream_endless|]. split; [apply stream_resumable|]. split; [apply stream_restorable|].
  set (W := wrap (batchgen_ds 1 2 false (fun w i (l : list nat) => ([(i, l); (i, rev l)], GEnd))) (stream_ds S)).
  apply (@not_resumable _ W 0 true 1 50 1 1 [Some (ds_save W 0 (fst (stk 0 50 1 (ds_init W, ds_iter W))))]); auto; vm_compute; congruence.
Qed.
Print Assumptions C30_generator_resume_refuted.

(** ** C31 *)
(** the key of a batch is ("BatchDataset", index, key of sample 1, ..., key of sample n) by
    [C30_batches]; restoring it gives the batch back *)
Theorem C31_restores_partial {A B} nw size drop (f : nat -> nat -> list A -> ures B) (D : dataset A) rst :
  (forall w i l, exists b, f w i l = UOk b) ->
  restorable D rst nw -> restorable (wrap (batch_ds nw size drop f) D) rst nw.
Proof.
  intros Hok HR. apply wrap_restores; [reflexivity|apply bt_no_reset|exact HR|].
  eapply local_yields_weaken; [| |apply bt_restores; exact Hok]; auto.
Qed.
Print Assumptions C31_restores_partial.

Example C31_nonvacuous : restorable (wrap (batch_ds 1 2 false (fun _ i l => UOk (i, l))) (list_ds [10; 20; 30])) true 1.
Proof. apply C31_restores_partial; [eauto|apply list_restorable]. Qed.

(** if the previous batch was skipped, the key of the next one also contains that batch's samples and
    the batcher gets too many samples *)
Theorem C31_after_skip_refuted : exists (D : dataset nat) (f : nat -> nat -> list nat -> ures (list nat)),
  (forall w i l, f w i l = USkip \/ f w i l = UOk l) /\ restorable D true 1 /\ let W := wrap (batch_ds 1 2 false f) D in
  emits 0 (fresh W) [Yield (mkS [3; 4] [AStr "BatchDataset"; AInt 1; ATup [AInt 0]; ATup [AInt 1]; ATup [AInt 2]; ATup [AInt 3]])] /\ exists b, ds_restore_sample W 0 [AStr "BatchDataset"; AInt 1; ATup [AInt 0]; ATup [AInt 1]; ATup [AInt 2]; ATup [AInt 3]] = Ok b /\ pl b = [1; 2; 3; 4].
Proof.
  exists (stream_ds S), (fun w i l => if i =? 0 then USkip else UOk l). split; [intros w [|i] l; auto|].
  split; [apply stream_restorable|]. cbv zeta. split.
  - exact (runk_emits 0 50 1 (fresh (wrap (batch_ds 1 2 false (fun w i (l : list nat) => if i =? 0 then USkip else UOk l)) (stream_ds S)))).
  - eexists. split; vm_compute; reflexivity.
Qed.
Print Assumptions C31_after_skip_refuted.

(** *** restore keys of a generator batcher that does not raise *)
Theorem C31_generator_restores_partial {A B} nw size drop (f : nat -> nat -> list A -> list B * gend) (D : dataset A) rst :
  (forall w i l, snd (f w i l) = GEnd) ->
  restorable D rst nw -> restorable (wrap (batchgen_ds nw size drop f) D) rst nw.
Proof.
  intros He HR. apply wrap_restores; [reflexivity|apply bg_no_reset|exact HR|apply bg_restores; auto].
Qed.
Print Assumptions C31_generator_restores_partial.

Example C31_generator_nonvacuous :
  let W := wrap (batchgen_ds 1 2 false (fun _ i (l : list nat) => ([(i, l); (i, rev l)], GEnd))) (list_ds [5; 6]) in
  produces (D := W) 0 (fresh W)
    [mkS (0, [5; 6]) [AStr "BatchDataset"; AInt 0; AInt 0; ATup [AInt 0]; ATup [AInt 1]];
     mkS (0, [6; 5]) [AStr "BatchDataset"; AInt 0; AInt 1; ATup [AInt 0]; ATup [AInt 1]]] /\
  restorable W true 1.
Proof.
  cbv zeta. split.
  - exact (runk_emits 0 60 3 (fresh (wrap (batchgen_ds 1 2 false (fun _ i (l : list nat) => ([(i, l); (i, rev l)], GEnd))) (list_ds [5; 6])))).
  - apply C31_generator_restores_partial; [reflexivity|apply list_restorable].
Qed.
