(** Property C32: GroupBatchDataset. *)
From Coq Require Import String.
From Verif Require Import Base Dataset DatasetProofs Wrap WrapProofs WrapRun WrapTrace WrapSpec WrapLib
  Wrappers SourceProofs Buffer Batch BatchSpec P_Batch GroupBatch GroupBatchSpec GroupBatchProofs GroupBatchProofs2.
Local Open Scope string_scope.
Local Open Scope list_scope.
Local Open Scope nat_scope.

Lemma clean_epochs {A} (eps : list (list (sample A))) xs : clean (concat (map epoch eps) ++ map Yield xs).
Proof.
  apply Forall_app. split; [|apply Forall_map, Forall_forall; exact (fun _ _ => I)].
  apply Forall_concat. apply Forall_map. apply Forall_forall. intros l _. apply Forall_app.
  split; [apply Forall_map, Forall_forall; exact (fun _ _ => I)|repeat constructor].
Qed.

(** every epoch's samples are cut, key by key and in arrival order, into groups of the key's size,
    and every group becomes one batch with a key made of its samples' keys *)
Theorem C32_batches {A B K} keq nw fixed drop (kf : nat -> nat -> A -> ures (K * option nat)) (f : nat -> nat -> list A -> ures B)
    (D : dataset A) w cls size eps xs :
  w < nw -> (forall a b, keq a b = true <-> a = b) -> groups_by fixed (kf w) cls size -> (forall k, 0 < size k) ->
  (forall i l, f w i l <> UFatal) ->
  emits w (fresh D) (concat (map epoch eps) ++ map Yield xs) ->
  exists outs, emits w (fresh (wrap (groupbatch_ds keq nw fixed drop false kf f) D)) outs /\
    group_batched keq cls (f w) size drop 0 0 eps xs outs.
Proof.
  intros Hw Hk Hb Hs Hf E. eexists. split.
  - eapply gb_forward; eauto using clean_epochs.
  - apply (@ev_group_batched A B K keq fixed drop kf f w cls size Hk Hb Hs Hf).
Qed.
Print Assumptions C32_batches.

(** ... and nothing else comes out *)
Theorem C32_nothing_else {A B K} keq nw fixed drop (kf : nat -> nat -> A -> ures (K * option nat)) (f : nat -> nat -> list A -> ures B)
    (D : dataset A) w cls size outs :
  w < nw -> (forall a b, keq a b = true <-> a = b) -> groups_by fixed (kf w) cls size -> (forall k, 0 < size k) ->
  (forall i l, f w i l <> UFatal) -> clean outs ->
  emits w (fresh (wrap (groupbatch_ds keq nw fixed drop false kf f) D)) outs ->
  exists eps xs more, emits w (fresh D) (concat (map epoch eps) ++ map Yield xs) /\
    group_batched keq cls (f w) size drop 0 0 eps xs (outs ++ more).
Proof.
  intros Hw Hk Hb Hs Hf HC E.
  destruct (@gb_trace A B K keq nw fixed drop false kf f D w Hw (fun _ => True) I (fun _ _ _ _ => I) (fun _ _ _ _ => I) outs HC E) as (ins & more & C & EI & EQ).
  destruct (clean_decompose C) as (eps & xs & ->). exists eps, xs, more. split; [exact EI|]. rewrite <- EQ.
  apply (@ev_group_batched A B K keq fixed drop kf f w cls size Hk Hb Hs Hf).
Qed.
Print Assumptions C32_nothing_else.

Definition parity_key (_ _ : nat) (n : nat) : ures (bool * option nat) := UOk (Nat.even n, None).
Definition as_list (_ i : nat) (l : list nat) : ures (nat * list nat) := UOk (i, l).

(** the order: odd numbers in pairs, even numbers in threes; 6 is left over before 11 although 11's
    first companion came later *)
Example C32_order_example :
  in_order Bool.eqb (fun even => if even then 3 else 2) false
    (map (fun n => (Nat.even n, n)) [2; 1; 3; 4; 5; 8; 7; 6; 11]) =
  [(false, [1; 3]); (true, [2; 4; 8]); (false, [5; 7]); (true, [6]); (false, [11])].
Proof. vm_compute. reflexivity. Qed.

Example C32_nonvacuous :
  groups_by (Some 2) (parity_key 0) (fun _ n => Some (Nat.even n)) (fun _ => 2) /\
  let W := wrap (groupbatch_ds Bool.eqb 1 (Some 2) false false parity_key as_list) (list_ds [1; 2; 3; 5; 4]) in
  produces (D := W) 0 (fresh W)
    [mkS (0, [1; 3]) [AStr "GroupBatchDataset"; AInt 0; ATup [AInt 0]; ATup [AInt 2]];
     mkS (1, [2; 4]) [AStr "GroupBatchDataset"; AInt 1; ATup [AInt 1]; ATup [AInt 4]];
     mkS (2, [5]) [AStr "GroupBatchDataset"; AInt 2; ATup [AInt 3]]].
Proof.
  split; [intros i x; left; split; reflexivity|]. cbv zeta.
  exact (runk_emits 0 60 4 (fresh (wrap (groupbatch_ds Bool.eqb 1 (Some 2) false false parity_key as_list) (list_ds [1; 2; 3; 5; 4])))).
Qed.

(** the restore key of a batch brings the batch back *)
Theorem C32_restores {A B K} keq nw fixed drop (kf : nat -> nat -> A -> ures (K * option nat)) (f : nat -> nat -> list A -> ures B) (D : dataset A) rst :
  restorable D rst nw -> restorable (wrap (groupbatch_ds keq nw fixed drop false kf f) D) rst nw.
Proof.
  intros HR. apply wrap_restores; [reflexivity|apply gb_no_reset|exact HR|].
  eapply local_yields_weaken; [| |apply gb_restores]; auto.
Qed.
Print Assumptions C32_restores.

(** resuming: exact when the saved state lists no waiting samples *)
Theorem C32_resumes_if_nothing_waits_partial {A B K} keq nw fixed drop (kf : nat -> nat -> A -> ures (K * option nat)) (f : nat -> nat -> list A -> ures B) (D : dataset A) rst :
  endless D rst nw \/ drop = true -> restorable D rst nw -> resumable D rst nw ->
  let W := wrap (groupbatch_ds keq nw fixed drop false kf f) D in
  forall w (s : st W) sts, w < nw -> reach w rst nw s ->
    (forall k bs keys, In (k, (bs, keys)) (snd (fst (ds_save W w (fst s)))) -> keys = []) ->
    length sts = nw -> nth_error sts w = Some (Some (ds_save W w (fst s))) ->
    same_stream w s (ds_restore W (Some (ds_merge W sts)) (ds_init W), ds_iter W).
Proof.
  intros HE HS HR W w s sts Hw Rs HP Hl Hn.
  assert (HP' : false = true \/ gb_nothing_waits w (fst (loc (T := groupbatch_ds keq nw fixed drop false kf f) (D := D) s))).
  { right. unfold gb_nothing_waits. apply Forall_forall. intros [k [bs b]] Hin. cbn [snd]. apply (HP k bs).
    exact (in_map (fun p : bucket => (fst p, (fst (snd p), buf_save w (snd (snd p))))) _ _ Hin). }
  destruct HE as [HE|HD].
  - apply (@wrap_resumable_at A B (groupbatch_ds keq nw fixed drop false kf f) D nw rst rst true true) with (P := fun w l => false = true \/ gb_nothing_waits w (fst l)); auto.
    + left. apply gb_no_reset.
    + apply gb_local_resumable. auto.
  - apply (@wrap_resumable_at A B (groupbatch_ds keq nw fixed drop false kf f) D nw rst rst false true) with (P := fun w l => false = true \/ gb_nothing_waits w (fst l)); auto; try discriminate.
    + left. apply gb_no_reset.
    + apply gb_local_resumable. auto.
Qed.
Print Assumptions C32_resumes_if_nothing_waits_partial.

(** otherwise the waiting samples are lost: restore_state gives each worker the saved samples of all
    workers but itself *)
Theorem C32_resume_refuted : exists (D : dataset nat) (kf : nat -> nat -> nat -> ures (bool * option nat)) (f : nat -> nat -> list nat -> ures (nat * list nat)),
  groups_by (Some 2) (kf 0) (fun _ n => Some (Nat.even n)) (fun _ => 2) /\
  endless D true 1 /\ resumable D true 1 /\ restorable D true 1 /\
  ~ resumable (wrap (groupbatch_ds Bool.eqb 1 (Some 2) false false kf f) D) true 1.
Proof.
  exists (stream_ds S), parity_key, as_list. split; [intros i x; left; split; reflexivity|].
  split; [apply stream_endless|]. split; [apply stream_resumable|]. split; [apply stream_restorable|].
  set (W := wrap (groupbatch_ds Bool.eqb 1 (Some 2) false false parity_key as_list) (stream_ds S)).
  apply (@not_resumable _ W 0 true 1 50 1 1 [Some (ds_save W 0 (fst (stk 0 50 1 (ds_init W, ds_iter W))))]); auto; vm_compute; congruence.
Qed.
Print Assumptions C32_resume_refuted.

(** with the two branches of the conditional in restore_state swapped, it resumes exactly *)
Theorem C32_resumes_when_repaired {A B K} keq nw fixed drop (kf : nat -> nat -> A -> ures (K * option nat)) (f : nat -> nat -> list A -> ures B) (D : dataset A) rst :
  endless D rst nw \/ drop = true -> restorable D rst nw -> resumable D rst nw ->
  resumable (wrap (groupbatch_ds keq nw fixed drop true kf f) D) rst nw.
Proof.
  intros HE HS HR w s sts Hw Rs Hl Hn.
  destruct HE as [HE|HD].
  - apply (@wrap_resumable_at A B (groupbatch_ds keq nw fixed drop true kf f) D nw rst rst true true) with (P := fun w l => true = true \/ gb_nothing_waits w (fst l)); auto.
    + left. apply gb_no_reset.
    + apply gb_local_resumable. auto.
  - apply (@wrap_resumable_at A B (groupbatch_ds keq nw fixed drop true kf f) D nw rst rst false true) with (P := fun w l => true = true \/ gb_nothing_waits w (fst l)); auto; try discriminate.
    + left. apply gb_no_reset.
    + apply gb_local_resumable. auto.
Qed.
Print Assumptions C32_resumes_when_repaired.

(** over a finite dataset with incomplete batches kept, a checkpoint between the final batches is not
    resumed exactly, even with that repair *)
Theorem C32_resume_in_final_batches_refuted : exists (D : dataset nat) (kf : nat -> nat -> nat -> ures (bool * option nat)) (f : nat -> nat -> list nat -> ures (nat * list nat)),
  groups_by (Some 2) (kf 0) (fun _ n => Some (Nat.even n)) (fun _ => 2) /\
  resumable D true 1 /\ restorable D true 1 /\
  ~ resumable (wrap (groupbatch_ds Bool.eqb 1 (Some 2) false true kf f) D) true 1.
Proof.
  exists (list_ds [1; 2]), parity_key, as_list. split; [intros i x; left; split; reflexivity|].
  split; [apply list_resumable|]. split; [apply list_restorable|].
  set (W := wrap (groupbatch_ds Bool.eqb 1 (Some 2) false true parity_key as_list) (list_ds [1; 2])).
  apply (@not_resumable _ W 0 true 1 50 1 1 [Some (ds_save W 0 (fst (stk 0 50 1 (ds_init W, ds_iter W))))]); auto; vm_compute; congruence.
Qed.
Print Assumptions C32_resume_in_final_batches_refuted.
