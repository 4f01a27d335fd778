(** Properties of the single-input wrappers: C23-C27, C34, C36.

    Vocabulary: [fresh D] a newly constructed dataset being iterated; [emits w s l] worker [w], from
    state [s], emits the events [l] (samples and epoch ends, iterating again after each end);
    [produces w s xs] one complete epoch [xs]; [resumable], [restorable], [endless], [resettable],
    [same_stream]: Dataset.v; [epochs_of], [resumes_modulo_end]: WrapSpec.v. *)
From Coq Require Import String.
From Verif Require Import Base Dataset DatasetProofs Wrap WrapProofs WrapRun WrapTrace WrapSpec WrapLib
  Rng RngProofs Buffer ShuffleBuffer ShuffleProofs Wrappers MapModel SourceProofs IdxProofs RepeatProofs
  EpochizeProofs LimitProofs SimpleProofs MapGenProofs.

(** ** C23 ShuffleBufferDataset only reorders *)
Theorem C23_shuffle_epoch_is_permutation {A} (R : rng_ops) (OK : rng_ok R) nw size (D : dataset A) w xs :
  w < nw -> 0 < size -> produces w (fresh D) xs ->
  exists ys, produces w (fresh (wrap (shuffle_buffer R nw size) D)) ys /\ Permutation ys xs.
Proof. intros Hw Hs HP. apply shuffle_epoch; auto. Qed.
Print Assumptions C23_shuffle_epoch_is_permutation.

(** whatever comes out, at any time: complete epochs are permutations of complete inner epochs; of
    the current one at most [size] samples are being held back *)
Theorem C23_shuffle_holds_back_at_most_size {A} (R : rng_ops) nw size (D : dataset A) w outs :
  w < nw -> clean outs -> emits w (fresh (wrap (shuffle_buffer R nw size) D)) outs ->
  exists ins, clean ins /\ emits w (fresh D) ins /\
    epochwise (fun xs ys => Permutation ys xs)
              (fun xs ys => exists rest, length rest <= size /\ Permutation xs (ys ++ rest)) ins outs.
Proof.
  intros Hw HC E. destruct (shuffle_trace Hw HC E) as (ins & C & E1 & (i & o & xs & ys & e & H1 & H2 & H3 & H4 & H5 & _)).
  exists ins. split; [exact C|]. split; [exact E1|]. exists i, o, xs, ys, e. auto 10.
Qed.
Print Assumptions C23_shuffle_holds_back_at_most_size.

Theorem C23_shuffle_not_too_early {A} (R : rng_ops) nw size (D : dataset A) w xs ys y :
  w < nw -> emits w (fresh D) (map Yield xs) -> length ys + size <= length xs ->
  emits w (fresh (wrap (shuffle_buffer R nw size) D)) (map Yield (ys ++ [y])) ->
  In y (firstn (length ys + size) xs).
Proof.
  intros Hw EX HL E.
  destruct (shuffle_trace Hw (clean_Yields _) E) as (ins & C & E1 & (i & o & xs' & ys' & e & H1 & H2 & H3 & H4 & _ & H6)).
  assert (Z : i = [] /\ o = []).
  { destruct H4 as [|i0 o0 x1 y1]; [auto|]. exfalso. unfold epoch in H3. rewrite <- !app_assoc, (app_assoc o0) in H3.
    eapply no_done_Yield. exact H3. }
  destruct Z as [-> ->]. cbn [app] in *. apply Yield_inj in H3. subst ys'.
  destruct H6 as [H6|(x0 & x1 & r0 & -> & Hr & P)]; [destruct ys; discriminate|].
  assert (L0 : length x0 <= length ys + size).
  { rewrite (Permutation_length P), !app_length. cbn. lia. }
  assert (IN : In y x0).
  { apply (Permutation_in _ (Permutation_sym P)). apply in_or_app. left. apply in_or_app. right. left. reflexivity. }
  assert (X : x0 = firstn (length x0) xs).
  { apply Yield_inj. apply (@emits_det _ D w _ (fresh D)).
    - apply emits_prefix with (l2 := map Yield x1 ++ e). rewrite app_assoc, <- map_app, <- H1. exact E1.
    - apply emits_prefix with (l2 := map Yield (skipn (length x0) xs)). rewrite <- map_app, firstn_skipn. exact EX.
    - rewrite !map_length, firstn_length. lia. }
  rewrite X in IN. replace (firstn (length x0) xs) with (firstn (length x0) (firstn (length ys + size) xs)) in IN.
  - rewrite <- (firstn_skipn (length x0) (firstn (length ys + size) xs)). apply in_or_app. left. exact IN.
  - rewrite firstn_firstn. f_equal. lia.
Qed.
Print Assumptions C23_shuffle_not_too_early.

Example C23_nonvacuous :
  produces (D := list_ds [10; 20; 30; 40; 50]) 0 (fresh _) (keyed 0 [10; 20; 30; 40; 50]) /\
  map (fun e => match e with Yield a => Some (pl a) | _ => None end)
      (runk 0 50 6 (fresh (wrap (shuffle_buffer lcg 1 3) (list_ds [10; 20; 30; 40; 50])))) =
  [Some 20; Some 40; Some 30; Some 10; Some 50; None].
Proof. split; [apply list_produces|vm_compute; reflexivity]. Qed.

(** ** C24 ShuffleBufferDataset resumes exactly *)
(** over an endless inner dataset (the training case) *)
Theorem C24_shuffle_resumes {A} (R : rng_ops) (OK : rng_ok R) nw size (D : dataset A) rst :
  resumable D rst nw -> restorable D rst nw -> endless D rst nw ->
  resumable (wrap (shuffle_buffer R nw size) D) rst nw.
Proof.
  intros HR HS HE.
  apply (@wrap_resumable A A _ D nw rst rst true true); auto.
  - left. apply shuffle_no_reset.
  - apply shuffle_local_resumable. 
Qed.
Print Assumptions C24_shuffle_resumes.

(** over a finite inner dataset it does not: saved while the buffer is being emptied at the end of an
    epoch, the restored dataset reads samples of the next epoch into the buffer *)
Theorem C24_shuffle_finite_refuted : exists (D : dataset nat) (R : rng_ops), rng_ok R /\
  resumable D true 1 /\ restorable D true 1 /\ ~ resumable (wrap (shuffle_buffer R 1 3) D) true 1.
Proof.
  exists (list_ds [10; 20; 30]), lcg. split; [exact lcg_ok|]. split; [apply list_resumable|]. split; [apply list_restorable|].
  set (W := wrap (shuffle_buffer lcg 1 3) (list_ds [10; 20; 30])).
  apply (@not_resumable _ W 0 true 1 50 2 3 [Some (ds_save W 0 (fst (stk 0 50 2 (ds_init W, ds_iter W))))]); auto; vm_compute; congruence.
Qed.
Print Assumptions C24_shuffle_finite_refuted.

Example C24_nonvacuous : resumable (stream_ds S) true 2 /\ restorable (stream_ds S) true 2 /\ endless (stream_ds S) true 2.
Proof. split; [apply stream_resumable|]. split; [apply stream_restorable|apply stream_endless]. Qed.

(** ** C25 RepeatDataset *)
(** infinite: the samples of the inner dataset, epoch after epoch, without ever ending *)
Theorem C25_repeat_forever {A} nw has (D : dataset A) w ins :
  has w = true -> clean ins -> emits w (fresh D) ins ->
  emits w (fresh (wrap (repeat_ds nw None has) D)) (map Yield (samples ins)).
Proof. intros H. exact (@repeat_inf_forward A nw has D w H ins). Qed.
Print Assumptions C25_repeat_forever.

Theorem C25_repeat_forever_nothing_else {A} nw has (D : dataset A) w outs :
  has w = true -> clean outs -> emits w (fresh (wrap (repeat_ds nw None has) D)) outs ->
  exists ins, clean ins /\ emits w (fresh D) ins /\ outs = map Yield (samples ins).
Proof. intros H. exact (@repeat_inf_trace A nw has D w H outs). Qed.
Print Assumptions C25_repeat_forever_nothing_else.

Theorem C25_repeat_forever_resumes {A} nw has (D : dataset A) rst :
  (forall w, w < nw -> has w = true) -> resumable D rst nw ->
  resumable (wrap (repeat_ds nw None has) D) rst nw.
Proof.
  intros Hh HR. apply (@wrap_resumable A A _ D nw rst rst false false); auto; try discriminate.
  - left. apply repeat_no_reset.
  - apply repeat_inf_resumable. exact Hh.
Qed.
Print Assumptions C25_repeat_forever_resumes.

(** finite: the first iteration yields [n] inner epochs and ends *)
Theorem C25_repeat_n_times {A} nw n has (D : dataset A) w (xss : list (list (sample A))) :
  w < nw -> length xss = n -> emits w (fresh D) (concat (map epoch xss)) ->
  produces w (fresh (wrap (repeat_ds nw (Some n) has) D)) (concat xss).
Proof. intros Hw. exact (@repeat_fin_forward A nw n has D w Hw xss). Qed.
Print Assumptions C25_repeat_n_times.

(** iterating a second time yields nothing, and a restored dataset repeats once less *)
Theorem C25_repeat_again_refuted : exists (D : dataset nat) w xs, w < 1 /\ xs <> [] /\
  produces w (fresh (wrap (repeat_ds 1 (Some 2) (fun _ => true)) D)) xs /\
  emits w (fresh (wrap (repeat_ds 1 (Some 2) (fun _ => true)) D)) (epoch xs ++ epoch []).
Proof.
  exists (list_ds [7; 8]), 0, (keyed 0 [7; 8] ++ keyed 0 [7; 8]). split; [lia|]. split; [discriminate|].
  split; [exact (runk_emits 0 50 5 (fresh (wrap (repeat_ds 1 (Some 2) (fun _ => true)) (list_ds [7; 8]))))|].
  exact (runk_emits 0 50 6 (fresh (wrap (repeat_ds 1 (Some 2) (fun _ => true)) (list_ds [7; 8])))).
Qed.
Print Assumptions C25_repeat_again_refuted.

Theorem C25_repeat_resume_refuted : exists (D : dataset nat), resumable D true 1 /\
  ~ resumable (wrap (repeat_ds 1 (Some 2) (fun _ => true)) D) true 1.
Proof.
  exists (list_ds [7; 8]). split; [apply list_resumable|].
  set (W := wrap (repeat_ds 1 (Some 2) (fun _ => true)) (list_ds [7; 8])).
  apply (@not_resumable _ W 0 true 1 50 1 3 [Some (ds_save W 0 (fst (stk 0 50 1 (ds_init W, ds_iter W))))]); auto; vm_compute; congruence.
Qed.
Print Assumptions C25_repeat_resume_refuted.

Example C25_nonvacuous : emits (D := list_ds [7; 8]) 0 (fresh _) (concat (map epoch [keyed 0 [7; 8]; keyed 0 [7; 8]])).
Proof. exact (runk_emits 0 50 6 (fresh (list_ds [7; 8]))). Qed.

(** ** C26 EpochizeDataset *)
(** the workers' epoch lengths add up to [len] *)
Theorem C26_shares_add_up nw len : 0 < nw -> list_sum (map (local_share nw len) (seq 0 nw)) = len.
Proof. exact (@local_share_sum nw len). Qed.
Print Assumptions C26_shares_add_up.

(** Everything worker [w] emits is a sequence of epochs with exactly its share of samples, made of the
    inner samples in order, whatever the inner epochs are; and all inner samples come out. *)
Theorem C26_epochize_slices {A} nw len (D : dataset A) w outs :
  w < nw -> clean outs -> emits w (fresh (wrap (epochize_ds nw len) D)) outs ->
  exists ins, clean ins /\ emits w (fresh D) ins /\ epochs_of (local_share nw len w) (samples ins) outs.
Proof. intros Hw. exact (@epochize_trace A nw len D w Hw outs). Qed.
Print Assumptions C26_epochize_slices.

Theorem C26_epochize_complete {A} nw len (D : dataset A) w ins :
  w < nw -> 0 < local_share nw len w -> clean ins -> emits w (fresh D) ins ->
  exists outs, emits w (fresh (wrap (epochize_ds nw len) D)) outs /\ epochs_of (local_share nw len w) (samples ins) outs.
Proof. intros Hw. exact (@epochize_forward A nw len D w Hw ins). Qed.
Print Assumptions C26_epochize_complete.

(** resuming; if the saved iterator was at the very end of its epoch, the restored one continues with
    the next epoch (the end is not reported a second time) *)
Theorem C26_epochize_resumes {A} nw len (D : dataset A) rst :
  resumable D rst nw -> resumes_modulo_end (wrap (epochize_ds nw len) D) false nw.
Proof. exact (@epochize_resumes A nw len D rst). Qed.
Print Assumptions C26_epochize_resumes.

(** in the literal sense (the end being reported) it does not resume *)
Theorem C26_epochize_end_refuted : exists (D : dataset nat), resumable D true 1 /\
  ~ resumable (wrap (epochize_ds 1 2) D) false 1.
Proof.
  exists (stream_ds S). split; [apply stream_resumable|].
  set (W := wrap (epochize_ds 1 2) (stream_ds S)).
  apply (@not_resumable _ W 0 false 1 50 2 3 [Some (ds_save W 0 (fst (stk 0 50 2 (ds_init W, ds_iter W))))]); auto; vm_compute; congruence.
Qed.
Print Assumptions C26_epochize_end_refuted.

Example C26_nonvacuous : local_share 2 5 0 = 3 /\ local_share 2 5 1 = 2 /\
  map (fun e => match e with Yield a => Some (pl a) | _ => None end)
      (runk 1 50 7 (fresh (wrap (epochize_ds 2 5) (list_ds [10; 20; 30])))) =
  [Some 10; Some 20; None; Some 30; Some 10; None; Some 20].
Proof. repeat split. Qed.

(** ** C27 LimitDataset *)
(** Every epoch of worker [w] is the first samples of the inner dataset, up to the worker's share
    (all of them if the inner epoch is not longer), and the next epoch starts over. *)
Theorem C27_limit_takes_first {A} nw len (D : dataset A) w xs e :
  w < nw -> resettable D true nw ->
  (e = [Done] /\ length xs <= local_share nw len w) \/ (e = [] /\ length xs = S (local_share nw len w)) ->
  emits w (fresh D) (map Yield xs ++ e) ->
  exists s', goes w (fresh (wrap (limit_ds nw len) D)) (epoch (firstn (local_share nw len w) xs)) s' /\
             same_stream w s' (fresh (wrap (limit_ds nw len) D)).
Proof. exact (@limit_forward A nw len D w xs e). Qed.
Print Assumptions C27_limit_takes_first.

(** resuming is exact whenever the uninterrupted iterator's next step is not an exception *)
Theorem C27_limit_resumes_partial {A} nw len (D : dataset A) rst :
  resumable D true nw -> resettable D true nw ->
  forall w (s : st (wrap (limit_ds nw len) D)) sts e s', w < nw -> reach w rst nw s -> length sts = nw ->
    nth_error sts w = Some (Some (ds_save (wrap (limit_ds nw len) D) w (fst s))) ->
    next w s e s' -> match e with Raise _ => False | _ => True end ->
    same_stream w s (ds_restore (wrap (limit_ds nw len) D) (Some (ds_merge (wrap (limit_ds nw len) D) sts))
                                (ds_init (wrap (limit_ds nw len) D)), ds_iter (wrap (limit_ds nw len) D)).
Proof. exact (@limit_resumes A nw len D rst). Qed.
Print Assumptions C27_limit_resumes_partial.

(** The exception matters: after the last allowed sample the uninterrupted iterator takes one more sample of the inner dataset,
    which is thrown away; if that sample raises, the epoch ends with the error, whereas the restored dataset ends it normally.
    Inner dataset: samples 10, 20, then an error. *)
Definition raise_after2 : trans nat nat :=
  {| t_obj := nat; t_gen := unit; t_wst := nat; t_mst := nat; t_keep := false; t_init := 0; t_iter := tt;
     t_act := fun rs w o g => if o <? 2 then Pull (fun r => match r with Some a => (S o, tt, Yield a) | None => (o, tt, Done) end)
                              else Local o tt (Raise OtherError);
     t_save := fun w o => o; t_merge := fun l => match l with Some x :: _ => x | _ => 0 end;
     t_restore := fun m o => match m with Some x => x | None => 0 end;
     t_restore_sample := fun rs w key => rs key |}.
Theorem C27_one_too_many_refuted : exists (D : dataset nat),
  runk 0 50 2 (fresh (wrap (limit_ds 1 2) D)) = [Yield (mkS 10 [AInt 0]); Yield (mkS 20 [AInt 1])] /\
  runk 0 50 3 (fresh (wrap (limit_ds 1 2) D)) = [Yield (mkS 10 [AInt 0]); Yield (mkS 20 [AInt 1]); Raise OtherError] /\
  ~ resumable (wrap (limit_ds 1 2) D) false 1.
Proof.
  exists (wrap raise_after2 (list_ds [10; 20; 30])). split; [vm_compute; reflexivity|]. split; [vm_compute; reflexivity|].
  set (W := wrap (limit_ds 1 2) (wrap raise_after2 (list_ds [10; 20; 30]))).
  apply (@not_resumable _ W 0 false 1 50 2 1 [Some (ds_save W 0 (fst (stk 0 50 2 (ds_init W, ds_iter W))))]); auto; vm_compute; congruence.
Qed.
Print Assumptions C27_one_too_many_refuted.

Example C27_nonvacuous : resettable (list_ds [10; 20; 30]) true 1 /\ resumable (list_ds [10; 20; 30]) true 1 /\
  map (fun e => match e with Yield a => Some (pl a) | _ => None end)
      (runk 0 50 5 (fresh (wrap (limit_ds 1 2) (list_ds [10; 20; 30])))) =
  [Some 10; Some 20; None; Some 10; Some 20].
Proof. split; [apply list_resettable|]. split; [apply list_resumable|reflexivity]. Qed.

(** ** C34 MapDataset *)
(** what the mapping of an event list is: sample number [i] becomes [f w i sample] with the index
    prepended to its key, or is dropped *)
Fixpoint mapped {A B} (f : nat -> nat -> A -> ures B) (w i : nat) (l : list (event (sample A))) : list (event (sample B)) :=
  match l with
  | [] => []
  | Yield a :: l' =>
      match f w i (pl a) with
      | UOk b => Yield (mkS b (AStr "MapDataset" :: AInt i :: rk a)) :: mapped f w (S i) l'
      | _ => mapped f w (S i) l'
      end
  | Done :: l' => Done :: mapped f w i l'
  | _ :: l' => mapped f w i l'
  end.

Lemma idx_events_mapped {A B} (f : nat -> nat -> A -> ures B) w l : forall i,
  idx_events (fun w i a => match f w i (pl a) with
                            | UOk b => Yield (mkS b (map_key i (rk a)))
                            | USkip | UErr => Tau
                            | UFatal => Raise OtherError
                            end) w i l = mapped f w i l.
Proof.
  induction l as [|e l IH]; intros i; cbn; [reflexivity|]. destruct e as [a| | |x]; rewrite ?IH; auto.
  destruct (f w i (pl a)); reflexivity.
Qed.

Theorem C34_map_in_order {A B} nw (f : nat -> nat -> A -> ures B) (D : dataset A) w ins :
  w < nw -> (forall w i a, f w i a <> UFatal) -> clean ins -> emits w (fresh D) ins ->
  emits w (fresh (wrap (map_ds nw f) D)) (mapped f w 0 ins).
Proof.
  intros Hw HF HC E. rewrite <- idx_events_mapped. apply idx_forward; auto.
  - intros; apply map_h_not_done.
  - intros w0 i a e H. specialize (HF w0 i (pl a)). destruct (f w0 i (pl a)); congruence.
Qed.
Print Assumptions C34_map_in_order.

Theorem C34_map_nothing_else {A B} nw (f : nat -> nat -> A -> ures B) (D : dataset A) w outs :
  w < nw -> clean outs -> emits w (fresh (wrap (map_ds nw f) D)) outs ->
  exists ins, clean ins /\ emits w (fresh D) ins /\ outs = mapped f w 0 ins.
Proof.
  intros Hw HC E. destruct (@idx_trace _ _ nw _ _ D w Hw (fun w i a => @map_h_not_done _ _ f w i a) outs HC E) as (ins & H1 & H2 & H3).
  exists ins. split; [exact H1|]. split; [exact H2|]. rewrite H3. apply idx_events_mapped.
Qed.
Print Assumptions C34_map_nothing_else.

(** resuming is exact, so the function gets the same sample indexes after a restore *)
Theorem C34_map_resumes {A B} nw (f : nat -> nat -> A -> ures B) (D : dataset A) rst :
  resumable D rst nw -> resumable (wrap (map_ds nw f) D) rst nw.
Proof.
  intros HR. apply (@wrap_resumable A B _ D nw rst rst false false); auto; try discriminate.
  - left. apply idx_no_reset.
  - apply map_local_resumable.
Qed.
Print Assumptions C34_map_resumes.

(** generator functions: output [j] of input number [i] has key (MapDataset, i, j, input's key) *)
Theorem C34_mapgen_in_order {A B} nw (f : nat -> nat -> A -> list B * gend) (D : dataset A) w ins :
  w < nw -> (forall w i a, snd (f w i a) = GEnd) -> clean ins -> emits w (fresh D) ins ->
  emits w (fresh (wrap (mapgen_ds nw f) D)) (mg_events f w 0 ins).
Proof. intros Hw HF. exact (@mapgen_forward A B nw f HF D w Hw ins). Qed.
Print Assumptions C34_mapgen_in_order.

(** nothing else comes out: what was emitted is a beginning of the outputs of the samples pulled so far *)
Theorem C34_mapgen_nothing_else {A B} nw (f : nat -> nat -> A -> list B * gend) (D : dataset A) w outs :
  w < nw -> (forall w i a, snd (f w i a) = GEnd) -> clean outs ->
  emits w (fresh (wrap (mapgen_ds nw f) D)) outs ->
  exists ins more, clean ins /\ emits w (fresh D) ins /\ outs ++ more = mg_events f w 0 ins.
Proof. intros Hw HF. exact (@mapgen_backward A B nw f HF D w Hw outs). Qed.
Print Assumptions C34_mapgen_nothing_else.

(** generators that yield at most one sample resume exactly (what the class documentation requires) *)
Theorem C34_mapgen_resumes_partial {A B} nw (f : nat -> nat -> A -> list B * gend) (D : dataset A) rst :
  (forall w i a, length (fst (f w i a)) <= 1 /\ snd (f w i a) = GEnd) ->
  resumable D rst nw -> restorable D rst nw -> resumable (wrap (mapgen_ds nw f) D) rst nw.
Proof.
  intros HF HR HS. apply (@wrap_resumable A B _ D nw rst rst false true); auto; try discriminate.
  - left. apply mg_no_reset.
  - apply mapgen_local_resumable. exact HF.
Qed.
Print Assumptions C34_mapgen_resumes_partial.

(** generators with more samples do not: the interrupted generator is re-run with the next index *)
Theorem C34_mapgen_resume_refuted : exists (D : dataset nat) (f : nat -> nat -> nat -> list nat * gend),
  (forall w i a, snd (f w i a) = GEnd) /\ resumable D true 1 /\ restorable D true 1 /\
  ~ resumable (wrap (mapgen_ds 1 f) D) true 1.
Proof.
  exists (stream_ds S), (fun w i a => ([a; a + 100], GEnd)). split; [reflexivity|].
  split; [apply stream_resumable|]. split; [apply stream_restorable|].
  set (W := wrap (mapgen_ds 1 (fun w i a : nat => ([a; a + 100], GEnd))) (stream_ds S)).
  apply (@not_resumable _ W 0 true 1 50 1 2 [Some (ds_save W 0 (fst (stk 0 50 1 (ds_init W, ds_iter W))))]); auto; vm_compute; congruence.
Qed.
Print Assumptions C34_mapgen_resume_refuted.

(** and after a generator that failed (a handled error) in one epoch, the next epoch starts by running
    that generator again and fails for good, although the error was to be ignored *)
Theorem C34_mapgen_stale_generator_refuted : exists (D : dataset nat) (f : nat -> nat -> nat -> list nat * gend),
  (forall w i a, snd (f w i a) = GEnd \/ snd (f w i a) = GErr) /\
  exists w xs e, emits w (fresh (wrap (mapgen_ds 1 f) D)) (epoch xs ++ [Raise e]).
Proof.
  exists (list_ds [1; 2]), (fun w i a => ([], if a =? 2 then GErr else GEnd)). split.
  - intros w i a. cbn. destruct (a =? 2); auto.
  - exists 0, [], OtherError.
    exact (runk_emits 0 50 2 (fresh (wrap (mapgen_ds 1 (fun w i a : nat => ([] : list nat, if a =? 2 then GErr else GEnd))) (list_ds [1; 2])))).
Qed.
Print Assumptions C34_mapgen_stale_generator_refuted.

Example C34_nonvacuous :
  mapped (fun w i a => if a =? 20 then USkip else UOk (a + i)) 0 0 (map Yield (keyed 0 [10; 20; 30])) =
  [Yield (mkS 10 [AStr "MapDataset"; AInt 0; AInt 0]); Yield (mkS 32 [AStr "MapDataset"; AInt 2; AInt 2])].
Proof. reflexivity. Qed.

(** ** C36 Filter, Gc, Log *)
Theorem C36_filter_exact {A} nw (p : nat -> nat -> A -> bool) (D : dataset A) w ins :
  w < nw -> clean ins -> emits w (fresh D) ins ->
  emits w (fresh (wrap (filter_ds nw (fun w i x => Ok (p w i x))) D)) (filter_events (fun i a => p w i (pl a)) 0 ins).
Proof.
  intros Hw HC E. rewrite <- (@filt_events A p w ins 0 HC). apply idx_forward; auto.
  - intros; apply (@filter_not_done A (fun w i x => Ok (p w i x))).
  - intros w0 i a e. destruct (p w0 i (pl a)); discriminate.
Qed.
Print Assumptions C36_filter_exact.

Theorem C36_filter_nothing_else {A} nw (p : nat -> nat -> A -> bool) (D : dataset A) w outs :
  w < nw -> clean outs -> emits w (fresh (wrap (filter_ds nw (fun w i x => Ok (p w i x))) D)) outs ->
  exists ins, clean ins /\ emits w (fresh D) ins /\ outs = filter_events (fun i a => p w i (pl a)) 0 ins.
Proof.
  intros Hw HC E. destruct (@idx_trace _ _ nw _ _ D w Hw (fun w i a => @filter_not_done A (fun w i x => Ok (p w i x)) w i a) outs HC E) as (ins & H1 & H2 & H3).
  exists ins. split; [exact H1|]. split; [exact H2|]. rewrite H3. apply filt_events. exact H1.
Qed.
Print Assumptions C36_filter_nothing_else.

Theorem C36_gc_transparent {A} every_n (D : dataset A) w outs : clean outs ->
  (emits w (fresh (wrap (gc_ds true every_n) D)) outs <-> emits w (fresh D) outs).
Proof. exact (@gc_transparent A every_n D w outs). Qed.
Print Assumptions C36_gc_transparent.

Theorem C36_log_transparent {A} nw (D : dataset A) w outs : w < nw -> clean outs ->
  (emits w (fresh (wrap (log_ds nw) D)) outs <-> emits w (fresh D) outs).
Proof.
  intros Hw HC. split; intros E.
  - destruct (@idx_trace A A nw (fun _ _ a => Yield a) (fun rs _ key => rs key) D w Hw ltac:(intros; discriminate) outs HC E) as (ins & H1 & H2 & ->).
    rewrite log_events by exact H1. exact H2.
  - rewrite <- (@log_events A w outs 0 HC). apply idx_forward; auto; intros; discriminate.
Qed.
Print Assumptions C36_log_transparent.

Theorem C36_all_resume {A} nw (D : dataset A) rst p every_n : resumable D rst nw ->
  resumable (wrap (filter_ds nw p) D) rst nw /\ resumable (wrap (gc_ds true every_n) D) rst nw /\
  resumable (wrap (log_ds nw) D) rst nw.
Proof.
  intros HR. split; [|split]; apply (@wrap_resumable A A _ D nw rst rst false false); auto; try discriminate.
  - left. apply idx_no_reset.
  - apply filter_resumable.
  - left. apply gc_no_reset.
  - apply gc_local_resumable.
  - left. apply idx_no_reset.
  - apply log_resumable.
Qed.
Print Assumptions C36_all_resume.

Example C36_nonvacuous : filter_events (fun i a => Nat.even (pl a)) 0 (epoch (keyed 0 [1; 2; 3; 4])) =
  [Yield (mkS 2 [AInt 1]); Yield (mkS 4 [AInt 3]); Done].
Proof. reflexivity. Qed.
