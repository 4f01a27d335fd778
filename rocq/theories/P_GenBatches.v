(** Property C30 for a batcher that is a generator: what comes out. *)
From Coq Require Import String.
From Verif Require Import Base Dataset DatasetProofs Wrap WrapProofs WrapRun WrapTrace WrapSpec WrapLib
  Wrappers MapModel IdxProofs SourceProofs Batch BatchSpec BatchProofs GenBatchProofs GenBatchTrace P_Batch.
Local Open Scope string_scope.
Local Open Scope list_scope.
Local Open Scope nat_scope.

(** every complete epoch becomes the outputs of its groups, in order; of an epoch in progress, those of the
    complete groups. [h w i l]: what the batcher yields for the group [l] when the sample index is [i]; a
    group may give no output, one, or several *)
Theorem C30_generator_batches {A B} nw size drop (h : nat -> nat -> list A -> list B) (D : dataset A) w eps gss xs full tail :
  w < nw -> 0 < size ->
  emits w (fresh D) (concat (map epoch eps) ++ map Yield xs) ->
  Forall2 (groups size drop) eps gss ->
  xs = concat full ++ tail -> Forall (fun g => length g = size) full -> length tail < size ->
  emits w (fresh (wrap (batchgen_ds nw size drop (fun w i l => (h w i l, GEnd))) D))
    (gen_epochs (h w) 0 gss ++ map Yield (gen_batches (h w) (n_groups gss) full)).
Proof.
  intros Hw Hs E F EX HF HT. set (f := fun w i l => (h w i l, GEnd)).
  assert (HC : clean (concat (map epoch eps) ++ map Yield xs)).
  { apply Forall_app. split; [|apply Forall_map, Forall_forall; exact (fun _ _ => I)].
    apply Forall_concat. apply Forall_map. apply Forall_forall. intros l _. apply Forall_app. split; [apply Forall_map, Forall_forall; exact (fun _ _ => I)|repeat constructor]. }
  pose proof (@gen_forward A B nw size drop f (fun _ _ _ => eq_refl) D w Hw _ HC E) as R. unfold gev in R.
  rewrite (@ev_epochs A (list B) size drop (all_at_once f) w (h w) Hs (fun _ _ => eq_refl) eps gss 0 _ F) in R.
  rewrite (@ev_part_exact A (list B) size drop (all_at_once f) w Hs (h w) _ xs full tail (fun _ _ => eq_refl) HF HT EX) in R.
  rewrite flat_map_app, expand_epochs, expand_batches in R. exact R.
Qed.
Print Assumptions C30_generator_batches.

(** ... and nothing else comes out *)
Theorem C30_generator_nothing_else {A B} nw size drop (h : nat -> nat -> list A -> list B) (D : dataset A) w outs :
  w < nw -> 0 < size -> clean outs ->
  emits w (fresh (wrap (batchgen_ds nw size drop (fun w i l => (h w i l, GEnd))) D)) outs ->
  exists eps gss xs full tail more,
    emits w (fresh D) (concat (map epoch eps) ++ map Yield xs) /\
    Forall2 (groups size drop) eps gss /\ xs = concat full ++ tail /\ Forall (fun g => length g = size) full /\ length tail < size /\
    outs ++ more = gen_epochs (h w) 0 gss ++ map Yield (gen_batches (h w) (n_groups gss) full).
Proof.
  intros Hw Hs HC E. set (f := fun w i l => (h w i l, GEnd)) in *.
  destruct (@gen_trace A B nw size drop f (fun _ _ _ => eq_refl) D w Hw outs HC E) as (ins & more & C & EI & EQ).
  destruct (clean_decompose C) as (eps & xs & ->). destruct (groups_exist2 drop eps Hs) as [gss F].
  destruct (cut_exists xs Hs) as (full & tail & HF & HT & EX).
  exists eps, gss, xs, full, tail, more. repeat (split; [assumption|]). rewrite <- EQ. unfold gev.
  rewrite (@ev_epochs A (list B) size drop (all_at_once f) w (h w) Hs (fun _ _ => eq_refl) eps gss 0 _ F).
  rewrite (@ev_part_exact A (list B) size drop (all_at_once f) w Hs (h w) _ xs full tail (fun _ _ => eq_refl) HF HT EX).
  rewrite flat_map_app, expand_epochs, expand_batches. reflexivity.
Qed.
Print Assumptions C30_generator_nothing_else.

(** non-vacuity: a batcher that yields every element of the group twice the second time it is called;
    groups of two of five samples, the incomplete one kept *)
Definition gb_h (w i : nat) (l : list nat) : list nat := if i =? 1 then l ++ l else if i =? 0 then [] else l.
Example C30_generator_nonvacuous :
  let xs := keyed 0 [10; 11; 12; 13; 14] in
  emits 0 (fresh (list_ds [10; 11; 12; 13; 14])) (concat (map epoch [xs]) ++ map Yield []) /\
  Forall2 (groups 2 false) [xs] [[firstn 2 xs; firstn 2 (skipn 2 xs); skipn 4 xs]] /\
  map epl (gen_epochs (gb_h 0) 0 [[firstn 2 xs; firstn 2 (skipn 2 xs); skipn 4 xs]]) = map Yield [12; 13; 12; 13; 14] ++ [Done] /\
  nth_error (gen_epochs (gb_h 0) 0 [[firstn 2 xs; firstn 2 (skipn 2 xs); skipn 4 xs]]) 3 =
    Some (Yield (mkS 13 [AStr "BatchDataset"; AInt 1; AInt 3; ATup [AInt 2]; ATup [AInt 3]])).
Proof.
  cbv zeta. split; [|split; [|split]].
  - change (emits 0 (fresh (list_ds [10; 11; 12; 13; 14])) ((epoch (keyed 0 [10; 11; 12; 13; 14]) ++ []) ++ [])). rewrite !app_nil_r. apply list_produces.
  - constructor; [|constructor]. exists [firstn 2 (keyed 0 [10; 11; 12; 13; 14]); firstn 2 (skipn 2 (keyed 0 [10; 11; 12; 13; 14]))], (skipn 4 (keyed 0 [10; 11; 12; 13; 14])).
    repeat split; try (repeat constructor; fail).
  - reflexivity.
  - reflexivity.
Qed.
