(** C30, C34: what resumption means for batchers and map functions that are generators.  The interrupted generator is run again,
    with the next sample index (C30_generator_resume_refuted, C34_mapgen_resume_refuted); if the function does not look at the
    index, the contents of all samples to come are nevertheless those of the uninterrupted run. *)
From Verif Require Import Base Dataset DatasetProofs Wrap WrapProofs WrapSpec WrapLib SourceProofs Wrappers MapModel Batch
  GenBatchProofs MapGenProofs RelabelProofs ContentSpec GenContentProofs P_Batch.
Local Open Scope list_scope.
Local Open Scope nat_scope.

Lemma relabel_no_reset {A B} (T : trans A B) : no_reset T -> no_reset (relabel T).
Proof.
  intros H rs w o g o' g' Ha. cbn [relabel t_act] in Ha. destruct (t_act T rs w o g) as [? ? ?|?|o1 g1] eqn:E; try discriminate. exact (H _ _ _ _ _ _ E).
Qed.

(** over an endless inner dataset (training), or dropping the last batch *)
Theorem C30_generator_contents_resume_partial {A B} nw size drop (f : nat -> nat -> list A -> list B * gend) (D : dataset A) rst :
  (forall w i l, snd (f w i l) = GEnd) -> (forall w i i' l, f w i l = f w i' l) -> endless D rst nw \/ drop = true ->
  resumable D rst nw -> restorable D rst nw -> contents_resumable (wrap (batchgen_ds nw size drop f) D) rst nw.
Proof.
  intros He Hi Hf HR HS. apply relabel_resumes. destruct Hf as [HE|Hd].
  - apply (@wrap_resumable A B _ D nw rst rst true true); auto; [left; apply relabel_no_reset, bg_no_reset|]. apply bg_contents_local; auto.
  - apply (@wrap_resumable A B _ D nw rst rst false true); auto; try discriminate; [left; apply relabel_no_reset, bg_no_reset|]. apply bg_contents_local; auto.
Qed.
Print Assumptions C30_generator_contents_resume_partial.

(** over any inner dataset *)
Theorem C34_mapgen_contents_resume_partial {A B} nw (f : nat -> nat -> A -> list B * gend) (D : dataset A) rst :
  (forall w i a, snd (f w i a) = GEnd) -> (forall w i i' a, f w i a = f w i' a) ->
  resumable D rst nw -> restorable D rst nw -> contents_resumable (wrap (mapgen_ds nw f) D) rst nw.
Proof.
  intros He Hi HR HS. apply relabel_resumes.
  apply (@wrap_resumable A B _ D nw rst rst false true); auto; try discriminate; [left; apply relabel_no_reset, mg_no_reset|]. apply mg_contents_local; auto.
Qed.
Print Assumptions C34_mapgen_contents_resume_partial.

(** Non-vacuity: two outputs per batch / per sample. *)
Example C30_generator_contents_nonvacuous :
  contents_resumable (wrap (batchgen_ds 1 2 false (fun _ _ (l : list nat) => ([l; rev l], GEnd))) (stream_ds S)) true 1.
Proof. apply C30_generator_contents_resume_partial; auto; [left; apply stream_endless|apply stream_resumable|apply stream_restorable]. Qed.
Example C34_mapgen_contents_nonvacuous :
  contents_resumable (wrap (mapgen_ds 1 (fun _ _ (a : nat) => ([a; a + 100], GEnd))) (list_ds [1; 2; 3])) true 1.
Proof. apply C34_mapgen_contents_resume_partial; auto; [apply list_resumable|apply list_restorable]. Qed.
