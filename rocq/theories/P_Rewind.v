(** C64: a saved state can be restored any number of times, also into a loader that is in use (loaders without worker processes). *)
From Coq Require Import QArith.
From Verif Require Import Base Dataset DatasetProofs Wrap WrapProofs Rng RngProofs IdxProofs RepeatProofs BatchProofs GenBatchProofs MapGenProofs PackingProofs IterMapProofs SimpleProofs EpochizeProofs Multi Buffer ShuffleBuffer Wrappers MapModel Batch Packing IterMap
  Blend Concat SampleLoader Sharder WrapSpec SourceProofs Pipeline P_Pipeline P_Wrappers Rewind RewindProofs.
Local Close Scope Q_scope.
Local Close Scope Z_scope.
Local Open Scope nat_scope.


(** every wrapper that replaces its whole own state in restore_state *)
Inductive restores_all : forall A B, trans A B -> Prop :=
| ra_idx A B nw (h : nat -> nat -> sample A -> event (sample B)) rs : restores_all (idx_ds nw h rs)      (* map, filter, log *)
| ra_mapgen A B nw (f : nat -> nat -> A -> list B * gend) : restores_all (mapgen_ds nw f)
| ra_shuffle A R nw size : restores_all (@shuffle_buffer A R nw size)
| ra_batch A B nw size drop (f : nat -> nat -> list A -> ures B) : restores_all (batch_ds nw size drop f)
| ra_batchgen A B nw size drop (f : nat -> nat -> list A -> list B * gend) : restores_all (batchgen_ds nw size drop f)
| ra_gc A ready every_n : restores_all (@gc_ds A ready every_n)
| ra_repeat A nw reps has : restores_all (@repeat_ds A nw reps has)
| ra_pack A B nw size pre (f : nat -> nat -> list A -> ures B) : restores_all (pack_ds nw size pre f)
| ra_packgen A B nw size pre (f : nat -> nat -> list A -> list B * gend) : restores_all (packgen_ds nw size pre f)
| ra_itermap A B nw (fn : iterfn A B) : restores_all (itermap_ds nw fn true).

Lemma restores_all_tcong A B (T : trans A B) : restores_all T -> exists E, @tcong A B T E.
Proof.
  intros H. destruct H.
  - apply plain_tcong; [reflexivity|reflexivity|apply idx_no_reset].
  - apply plain_tcong; [reflexivity|intros [[? ?] ?]; reflexivity|apply mg_no_reset].
  - apply shuffle_tcong.
  - apply plain_tcong; [reflexivity|reflexivity|apply bt_no_reset].
  - apply plain_tcong; [reflexivity|intros [[? ?] ?]; reflexivity|apply bg_no_reset].
  - apply plain_tcong; [reflexivity|reflexivity|]. intros rs w o [n|] o' g' E; cbn in E; [discriminate|destruct ready; discriminate].
  - apply plain_tcong; [reflexivity|reflexivity|apply repeat_no_reset].
  - apply plain_tcong; [reflexivity|reflexivity|apply pk_no_reset].
  - apply plain_tcong; [reflexivity|reflexivity|apply pg_no_reset].
  - apply plain_tcong; [reflexivity|reflexivity|apply im_no_reset].
Qed.

(** pipelines of these, of loaders, blends and concatenations *)
Inductive restoring_all : forall A, dataset A -> Prop :=
| rd_loader A R shards content par shuffle loop rs : restoring_all (@loader_ds A R shards content par shuffle loop rs)
| rd_wrap A B (T : trans A B) (D : dataset A) : restores_all T -> restoring_all D -> restoring_all (wrap T D)
| rd_blend A R n (D : nat -> dataset A) weight has : (forall i, i < n -> restoring_all (D i)) -> restoring_all (blend_ds R n D weight has)
| rd_concat A n (D : nat -> dataset A) : (forall i, i < n -> restoring_all (D i)) -> restoring_all (concat_ds n D).

Lemma restoring_all_forgetful A (D : dataset A) : restoring_all D -> forgetful D.
Proof.
  induction 1 as [|A B T D HT _ IH|A R n D weight has _ IH|A n D _ IH].
  - apply loader_forgetful.
  - apply wrap_forgetful; [now apply restores_all_tcong|exact IH].
  - now apply blend_forgetful.
  - now apply concat_forgetful.
Qed.

Lemma training_restoring_all nw A (D : dataset A) : training nw D -> restoring_all D.
Proof.
  induction 1; try (apply rd_wrap; [|assumption]); try (apply rd_wrap; [|apply rd_loader]); try constructor; auto.
Qed.

(** Restoring a state into a dataset object that has been used in whatever way does the same as restoring it into a new one. *)
Theorem C64_used_like_new A (D : dataset A) w m o : restoring_all D ->
  same_stream w (ds_restore D (Some m) o, ds_iter D) (ds_restore D (Some m) (ds_init D), ds_iter D).
Proof. intros H. apply forgetful_stream. now apply restoring_all_forgetful. Qed.
Print Assumptions C64_used_like_new.

(** So a training pipeline of any shape can be rewound: from any state [x], back to any state [s] it was saved in (or forward). *)
Theorem C64_rewind nw A (D : dataset A) : training nw D -> rewindable D true nw.
Proof.
  intros H w s x sts W RS RX L N. destruct (C45_pipeline_resumes H) as (_ & _ & RES).
  eapply same_stream_trans; [apply (RES w s sts W RS L N)|]. apply same_stream_sym, C64_used_like_new. now apply (@training_restoring_all nw).
Qed.
Print Assumptions C64_rewind.

(** EpochizeDataset (virtual_epoch_length) cannot: it keeps its inner iterator, which goes on from where it was. *)
Definition cpos (w : nat) (o : src_obj) (g : option nat) : nat := match g with Some i => i | None => src_pos w o end.
Lemma counting_next {P} (f : nat -> P) w (s : st (counting_ds f)) e s' : next w s e s' ->
  e = Yield (mkS (f (cpos w (fst s) (snd s))) (src_key (cpos w (fst s) (snd s)))) /\
  s' = ((S (cpos w (fst s) (snd s)), None), Some (S (cpos w (fst s) (snd s)))).
Proof. intros [n N]. destruct n as [|n]; [discriminate|]. destruct s as [o g]. cbn in N. injection N as <- <-. auto. Qed.
Lemma counting_resumable {P} (f : nat -> P) rst nw : resumable (counting_ds f) rst nw.
Proof.
  intros w s sts W RS L N.
  assert (PO : cpos w (fst s) (snd s) = src_pos w (fst s)).
  { clear N L. induction RS as [|s a s' RS IH NX|s s' RS IH NX|s sts' RS IH L N|s _ RS IH]; try reflexivity.
    apply counting_next in NX as [_ ->]. reflexivity. }
  apply bisim_same_stream with (R := fun a b : st (counting_ds f) => cpos w (fst a) (snd a) = cpos w (fst b) (snd b)).
  - intros a b H e a' NX. apply counting_next in NX as [-> ->]. rewrite H.
    destruct b as [o g]. eexists. split; [exists 1; cbn; reflexivity|]. reflexivity.
  - intros a b H e a' NX. unfold flip_rel in H. apply counting_next in NX as [-> ->]. rewrite <- H.
    destruct b as [o g]. eexists. split; [exists 1; cbn; reflexivity|]. reflexivity.
  - cbn [fst snd]. rewrite PO. symmetry. exact (src_pos_restore N).
Qed.

(** the state of worker 0 that has delivered [j] samples, and the state restored from it into the object of [k] samples *)
Definition rewound {P} (D : dataset P) (fuel j k : nat) : st D :=
  let s := stk 0 fuel j (fresh D) in let x := stk 0 fuel k (fresh D) in
  (ds_restore D (Some (ds_merge D [Some (ds_save D 0 (fst s))])) (fst x), ds_iter D).

Theorem C64_epochize_rewind_refuted : exists D : dataset nat, resumable D true 1 /\
  resumes_modulo_end (wrap (epochize_ds 1 100) D) false 1 /\ ~ rewindable (wrap (epochize_ds 1 100) D) false 1 /\
  map (fun e => match e with Yield a => Some (pl a) | _ => None end) (runk 0 9 3 (stk 0 9 1 (fresh (wrap (epochize_ds 1 100) D)))) = [Some 1; Some 2; Some 3] /\
  map (fun e => match e with Yield a => Some (pl a) | _ => None end) (runk 0 9 3 (rewound (wrap (epochize_ds 1 100) D) 9 1 5)) = [Some 5; Some 6; Some 7].
Proof.
  exists (counting_ds (fun i => i)). split; [apply counting_resumable|]. split; [apply (@C26_epochize_resumes _ 1 100 _ true), counting_resumable|].
  split; [|split; vm_compute; reflexivity]. set (W := wrap (epochize_ds 1 100) (counting_ds (fun i => i))). intros H.
  assert (Q : same_stream 0 (stk 0 9 1 (fresh W)) (rewound W 9 1 5)).
  { apply (H 0 (stk 0 9 1 (fresh W)) (stk 0 9 5 (fresh W))); auto; apply stk_reach; constructor. }
  revert Q. apply (@not_same_stream _ W 0 9 3); vm_compute; congruence.
Qed.
Print Assumptions C64_epochize_rewind_refuted.

(** ** restoring the same state object twice *)
(** the state after [j] samples, restored into a new object, used for [k] samples, restored into another new object *)
Definition restored_again {P} (D : dataset P) (al : aliasing D) (fuel j k : nat) : st D :=
  let m := ds_merge D [Some (ds_save D 0 (fst (stk 0 fuel j (fresh D))))] in
  let x := stk 0 fuel k (ds_restore D (Some m) (ds_init D), ds_iter D) in
  (ds_restore D (Some (al m (fst x))) (ds_init D), ds_iter D).

Lemma stk_goes_on {P} (D : dataset P) w fuel k : forall s0 s, goes_on w s0 s -> goes_on w s0 (stk w fuel k s : st D).
Proof.
  induction k as [|k IH]; intros s0 s G; cbn [stk]; [exact G|]. destruct (nextn w fuel s) as [[[a| | |e] s']|] eqn:N; auto.
  - apply IH. eapply go_yield; [exact G|exists fuel; exact N].
  - apply IH. eapply go_done; [exact G|exists fuel; exact N].
Qed.

Lemma not_reusable {P} (D : dataset P) al rst fuel j k l :
  length (runk 0 fuel l (stk 0 fuel j (fresh D))) = length (runk 0 fuel l (restored_again al fuel j k)) ->
  runk 0 fuel l (stk 0 fuel j (fresh D)) <> runk 0 fuel l (restored_again al fuel j k) -> ~ @reusable P D al rst 1.
Proof.
  intros HL HN H. apply (not_same_stream HL HN). unfold restored_again.
  apply (H 0 (stk 0 fuel j (fresh D)) _ [Some (ds_save D 0 (fst (stk 0 fuel j (fresh D))))]); auto.
  - apply stk_reach. constructor.
  - apply stk_goes_on. constructor.
Qed.

Definition payloads {P} (l : list (event (sample P))) : list (option P) := map (fun e => match e with Yield a => Some (pl a) | _ => None end) l.

(** datasets that copy what they restore: the state object stays as it is *)
Theorem C64_second_restore {P} (D : dataset P) rst nw : resumable D rst nw -> reusable (@copied _ D) rst nw.
Proof. intros H w s s' sts W RS L N m _. unfold copied. now apply H. Qed.
Print Assumptions C64_second_restore.


Lemma Forall_remove_at {X} (Q : X -> Prop) i l : Forall Q l -> Forall Q (remove_at i l).
Proof.
  unfold remove_at. revert i. induction l as [|x l IH]; intros [|i] H; inversion H; subst; cbn; auto. constructor; auto. apply (IH i). assumption.
Qed.
(** nothing but what is in the buffer or still to be read comes out of a shuffle buffer *)
Section Lost.
  Context (R : rng_ops) (size lost : nat).
  Let D := stream_ds (fun i => i).
  Let W := wrap (shuffle_buffer R 1 size) D.
  Definition without (x : wobj (shuffle_buffer R 1 size) D) : Prop :=
    lost < src_pos 0 (w_in x) /\
    Forall (fun a => pl a <> lost) (buf_at 0 (sb_buf (w_loc x))) /\
    (b_pend (sb_buf (w_loc x)) = true -> Forall (fun k => exists i, k = [AInt i] /\ i <> lost) (keys_at 0 (sb_buf (w_loc x)))).

  Lemma restore_without ks l : Forall (fun k => exists i, k = [AInt i] /\ i <> lost) ks ->
    Buffer.restore_all (ds_restore_sample D 0) ks = Ok l -> Forall (fun a => pl a <> lost) l.
  Proof.
    revert l. induction ks as [|k ks IH]; intros l F H; cbn [Buffer.restore_all] in H; [injection H as <-; constructor|].
    inversion F as [|? ? (i & -> & NE) F']; subst. cbn [ds_restore_sample D stream_ds] in H. unfold D in H. cbn [ds_restore_sample stream_ds bind] in H.
    destruct (Buffer.restore_all _ ks) as [l'|] eqn:E; [|discriminate]. cbn in H. injection H as <-. constructor; [exact NE|]. apply IH; auto.
  Qed.

  Lemma at_upd0 {X} (l : list (list X)) v : nth 0 (upd l 0 v) [] = v \/ nth 0 (upd l 0 v) [] = [].
  Proof. destruct l; cbn; auto. Qed.

  Lemma without_step (x : ds_obj W) (g : ds_gen W) : without x -> let '(x', g', e) := ds_step W 0 x g in without x' /\ forall a, e = Yield a -> pl a <> lost.
  Proof.
    intros (HP & HB & HK). change (ds_step W 0 x g) with (wrap_step (T := shuffle_buffer R 1 size) 0 x g). unfold wrap_step. cbn [t_act shuffle_buffer]. unfold sb_act. destruct x as [[b r] io it]. cbn [w_loc w_in w_it sb_buf sb_rng] in *.
    assert (Y : forall g', match sb_yield 0 (mkSb b r) g' (A := nat) with
       | Local o g2 e => (Forall (fun a => pl a <> lost) (buf_at 0 (sb_buf o)) /\ (b_pend (sb_buf o) = true -> Forall (fun k => exists i, k = [AInt i] /\ i <> lost) (keys_at 0 (sb_buf o)))) /\ (forall a, e = Yield a -> pl a <> lost)
       | _ => False end).
    { intros g'. unfold sb_yield. cbn [sb_buf sb_rng]. destruct (wrng_below 0 (buf_len 0 b) r) as [i r'].
      unfold buf_pop. destruct (nth_error (buf_at 0 b) i) as [a|] eqn:EA; cbn [sb_buf].
      - split; [split|].
        + unfold buf_at. cbn [b_buf buf_set]. match goal with |- context [upd _ 0 ?v] => destruct (at_upd0 (b_buf b) v) as [-> | ->] end; [|constructor]. fold (buf_at 0 b).
          now apply Forall_remove_at.
        + cbn. unfold keys_at. cbn [b_keys b_pend buf_set]. intros PD. specialize (HK PD).
          match goal with |- context [upd _ 0 ?v] => destruct (at_upd0 (b_keys b) v) as [-> | ->] end; [|constructor]. fold (keys_at 0 b).
          now apply Forall_remove_at.
        + intros a' [= <-]. rewrite Forall_forall in HB. apply HB. eapply nth_error_In; exact EA.
      - split; [split; auto|discriminate]. }
    destruct g; cbn [sb_buf sb_rng].
    - destruct (buf_start _ 0 b) as [b'|ex] eqn:EB; [|cbn; unfold without; cbn; split; [auto|discriminate]].
      cbn. split; [|discriminate]. unfold without. cbn [w_loc w_in sb_buf]. split; [exact HP|].
      unfold buf_start in EB. cbn [b_pend] in EB.
      assert (CL : forall (X : Type) (l : list (list X)), nth 0 (clear_others 0 l) [] = nth 0 l []) by (intros X [|y l]; reflexivity).
      destruct (b_pend b) eqn:PB.
      + destruct (length _ =? 0) in EB; [|discriminate].
        destruct (Buffer.restore_all _ _) as [l|] eqn:ER in EB; [|discriminate]. cbn in EB.
        match type of EB with (if ?c then _ else _) = _ => destruct c; [|discriminate] end. injection EB as <-.
        unfold keys_at in ER. cbn [b_keys] in ER. rewrite CL in ER.
        split; [|cbn; discriminate]. unfold buf_at. cbn [b_buf]. destruct (at_upd0 (clear_others 0 (b_buf b)) l) as [-> | ->]; [|constructor].
        eapply restore_without; [exact (HK eq_refl)|exact ER].
      + cbn in EB. match type of EB with (if ?c then _ else _) = _ => destruct c; [|discriminate] end. injection EB as <-.
        unfold buf_at. cbn [b_buf b_pend]. rewrite CL. split; [exact HB|discriminate].
    - destruct (size <=? buf_len 0 b).
      + specialize (Y SbLoop). destruct (sb_yield 0 (mkSb b r) SbLoop) as [o g2 e|k|o g2]; try contradiction. destruct Y as [[Y1 Y2] Y3].
        split; [|exact Y3]. unfold without. cbn. auto.
      + cbn. split; [|discriminate]. unfold without. cbn [w_loc w_in sb_buf]. split; [cbn; lia|]. split.
        * unfold buf_append, buf_set, buf_at. cbn [b_buf]. match goal with |- context [upd _ 0 ?v] => destruct (at_upd0 (b_buf b) v) as [-> | ->] end; [|constructor].
          apply Forall_app. split; [exact HB|]. constructor; [|constructor]. cbn. lia.
        * unfold buf_append, buf_set, keys_at. cbn [b_keys b_pend]. intros PD. specialize (HK PD).
          match goal with |- context [upd _ 0 ?v] => destruct (at_upd0 (b_keys b) v) as [-> | ->] end; [|constructor].
          apply Forall_app. split; [exact HK|]. constructor; [|constructor]. cbn. eexists. split; [reflexivity|]. lia.
    - destruct (0 <? buf_len 0 b).
      + specialize (Y SbDrain). destruct (sb_yield 0 (mkSb b r) SbDrain) as [o g2 e|k|o g2]; try contradiction. destruct Y as [[Y1 Y2] Y3].
        split; [|exact Y3]. unfold without. cbn. auto.
      + cbn. split; [|discriminate]. unfold without. cbn. auto.
  Qed.

  Lemma without_emits (s : st W) l : emits 0 s l -> without (fst s) -> forall a, In (Yield a) l -> pl a <> lost.
  Proof.
    assert (NX : forall (s s' : st W) e, next 0 s e s' -> without (fst s) -> without (fst s') /\ forall a, e = Yield a -> pl a <> lost).
    { intros s0 s0' e [n N]. revert s0 N. induction n as [|n IH]; intros s0 N H; [discriminate|]. cbn [nextn] in N.
      pose proof (@without_step (fst s0) (snd s0) H) as K.
      destruct (ds_step W 0 (fst s0) (snd s0)) as [[x' g'] e']. destruct K as [K1 K2].
      destruct e'; try (injection N as <- <-; cbn [fst]; auto). eapply IH; [exact N|exact K1]. }
    intros E. induction E as [s|s a s' l N E IH|s s' l N E IH|s e s' N]; intros H b I; [contradiction| | |].
    - destruct (NX _ _ _ N H) as [H1 H2]. destruct I as [I|I]; [injection I as <-; auto|]. now apply IH.
    - destruct (NX _ _ _ N H) as [H1 _]. destruct I as [I|I]; [discriminate|]. now apply IH.
    - destruct I as [I|[]]. discriminate.
  Qed.
End Lost.

(** The shuffle buffer's keys in the state object are updated while the dataset is used: restored again, a sample that was in
    the buffer at the time of saving never comes. *)
Theorem C64_second_restore_shuffle_refuted : exists D : dataset nat,
  let W := wrap (shuffle_buffer lcg 1 3) D in let al := al_wrap (T := shuffle_buffer lcg 1 3) (@al_shuffle nat lcg) (@copied _ D) in
  resumable W true 1 /\ ~ reusable al true 1 /\
  exists lost, In (Some lost) (payloads (runk 0 99 9 (stk 0 99 2 (fresh W)))) /\
    forall l a, emits 0 (restored_again al 99 2 9) l -> In (Yield a) l -> pl a <> lost.
Proof.
  exists (stream_ds (fun i => i)). cbv zeta. split.
  { apply C24_shuffle_resumes; [apply lcg_ok|apply stream_resumable|apply stream_restorable|apply stream_endless]. }
  split.
  { apply (@not_reusable nat _ _ true 99 2 9 9); vm_compute; congruence. }
  exists 0. split; [vm_compute; auto 9|]. intros l a E. apply (without_emits E). split; [vm_compute; auto 9|]. split; [vm_compute; constructor|]. intros _. vm_compute.
  constructor; [exists 11; split; [reflexivity|discriminate]|]. constructor; [exists 12; split; [reflexivity|discriminate]|constructor].
Qed.
Print Assumptions C64_second_restore_shuffle_refuted.

(** EpochizeDataset's offset in the state object advances: restored again, the epoch ends too early. *)
Theorem C64_second_restore_epochize_refuted : exists D : dataset nat,
  let W := wrap (epochize_ds 1 5) D in let al := al_wrap (T := epochize_ds 1 5) al_counts (@copied _ D) in
  resumes_modulo_end W false 1 /\ ~ reusable al false 1 /\
  payloads (runk 0 99 4 (stk 0 99 1 (fresh W))) = [Some 1; Some 2; Some 3; Some 4] /\
  payloads (runk 0 99 4 (restored_again al 99 1 3)) = [Some 1; None; Some 2; Some 3].
Proof.
  exists (stream_ds (fun i => i)). cbv zeta. split; [apply (@C26_epochize_resumes _ 1 5 _ true), stream_resumable|].
  split; [apply (@not_reusable nat _ _ false 99 1 3 4); vm_compute; congruence|]. split; vm_compute; reflexivity.
Qed.
Print Assumptions C64_second_restore_epochize_refuted.

(** So do the sample indexes (map, filter, batch, packing): restored again, the user's functions get other indexes, and the samples
    other restore keys. *)
Theorem C64_second_restore_index_refuted : exists (D : dataset nat) (f : nat -> nat -> nat -> ures (nat * nat)),
  let W := wrap (map_ds 1 f) D in let al := al_wrap (T := map_ds 1 f) al_counts (@copied _ D) in
  resumable W true 1 /\ ~ reusable al true 1 /\
  payloads (runk 0 99 2 (stk 0 99 1 (fresh W))) = [Some (1, 1); Some (2, 2)] /\
  payloads (runk 0 99 2 (restored_again al 99 1 3)) = [Some (4, 1); Some (5, 2)].
Proof.
  exists (stream_ds (fun i => i)), (fun _ i x => UOk (i, x)). cbv zeta. split; [apply C34_map_resumes, stream_resumable|].
  split; [apply (@not_reusable (nat * nat) _ _ true 99 1 3 2); vm_compute; congruence|]. split; vm_compute; reflexivity.
Qed.
Print Assumptions C64_second_restore_index_refuted.

(** the rewinding theorem applies: a shuffle buffer over an endless loader, rewound from 5 samples to 2 *)
Example C64_nonvacuous :
  let W := wrap (shuffle_buffer lcg 1 3) (stream_ds (fun i => i)) in
  payloads (runk 0 99 5 (stk 0 99 2 (fresh W))) = [Some 2; Some 5; Some 6; Some 4; Some 0] /\
  payloads (runk 0 99 5 (stk 0 99 5 (fresh W))) = [Some 4; Some 0; Some 9; Some 7; Some 8] /\
  payloads (runk 0 99 5 (rewound W 99 2 5)) = [Some 2; Some 5; Some 6; Some 4; Some 0].
Proof. vm_compute. auto. Qed.
