(** C15 restore keys through whole pipelines, C45 resuming a whole training pipeline. *)
From Coq Require Import String QArith.
From Verif Require Import Base Dataset DatasetProofs Wrap WrapProofs WrapRun WrapSpec WrapLib Rng RngProofs Sharder SharderSpec SampleLoader
  SampleLoaderProofs SampleLoaderProofs3 SampleLoaderRestore Tar TarSpec Joined JoinedSpec JoinedProofs2 Wrappers ShuffleBuffer MapModel SourceProofs
  Batch GroupBatch IdxProofs SimpleProofs ShuffleProofs RepeatProofs EpochizeProofs LimitProofs MapGenProofs BatchProofs
  GroupBatchProofs P_SampleLoader P_Wrappers P_Batch P_GroupBatch Blend Concat P_Blend Packing P_Packing IterMap IterMapProofs P_IterMap PipelineProofs Pipeline EndToEndProofs WebProofs.
Local Close Scope Q_scope.
Local Close Scope Z_scope.
Local Open Scope list_scope.
Local Open Scope nat_scope.

(** C15 for the loader itself: the key of a row read from the tar files of the columns reads the same
    row again, from any rank state, any shuffling, any number of shards in parallel. *)
Theorem C15_web_restores {Dat} (F : files Dat) pfilter R shards par shuffle loop rst :
  web_ok F shards -> restorable (web_ds F pfilter R shards par shuffle loop) rst (length shards).
Proof.
  intros (HP & HF & HN). apply loader_restorable; [exact (@proper_keys _ HP)|].
  intros w t k a W It E. apply (@tar_restores Dat pfilter F shards HF HN t k a w); auto.
  apply in_concat. exists (nth w shards []). split; [apply nth_In; exact W|exact It].
Qed.
Print Assumptions C15_web_restores.

(** C15: through every pipeline, restoring the sample for a yielded sample's key gives that sample,
    after any history of iterating, saving, restoring and resetting. *)
Theorem C15_pipeline_restores : forall nw rst A (D : dataset A), restoring nw rst D ->
  forall w (s s' : st D) a, w < nw -> reach w rst nw s -> next w s (Yield a) s' -> ds_restore_sample D w (rk a) = Ok a.
Proof.
  intros nw rst A D H. enough (HR : restorable D rst nw) by (intros w s s' a; apply HR).
  induction H as [Dat F pfilter R shards par shuffle loop rst <- HW | A B f rst D _ IH | A B f rst D _ IH | A R size rst D OK _ IH
    | A B size drop f rst D Hok _ IH | A B K keq fixed drop kf f rst D _ IH | A p rst D _ IH | A rst D _ IH | A every_n rst D _ IH
    | A reps has rst D _ IH | A len rst D _ IH | A len rst D _ IH | A R n D weight has rst Hh _ IH | A n D rst _ IH
    | A B size pre f rst D Hs Hsel _ IH | A B fn rst D F1 F2 F3 F4 _ IH].
  - apply C15_web_restores. exact HW.
  - apply wrap_restores; [reflexivity|apply idx_no_reset|exact IH|].
    eapply local_yields_weaken; [| |apply map_restores]; auto.
  - apply wrap_restores; [reflexivity|apply mg_no_reset|exact IH|].
    eapply local_yields_weaken; [| |apply mapgen_restores]; auto.
  - apply wrap_restores; [reflexivity|apply shuffle_no_reset|exact IH|].
    apply pass_yields; [intros ? ? ?; reflexivity|]. eapply local_yields_weaken; [| |apply shuffle_yields; exact OK]; auto.
  - apply C31_restores_partial; auto.
  - apply C32_restores; auto.
  - apply wrap_restores; [reflexivity|apply idx_no_reset|exact IH|].
    apply pass_yields; [intros ? ? ?; reflexivity|]. eapply local_yields_weaken; [| |apply filter_yields]; auto.
  - apply wrap_restores; [reflexivity|apply idx_no_reset|exact IH|].
    apply pass_yields; [intros ? ? ?; reflexivity|]. eapply local_yields_weaken; [| |apply log_yields]; auto.
  - apply wrap_restores; [reflexivity|apply gc_no_reset|exact IH|].
    apply pass_yields; [intros ? ? ?; reflexivity|]. eapply local_yields_weaken; [| |apply gc_yields]; auto.
  - apply wrap_restores; [reflexivity|apply repeat_no_reset|exact IH|].
    apply pass_yields; [intros ? ? ?; reflexivity|]. apply repeat_yields.
  - apply (@wrap_restorable_r A A (epochize_ds nw len) D nw rst false false true); auto; try discriminate.
    + left. intros rs w o g o' g'. destruct g; cbn [epochize_ds t_act]; try destruct (_ <? _); discriminate.
    + apply pass_yields; [intros ? ? ?; reflexivity|]. apply epochize_yields.
  - apply (@wrap_restorable_r A A (limit_ds nw len) D nw true rst false true); auto; try discriminate.
    apply pass_yields; [intros ? ? ?; reflexivity|]. apply limit_yields.
  - apply C28_restores_partial; auto.
  - apply C29_restores; auto.
  - apply C33_restores; auto.
  - apply C35_restores_partial; auto.
Qed.
Print Assumptions C15_pipeline_restores.

(** Joined datasets: load_sample puts its class name in front of the key, so the loader refuses it. *)
Theorem C15_joined_restore_refuted {Dat} (F : files Dat) pfilter shards w (row : list (group Dat)) :
  tar_restore F pfilter shards w (joined_key row) = Err AssertionError.
Proof. reflexivity. Qed.
Print Assumptions C15_joined_restore_refuted.

(** C45: a training pipeline of any shape never ends, its samples can be restored, and it resumes exactly. *)
Theorem C45_pipeline_resumes : forall nw A (D : dataset A), training nw D ->
  endless D true nw /\ restorable D true nw /\ resumable D true nw.
Proof.
  intros nw A D H.
  induction H as [Dat F pfilter R shards par shuffle <- HW HNE OK HPar HNS | Dat F pfilter R shards par shuffle <- HW
    | A B f D _ (E & S & IH) | A B f D Hf _ (E & S & IH) | A R size D OK _ (E & S & IH)
    | A B size drop f D Hok _ (E & S & IH) | A p D _ (E & S & IH) | A D _ (E & S & IH) | A every_n D _ (E & S & IH) | A R n D weight has Hh _ IH
    | A B size pre f D Hs Hsel _ (E & S & IH) | A B fn D F1 F2 F3 F4 _ (E & S & IH)].
  - split; [|split].
    + intros w s s' W HR. destruct HW as (HP & _).
      eapply (@loader_never_ends (list (group Dat)) R shards (tar_content F pfilter) par shuffle true (tar_restore F pfilter shards) w); eauto.
      * exact (@proper_keys _ HP).
      * exact (proj1 (Forall_forall _ _) HNE _ (nth_In _ _ W)).
      * exact (@proper_counts _ HP w).
    + apply C15_web_restores. exact HW.
    + apply C13_loader_resumes. apply HW.
  - assert (RS := @C15_web_restores Dat F pfilter R shards par shuffle false true HW). split; [|split].
    + apply (@wrap_endless _ _ (repeat_ds (length shards) None (fun _ => true)) _ (length shards) true true false true) with (Y := fun rs w y => rs (rk y) = Ok y); auto; try discriminate.
      * left. apply repeat_no_reset.
      * apply repeat_inf_yields. reflexivity.
    + apply wrap_restores; [reflexivity|apply repeat_no_reset|exact RS|].
      apply pass_yields; [intros ? ? ?; reflexivity|]. apply repeat_yields.
    + apply C25_repeat_forever_resumes; [reflexivity|]. apply C13_loader_resumes. apply HW.
  - split; [|split; [|apply C34_map_resumes; exact IH]].
    + apply (@wrap_endless A B (map_ds nw f) D nw true true true true) with (Y := fun rs w y => t_restore_sample (map_ds nw f) rs w (rk y) = Ok y); auto.
      * left. apply idx_no_reset.
      * eapply local_yields_weaken; [| |apply map_restores]; auto. discriminate.
    + apply wrap_restores; [reflexivity|apply idx_no_reset|exact S|].
      eapply local_yields_weaken; [| |apply map_restores]; auto.
  - split; [|split; [|apply C34_mapgen_resumes_partial; auto]].
    + apply (@wrap_endless A B (mapgen_ds nw f) D nw true true true true) with (Y := fun rs w y => t_restore_sample (mapgen_ds nw f) rs w (rk y) = Ok y); auto.
      * left. apply mg_no_reset.
      * eapply local_yields_weaken; [| |apply mapgen_restores]; auto. discriminate.
    + apply wrap_restores; [reflexivity|apply mg_no_reset|exact S|].
      eapply local_yields_weaken; [| |apply mapgen_restores]; auto.
  - split; [|split; [|apply C24_shuffle_resumes; auto]].
    + apply (@wrap_endless A A (shuffle_buffer R nw size) D nw true true true true) with (Y := fun rs w y => rs (rk y) = Ok y); auto.
      * left. apply shuffle_no_reset.
      * eapply local_yields_weaken; [| |apply shuffle_yields; exact OK]; auto. discriminate.
    + apply wrap_restores; [reflexivity|apply shuffle_no_reset|exact S|].
      apply pass_yields; [intros ? ? ?; reflexivity|]. eapply local_yields_weaken; [| |apply shuffle_yields; exact OK]; auto.
  - split; [|split; [apply C31_restores_partial; auto|]].
    + apply (@wrap_endless A B (batch_ds nw size drop f) D nw true true true true) with (Y := fun rs w y => t_restore_sample (batch_ds nw size drop f) rs w (rk y) = Ok y); auto.
      * left. apply bt_no_reset.
      * eapply local_yields_weaken; [| |apply bt_restores; exact Hok]; auto. discriminate.
    + apply (@wrap_resumable A B _ D nw true true true false); auto; try discriminate.
      * left. apply bt_no_reset.
      * apply bt_local_resumable; auto.
  - split; [|split; [|apply (@C36_all_resume A nw D true p 0 IH)]].
    + apply (@wrap_endless A A (filter_ds nw p) D nw true true true true) with (Y := fun rs w y => rs (rk y) = Ok y); auto.
      * left. apply idx_no_reset.
      * eapply local_yields_weaken; [| |apply filter_yields]; auto. discriminate.
    + apply wrap_restores; [reflexivity|apply idx_no_reset|exact S|].
      apply pass_yields; [intros ? ? ?; reflexivity|]. eapply local_yields_weaken; [| |apply filter_yields]; auto.
  - split; [|split; [|apply (@C36_all_resume A nw D true (fun _ _ _ => Ok true) 0 IH)]].
    + apply (@wrap_endless A A (log_ds nw) D nw true true true true) with (Y := fun rs w y => rs (rk y) = Ok y); auto.
      * left. apply idx_no_reset.
      * eapply local_yields_weaken; [| |apply log_yields]; auto. discriminate.
    + apply wrap_restores; [reflexivity|apply idx_no_reset|exact S|].
      apply pass_yields; [intros ? ? ?; reflexivity|]. eapply local_yields_weaken; [| |apply log_yields]; auto.
  - split; [|split; [|apply (@C36_all_resume A nw D true (fun _ _ _ => Ok true) every_n IH)]].
    + apply (@wrap_endless A A (gc_ds true every_n) D nw true true true true) with (Y := fun rs w y => rs (rk y) = Ok y); auto.
      * left. apply gc_no_reset.
      * eapply local_yields_weaken; [| |apply gc_yields]; auto. discriminate.
    + apply wrap_restores; [reflexivity|apply gc_no_reset|exact S|].
      apply pass_yields; [intros ? ? ?; reflexivity|]. eapply local_yields_weaken; [| |apply gc_yields]; auto.
  - split; [apply C28_blend_endless|]. split; [apply C28_restores_partial; auto; intros i Hi; apply IH; exact Hi|].
    apply C28_blend_resumes. intros i Hi. apply IH. exact Hi.
  - split; [apply C33_endless; auto|]. split; [apply C33_restores; auto|apply C33_resumes_partial; auto].
  - split; [apply C35_endless; auto|]. split; [apply C35_restores_partial; auto|apply C35_resumes_partial; auto].
Qed.
Print Assumptions C45_pipeline_resumes.

(** The sub-shards that the sharder hands to a rank satisfy what the theorems above ask for. *)
Theorem C15_sharder_web_ok {Dat} (F : files Dat) shards world n maxs rot shs :
  prepared F shards -> (total_samples shards < 2 ^ 51)%Z ->
  match maxs with Some m => (0 < m)%Z | None => True end -> 0 < world ->
  (forall r, r < world -> shard_workers shards (mkWcfg r world n) maxs rot = Ok (shs r)) ->
  forall r, r < world -> web_ok F (shs r) /\ length (shs r) = Nat.max 1 n.
Proof.
  intros HP Ht Hm Hw HS r Hr. split; [eapply rank_web_ok; eauto|].
  eapply (@shs_length shards world n maxs rot shs); eauto. eapply prepared_whole; eauto.
Qed.
Print Assumptions C15_sharder_web_ok.

(** C45, spelled out for the pipeline of DefaultTaskEncoder.build_train_datasets on one (plain or joined) prepared
    dataset: loader, sample loading, shuffle buffer, encoding, batching, virtual epochs.  For every rank, worker and
    moment of saving, the restored pipeline yields exactly the same batches (an epoch end that was due
    when saving is not reported again). *)
Theorem C45_train_pipeline {Dat A B C} (F : files Dat) pfilter R R2 shards world n maxs rot shs par shuffle size
    (load : nat -> nat -> list (group Dat) -> ures A) (encode : nat -> nat -> A -> ures B) bsize drop (batch : nat -> nat -> list B -> ures C) len :
  prepared F shards -> (total_samples shards < 2 ^ 51)%Z ->
  match maxs with Some m => (0 < m)%Z | None => True end -> 0 < world ->
  (forall r, r < world -> shard_workers shards (mkWcfg r world n) maxs rot = Ok (shs r)) ->
  rng_ok R -> rng_ok R2 -> 0 < par -> (shuffle = NoShuffle -> par = 1) ->
  (forall w i l, exists b, batch w i l = UOk b) ->
  let nw := Nat.max 1 n in
  forall r, r < world -> Forall (fun ws => ws <> []) (shs r) ->
  resumes_modulo_end
    (wrap (epochize_ds nw len) (wrap (batch_ds nw bsize drop batch) (wrap (map_ds nw encode) (wrap (shuffle_buffer R2 nw size)
      (wrap (map_ds nw load) (web_ds F pfilter R (shs r) par shuffle true)))))) false nw.
Proof.
  intros HP Ht Hm Hw HS OK OK2 Hpar HNS Hb nw r Hr HNE.
  destruct (C15_sharder_web_ok HP Ht Hm Hw HS Hr) as [HW HL].
  apply (@C26_epochize_resumes C nw len _ true).
  apply C45_pipeline_resumes. apply tr_batch; [exact Hb|]. apply tr_map, tr_shuffle; [exact OK2|]. apply tr_map.
  apply tr_web; auto.
Qed.
Print Assumptions C45_train_pipeline.

(** The same for the pipeline on several datasets, blended with any weights: provided every dataset has
    samples for every worker of the rank. *)
Theorem C45_train_blend {Dat A B C E} m (F : nat -> files Dat) pfilter (R : nat -> rng_ops) RB R2 shards world n maxs rot shs par shuffle size weight has
    (load : nat -> nat -> nat -> list (group Dat) -> ures A) (cook : nat -> nat -> A -> ures B) (encode : nat -> nat -> B -> ures C)
    bsize drop (batch : nat -> nat -> list C -> ures E) len :
  (forall i, i < m -> prepared (F i) (shards i) /\ (total_samples (shards i) < 2 ^ 51)%Z /\
    match maxs i with Some x => (0 < x)%Z | None => True end /\
    (forall r, r < world -> shard_workers (shards i) (mkWcfg r world n) (maxs i) (rot i) = Ok (shs i r)) /\
    rng_ok (R i) /\ 0 < par i /\ (shuffle i = NoShuffle -> par i = 1)) ->
  0 < world -> rng_ok R2 -> (forall w i l, exists b, batch w i l = UOk b) ->
  let nw := Nat.max 1 n in
  forall r, r < world ->
  (forall i w, i < m -> w < nw -> nth w (shs i r) [] <> [] /\ has i w = true) ->
  resumes_modulo_end
    (wrap (epochize_ds nw len) (wrap (batch_ds nw bsize drop batch) (wrap (map_ds nw encode) (wrap (map_ds nw cook) (wrap (shuffle_buffer R2 nw size)
      (blend_ds RB m (fun i => wrap (map_ds nw (load i)) (web_ds (F i) pfilter (R i) (shs i r) (par i) (shuffle i) true)) weight has)))))) false nw.
Proof.
  intros HD Hw OK2 Hb nw r Hr HNE. apply (@C26_epochize_resumes E nw len _ true).
  apply C45_pipeline_resumes. apply tr_batch; [exact Hb|]. apply tr_map, tr_map, tr_shuffle; [exact OK2|].
  apply tr_blend; [intros i w Hi W; apply HNE; auto|]. intros i Hi. apply tr_map.
  destruct (HD i Hi) as (HP & Ht & Hm & HS & OK & Hpar & HNS).
  destruct (C15_sharder_web_ok HP Ht Hm Hw HS Hr) as [HW HL].
  apply tr_web; auto. apply Forall_forall. intros ws Iw. apply In_nth with (d := []) in Iw as (w & W & <-).
  apply HNE; auto. rewrite HL in W. exact W.
Qed.
Print Assumptions C45_train_blend.

(** The proviso is needed: if a dataset has no samples for the worker, the keys in the saved shuffle buffer
    name the wrong dataset, and the restored pipeline yields samples that the saved one would not. *)
Theorem C45_blend_empty_refuted : exists (D : nat -> dataset nat) has,
  (forall i, resumable (D i) true 1) /\ (forall i, restorable (D i) true 1) /\
  ~ resumable (wrap (shuffle_buffer lcg 1 2) (blend_ds lcg 2 D (fun _ => 1%Q) has)) true 1.
Proof.
  exists (fun i => stream_ds (fun k => 100 * i + k)), (fun i _ => i =? 1).
  split; [intros i; apply stream_resumable|]. split; [intros i; apply stream_restorable|].
  set (W := wrap (shuffle_buffer lcg 1 2) _).
  apply (@not_resumable _ W 0 true 1 50 2 4 [Some (ds_save W 0 (fst (stk 0 50 2 (ds_init W, ds_iter W))))]).
  - lia.
  - reflexivity.
  - reflexivity.
  - vm_compute. reflexivity.
  - vm_compute. intros X. discriminate X.
Qed.
Print Assumptions C45_blend_empty_refuted.

(** C46 down to the files: one epoch over all ranks and workers delivers exactly the samples in the tar
    files, each of them (for joined datasets, each row of samples with the same key) once. *)
Theorem C46_epoch_delivers_files {Dat} (F : files Dat) pfilter (R : nat -> rng_ops) shards world n maxs rot par shuffle k shs :
  prepared F shards -> (total_samples shards < 2 ^ 51)%Z ->
  match maxs with Some m => (0 < m)%Z | None => True end -> 0 < world ->
  (forall r, rng_ok (R r)) -> par >= 1 ->
  (shuffle = NoShuffle /\ par = 1 /\ k = 1) \/ shuffle = Over k ->
  (forall r, r < world -> shard_workers shards (mkWcfg r world n) maxs rot = Ok (shs r)) ->
  let nw := Nat.max 1 n in
  exists used, sublist used (all_rows shards) /\ (maxs = None -> used = all_rows shards) /\
  exists xs : nat -> nat -> list (sample (list (group Dat))),
    (forall r w, r < world -> w < nw ->
       emits w (fresh (web_ds F pfilter (R r) (shs r) par shuffle false)) (epoch (xs r w))) /\
    Permutation (concat (map (fun r => concat (map (xs r) (seq 0 nw))) (seq 0 world)))
                (concat (repeat (map (tar_row pfilter F) used) k)).
Proof.
  intros HP Ht Hm Hw HR Hpar M HS.
  eapply (@global_epoch _ R shards (tar_row pfilter F) world n maxs rot par shuffle k (fun r => tar_restore F pfilter (shs r)) shs); auto.
  - exact (proj1 HP).
  - apply (prepared_whole HP Hw HS).
  - apply (prepared_names HP).
  - intros r s Hr Is. apply (rank_content pfilter HP Ht Hm Hw HS Hr Is).
Qed.
Print Assumptions C46_epoch_delivers_files.

Open Scope string_scope.
Open Scope list_scope.
Open Scope nat_scope.
(** Non-vacuity: a joined dataset of two shards with two columns, on one rank with two workers. *)
Definition pf_files : files nat := mkFiles
  (fun n => nth n ["a0"; "a1"; "b0"; "b1"] ""%string)
  (fun n => nth n [ [mkM "x.jpg" true 2 1; mkM "x.json" true 1 2; mkM "y.jpg" true 2 3];
                    [mkM "z.jpg" true 1 4];
                    [mkM "x.txt" true 1 5; mkM "y.txt" true 1 6];
                    [mkM "z.txt" true 1 7] ]%string []).
Definition pf_shards : list shseq :=
  [(Sharder.mkShard 0 0 2, [Sharder.mkShard 2 0 2]); (Sharder.mkShard 1 0 1, [Sharder.mkShard 3 0 1])]%Z.
Definition pf_shs (r : nat) : list (list shseq) := match shard_workers pf_shards (mkWcfg r 1 2) None 0 with Ok x => x | _ => [] end.
Example pf_prepared : prepared pf_files pf_shards.
Proof.
  split; [discriminate|]. split.
  - assert (FO : forall c, In c [0; 1; 2; 3] -> forall k, k = Z.of_nat (length (archive_samples (d_tar pf_files c))) ->
       file_ok pf_files (Sharder.mkShard c 0 k)).
    { intros c Hc k ->. split; [|split; [|reflexivity]].
      - intros m H. repeat (destruct Hc as [<-|Hc]; [repeat (destruct H as [<-|H]; [cbn; lia|]); destruct H|]). destruct Hc.
      - repeat (destruct Hc as [<-|Hc]; [vm_compute; reflexivity|]). destruct Hc. }
    apply Forall_cons; [|apply Forall_cons; [|apply Forall_nil]].
    + split; [|split].
      * apply Forall_cons; [|apply Forall_cons; [|apply Forall_nil]]; apply FO; cbn [In]; auto; vm_compute; reflexivity.
      * intros sh H. repeat (destruct H as [<-|H]; [vm_compute; reflexivity|]). destruct H.
      * repeat constructor.
    + split; [|split].
      * apply Forall_cons; [|apply Forall_cons; [|apply Forall_nil]]; apply FO; cbn [In]; auto; vm_compute; reflexivity.
      * intros sh H. repeat (destruct H as [<-|H]; [vm_compute; reflexivity|]). destruct H.
      * repeat constructor.
  - cbn. repeat constructor; cbn; intuition congruence.
Qed.
Example pf_sharded : forall r, r < 1 -> shard_workers pf_shards (mkWcfg r 1 2) None 0 = Ok (pf_shs r).
Proof. intros [|r] H; [vm_compute; reflexivity|lia]. Qed.
Example pf_nonempty : Forall (fun ws => ws <> []) (pf_shs 0).
Proof. repeat constructor; discriminate. Qed.
Example pf_keys : runk 0 30 4 (fresh (web_ds pf_files (fun _ => true) lcg (pf_shs 0) 1 (Over 1) false)) =
  [Yield (mkS [Some (mkRSam "a0/x" ("a0"%string, 0) [("jpg"%string, 1); ("json"%string, 2)]); Some (mkRSam "b0/x" ("b0"%string, 0) [("txt"%string, 5)])]
              [AStr "Webdataset"; AStr "a0"; AInt 0; AStr "b0"; AInt 0]);
   Yield (mkS [Some (mkRSam "a0/y" ("a0"%string, 1) [("jpg"%string, 3)]); Some (mkRSam "b0/y" ("b0"%string, 1) [("txt"%string, 6)])]
              [AStr "Webdataset"; AStr "a0"; AInt 1; AStr "b0"; AInt 1]); Done;
   Yield (mkS [Some (mkRSam "a0/x" ("a0"%string, 0) [("jpg"%string, 1); ("json"%string, 2)]); Some (mkRSam "b0/x" ("b0"%string, 0) [("txt"%string, 5)])]
              [AStr "Webdataset"; AStr "a0"; AInt 0; AStr "b0"; AInt 0])].
Proof. vm_compute. reflexivity. Qed.
