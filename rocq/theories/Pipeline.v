(** The pipelines that C15 and C45 range over: what can be built from a webdataset loader with the
    wrappers of wrappers/ (base_webdataset.py build, task_encoder/base.py:484-601). *)
From Coq Require Import QArith.
From Verif Require Import Base Dataset Wrap Rng RngProofs Sharder SampleLoader Tar Joined JoinedSpec Wrappers ShuffleBuffer MapModel
  Batch GroupBatch Packing IterMap IterMapProofs Blend Concat P_SampleLoader.
Local Close Scope Q_scope.
Local Close Scope Z_scope.
Local Open Scope nat_scope.

(** the loader of a rank whose sub-shards are those that the sharder made of prepared files *)
Definition web_ok {Dat} (F : files Dat) (shards : list (list shseq)) : Prop :=
  proper_shards shards /\ Forall (Forall (seq_ok F)) shards /\ named_apart F shards.
Definition web_ds {Dat} (F : files Dat) pfilter R shards par shuffle loop : dataset (list (group Dat)) :=
  loader_ds R shards (tar_content F pfilter) par shuffle loop (tar_restore F pfilter shards).

(** [restoring nw rst A D]: [D] is a pipeline whose samples can be restored by key.  [rst]: may be reset by
    restore_state(None) (LimitDataset resets the dataset below it). *)
Inductive restoring (nw : nat) : bool -> forall A : Type, dataset A -> Prop :=
| re_web Dat (F : files Dat) pfilter R shards par shuffle loop rst :
    length shards = nw -> web_ok F shards -> restoring nw rst (web_ds F pfilter R shards par shuffle loop)
| re_map A B (f : nat -> nat -> A -> ures B) rst (D : dataset A) :
    restoring nw rst D -> restoring nw rst (wrap (map_ds nw f) D)
| re_mapgen A B (f : nat -> nat -> A -> list B * gend) rst (D : dataset A) :
    restoring nw rst D -> restoring nw rst (wrap (mapgen_ds nw f) D)
| re_shuffle A R size rst (D : dataset A) : rng_ok R ->
    restoring nw rst D -> restoring nw rst (wrap (shuffle_buffer R nw size) D)
| re_batch A B size drop (f : nat -> nat -> list A -> ures B) rst (D : dataset A) :
    (forall w i l, exists b, f w i l = UOk b) ->       (* see C31_after_skip_refuted *)
    restoring nw rst D -> restoring nw rst (wrap (batch_ds nw size drop f) D)
| re_group A B K keq fixed drop (kf : nat -> nat -> A -> ures (K * option nat)) (f : nat -> nat -> list A -> ures B) rst (D : dataset A) :
    restoring nw rst D -> restoring nw rst (wrap (groupbatch_ds keq nw fixed drop false kf f) D)
| re_filter A (p : nat -> nat -> A -> result bool) rst (D : dataset A) :
    restoring nw rst D -> restoring nw rst (wrap (filter_ds nw p) D)
| re_log A rst (D : dataset A) : restoring nw rst D -> restoring nw rst (wrap (log_ds nw) D)
| re_gc A every_n rst (D : dataset A) : restoring nw rst D -> restoring nw rst (wrap (gc_ds true every_n) D)
| re_repeat A reps has rst (D : dataset A) : restoring nw rst D -> restoring nw rst (wrap (repeat_ds nw reps has) D)
| re_epochize A len rst (D : dataset A) : restoring nw rst D -> restoring nw false (wrap (epochize_ds nw len) D)
| re_limit A len rst (D : dataset A) : restoring nw true D -> restoring nw rst (wrap (limit_ds nw len) D)
| re_blend A R n (D : nat -> dataset A) weight has rst :
    (forall i w, i < n -> w < nw -> has i w = true) ->   (* see C28_restore_key_refuted *)
    (forall i, i < n -> restoring nw rst (D i)) -> restoring nw rst (blend_ds R n D weight has)
| re_concat A n (D : nat -> dataset A) rst :
    (forall i, i < n -> restoring nw rst (D i)) -> restoring nw rst (concat_ds n D)
| re_pack A B size (pre : nat -> nat -> list (sample A) -> ures (list (list (sample A)))) (f : nat -> nat -> list A -> ures B) rst (D : dataset A) :
    0 < size ->
    (forall w i l gs, pre w i l = UOk gs -> incl (concat gs) l) ->   (* see C33_restores_changed_samples_refuted *)
    restoring nw rst D -> restoring nw rst (wrap (pack_ds nw size pre f) D)
| re_itermap A B (fn : iterfn A B) rst (D : dataset A) :
    memoryless fn -> hungry fn -> greedy fn -> never_fails fn ->   (* see C35_second_sample_refuted, C35_after_failure_refuted *)
    restoring nw rst D -> restoring nw rst (wrap (itermap_ds nw fn true) D).

(** [training nw A D]: endless pipelines *)
Inductive training (nw : nat) : forall A : Type, dataset A -> Prop :=
| tr_web Dat (F : files Dat) pfilter R shards par shuffle :
    length shards = nw -> web_ok F shards -> Forall (fun ws => ws <> []) shards -> rng_ok R -> 0 < par ->
    (shuffle = NoShuffle -> par = 1) ->
    training nw (web_ds F pfilter R shards par shuffle true)
| tr_repeat_web Dat (F : files Dat) pfilter R shards par shuffle :
    length shards = nw -> web_ok F shards ->
    training nw (wrap (repeat_ds nw None (fun _ => true)) (web_ds F pfilter R shards par shuffle false))
| tr_map A B (f : nat -> nat -> A -> ures B) (D : dataset A) :
    training nw D -> training nw (wrap (map_ds nw f) D)
| tr_mapgen A B (f : nat -> nat -> A -> list B * gend) (D : dataset A) :
    (forall w i a, length (fst (f w i a)) <= 1 /\ snd (f w i a) = GEnd) ->   (* see C34_mapgen_resume_refuted *)
    training nw D -> training nw (wrap (mapgen_ds nw f) D)
| tr_shuffle A R size (D : dataset A) : rng_ok R -> training nw D -> training nw (wrap (shuffle_buffer R nw size) D)
| tr_batch A B size drop (f : nat -> nat -> list A -> ures B) (D : dataset A) :
    (forall w i l, exists b, f w i l = UOk b) ->
    training nw D -> training nw (wrap (batch_ds nw size drop f) D)
| tr_filter A (p : nat -> nat -> A -> result bool) (D : dataset A) :
    training nw D -> training nw (wrap (filter_ds nw p) D)
| tr_log A (D : dataset A) : training nw D -> training nw (wrap (log_ds nw) D)
| tr_gc A every_n (D : dataset A) : training nw D -> training nw (wrap (gc_ds true every_n) D)
| tr_blend A R n (D : nat -> dataset A) weight has :
    (forall i w, i < n -> w < nw -> has i w = true) ->
    (forall i, i < n -> training nw (D i)) -> training nw (blend_ds R n D weight has)
| tr_pack A B size (pre : nat -> nat -> list (sample A) -> ures (list (list (sample A)))) (f : nat -> nat -> list A -> ures B) (D : dataset A) :
    0 < size -> (forall w i l gs, pre w i l = UOk gs -> incl (concat gs) l) ->
    training nw D -> training nw (wrap (pack_ds nw size pre f) D)
| tr_itermap A B (fn : iterfn A B) (D : dataset A) :
    memoryless fn -> hungry fn -> greedy fn -> never_fails fn ->
    training nw D -> training nw (wrap (itermap_ds nw fn true) D).
