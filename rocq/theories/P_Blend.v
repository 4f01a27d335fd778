(** C28 BlendDataset, C29 ConcatDataset. *)
From Coq Require Import String QArith.
From Verif Require Import Base Dataset DatasetProofs WrapSpec SourceProofs Rng RngProofs Multi MultiProofs Blend BlendSpec BlendProofs Concat ConcatProofs P_Worker.
Local Close Scope Q_scope.
Local Open Scope list_scope.
Local Open Scope nat_scope.

(** ** C28 *)
(** Whatever a blend yields in worker w, over any choices of the random generator: every sample is a
    sample of a dataset that has samples for w and has a positive weight, and for every dataset the
    samples taken from it are exactly the beginning of that dataset's own stream (restarted whenever
    it ends): nothing is skipped, repeated or reordered. *)
Theorem C28_blend_draws {A} (R : rng_ops) n (D : nat -> dataset A) weight has w l :
  rng_ok R -> (forall i, i < n -> (0 <= weight i)%Q) -> (exists i, in_use n has w i /\ (0 < weight i)%Q) ->
  emits w (fresh (blend_ds R n D weight has)) l -> clean l ->
  exists ys : list (nat * sample A),
    Forall2 (drawn n has w) ys l /\
    Forall (fun y => in_use n has w (fst y) /\ (0 < weight (fst y))%Q) ys /\
    forall i, i < n -> exists li, emits w (fresh (D i)) li /\ clean li /\ samples li = of_ds i ys.
Proof.
  intros OK HN HP HE HC. destruct (@blend_trace_from A R n D weight has w l (fresh _) I HE HC) as (ys & F & P & G).
  exists ys. split; [exact F|]. split; [|exact G]. specialize (P OK (conj HN HP)).
  clear - F P. induction F as [|y e ys l H F IH]; [constructor|]. inversion P; subst. constructor; auto.
  split; auto. destruct H as (k & Hk & _). apply nth_error_In, filter_In in Hk as [H1' H2']. apply in_seq in H1'. split; [lia|exact H2'].
Qed.
Print Assumptions C28_blend_draws.

(** it never ends by itself, and an exception comes from one of the datasets *)
Theorem C28_blend_endless {A} (R : rng_ops) n (D : nat -> dataset A) weight has rst nw : endless (blend_ds R n D weight has) rst nw.
Proof. exact (@blend_endless A R n D weight has rst nw). Qed.
Print Assumptions C28_blend_endless.

Theorem C28_blend_errors {A} (R : rng_ops) n (D : nat -> dataset A) weight has w l x :
  rng_ok R -> (forall i, i < n -> (0 <= weight i)%Q) -> (exists i, in_use n has w i /\ (0 < weight i)%Q) ->
  emits w (fresh (blend_ds R n D weight has)) (l ++ [Raise x]) ->
  exists i li, in_use n has w i /\ emits w (fresh (D i)) (li ++ [Raise x]).
Proof. intros OK HN HP HE. exact (@blend_raise_from A R n D weight has w l x OK (conj HN HP) (fresh _) I HE). Qed.
Print Assumptions C28_blend_errors.

(** as long as the datasets with positive weight deliver samples, the blend does *)
Theorem C28_blend_delivers {A} (R : rng_ops) n (D : nat -> dataset A) weight has w :
  rng_ok R -> (forall i, i < n -> (0 <= weight i)%Q) -> (exists i, in_use n has w i /\ (0 < weight i)%Q) ->
  (forall i, in_use n has w i -> (0 < weight i)%Q -> forall k, exists li, emits w (fresh (D i)) li /\ n_yields li = k) ->
  forall k, exists ys, length ys = k /\ emits w (fresh (blend_ds R n D weight has)) (map Yield ys).
Proof.
  intros OK HN HP HL k. destruct (@blend_lively A R n D weight has w OK (conj HN HP) k (fresh _) I HL) as (l & E & L).
  exists l. auto.
Qed.
Print Assumptions C28_blend_delivers.

(** it resumes exactly, for all weights and all inner datasets that do *)
Theorem C28_blend_resumes {A} (R : rng_ops) n (D : nat -> dataset A) weight has rst nw :
  (forall i, i < n -> resumable (D i) rst nw) -> resumable (blend_ds R n D weight has) rst nw.
Proof. exact (@blend_resumable A R n D weight has rst nw). Qed.
Print Assumptions C28_blend_resumes.

(** samples can be restored by key if every dataset has samples for every worker *)
Theorem C28_restores_partial {A} (R : rng_ops) n (D : nat -> dataset A) weight has rst nw :
  (forall i w, i < n -> w < nw -> has i w = true) ->
  (forall i, i < n -> restorable (D i) rst nw) -> restorable (blend_ds R n D weight has) rst nw.
Proof. exact (@blend_restorable A R n D weight has rst nw). Qed.
Print Assumptions C28_restores_partial.

(** otherwise not: the key holds the index among the datasets with samples, restore_sample takes it as
    an index into all datasets, and brings back a sample of another dataset *)
Theorem C28_restore_key_refuted : exists (D : nat -> dataset nat) weight has,
  (forall i, restorable (D i) true 1) /\
  exists a s' b, next 0 (fresh (blend_ds lcg 2 D weight has)) (Yield a) s' /\
    ds_restore_sample (blend_ds lcg 2 D weight has) 0 (rk a) = Ok b /\ pl b <> pl a.
Proof.
  exists (fun i => stream_ds (fun k => 100 * i + k)), (fun _ => 1%Q), (fun i _ => i =? 1). split; [intros i; apply stream_restorable|].
  eexists (mkS 100 [AStr "BlendDataset"; AInt 0; AInt 0]), _, (mkS 0 [AStr "BlendDataset"; AInt 0; AInt 0]).
  split; [exists 5; vm_compute; reflexivity|]. split; [vm_compute; reflexivity|discriminate].
Qed.
Print Assumptions C28_restore_key_refuted.

(** and a dataset of weight zero is drawn if it is the only one with samples for the worker *)
Theorem C28_zero_weight_refuted : exists (D : nat -> dataset nat) weight has a s',
  (forall i w (s : st (D i)) b s'', next w s (Yield b) s'' -> pl b = i) /\ Qeq (weight 0) 1 /\ Qeq (weight 1) 0 /\
  next 0 (fresh (blend_ds lcg 2 D weight has)) (Yield a) s' /\ pl a = 1.
Proof.
  exists (fun i => stream_ds (fun _ => i)), (fun i => if i =? 0 then 1%Q else 0%Q), (fun i _ => i =? 1).
  eexists (mkS 1 [AStr "BlendDataset"; AInt 0; AInt 0]), _.
  split; [intros i w s b s'' N; apply stream_next in N as [E _]; injection E as ->; reflexivity|].
  split; [reflexivity|]. split; [reflexivity|]. split; [exists 5; vm_compute; reflexivity|reflexivity].
Qed.
Print Assumptions C28_zero_weight_refuted.

(** Non-vacuity: two workers, three datasets, one of weight 0, one finite *)
Definition bx_ds (i : nat) : dataset nat := if i =? 0 then list_ds [10; 11] else stream_ds (fun k => 100 * i + k).
Definition bx_w (i : nat) : Q := nth i [1; 2; 0]%Q 0%Q.
Example bx_hyps : rng_ok lcg /\ (forall i, i < 3 -> (0 <= bx_w i)%Q) /\ (exists i, in_use 3 (fun _ _ => true) 1 i /\ (0 < bx_w i)%Q) /\
  (forall i, i < 3 -> resumable (bx_ds i) true 2) /\ (forall i, i < 3 -> restorable (bx_ds i) true 2).
Proof.
  split; [exact lcg_ok|]. split; [intros [|[|[|i]]] H; cbn; try discriminate; lia|].
  split; [exists 1; repeat split; auto|].
  split; intros [|i] H; cbn; try apply list_resumable; try apply stream_resumable; try apply list_restorable; try apply stream_restorable.
Qed.
Example bx_run : map (fun e => match e with Yield a => pl a | _ => 0 end) (runk 1 20 6 (fresh (blend_ds lcg 3 bx_ds bx_w (fun _ _ => true)))) =
  [10; 100; 11; 10; 101; 11].
Proof. vm_compute. reflexivity. Qed.

(** ** C29 *)
(** every epoch of the concatenation is the epochs of its datasets, one after the other, over any
    number of epochs *)
Theorem C29_concat_epochs {A} n (D : nat -> dataset A) w m (xs : nat -> nat -> list (sample A)) :
  (forall i, i < n -> emits w (fresh (D i)) (concat (map (fun e => epoch (xs i e)) (seq 0 m)))) ->
  emits w (fresh (concat_ds n D))
    (concat (map (fun e => epoch (flat_map (fun i => map (of_concat i) (xs i e)) (seq 0 n))) (seq 0 m))).
Proof. exact (@concat_epochs A n D w m xs (fun i => ds_init (D i))). Qed.
Print Assumptions C29_concat_epochs.

(** and nothing else *)
Theorem C29_concat_nothing_else {A} n (D : nat -> dataset A) w m (xs : nat -> nat -> list (sample A)) l :
  (forall i, i < n -> emits w (fresh (D i)) (concat (map (fun e => epoch (xs i e)) (seq 0 m)))) ->
  emits w (fresh (concat_ds n D)) l ->
  let expected := concat (map (fun e => epoch (flat_map (fun i => map (of_concat i) (xs i e)) (seq 0 n))) (seq 0 m)) in
  length l <= length expected -> exists rest, expected = l ++ rest.
Proof.
  intros H HE ex HL. pose proof (C29_concat_epochs H) as HX. fold ex in HX.
  exists (skipn (length l) ex). rewrite <- (firstn_skipn (length l) ex) at 1. f_equal.
  symmetry. eapply emits_det; [exact HE| |rewrite firstn_length; lia].
  eapply emits_prefix. rewrite firstn_skipn. exact HX.
Qed.
Print Assumptions C29_concat_nothing_else.

Theorem C29_restores {A} n (D : nat -> dataset A) rst nw :
  (forall i, i < n -> restorable (D i) rst nw) -> restorable (concat_ds n D) rst nw.
Proof. exact (@concat_restorable A n D rst nw). Qed.
Print Assumptions C29_restores.

(** saved while only samples of the first dataset have been taken in the current epoch, it resumes *)
Theorem C29_resumes_in_first_partial {A} n (D : nat -> dataset A) rst nw :
  (forall i, i < n -> resumable (D i) rst nw) ->
  forall w (o : ds_obj (concat_ds n D)) ys s sts, w < nw -> reach w rst nw (o, ds_iter (concat_ds n D)) ->
    took w (o, ds_iter (concat_ds n D)) ys s -> Forall from_first ys ->
    length sts = nw -> nth_error sts w = Some (Some (ds_save (concat_ds n D) w (fst s))) ->
    same_stream w s (ds_restore (concat_ds n D) (Some (ds_merge (concat_ds n D) sts)) (ds_init (concat_ds n D)), ds_iter (concat_ds n D)).
Proof.
  intros HR w o ys s sts W R0 T F HL HN.
  assert (Q : reach w rst nw s /\ cpos s = 0).
  { assert (P0 : cpos (n := n) (D := D) (o, ds_iter (concat_ds n D)) = 0) by reflexivity. revert R0 P0 F. clear - T.
    induction T as [s|s a s1 ys s' N T IH]; intros R0 P0 F; [auto|]. inversion F as [|? ? (b & Fa) F']; subst. apply IH; auto.
    - eapply r_yield; eauto.
    - apply concat_next_inv in N. apply (@cnext_reach _ _ _ rst nw) in N; [|intros; apply concat_reach; auto].
      destruct N as (_ & _ & c & si & E & _). unfold of_concat, add_idx in E. injection E as _ E _. auto. }
  destruct Q as [Q1 Q2]. eapply (@concat_resumes_first A n D rst nw HR w s sts); auto.
Qed.
Print Assumptions C29_resumes_in_first_partial.

(** saved in a later dataset, the restored iteration begins with the first dataset again *)
Theorem C29_resume_refuted : exists D : nat -> dataset nat,
  (forall i, resumable (D i) true 1) /\ ~ resumable (concat_ds 2 D) true 1.
Proof.
  exists (fun i => list_ds [10 * i; 10 * i + 1]). split; [intros i; apply list_resumable|].
  set (W := concat_ds 2 (fun i => list_ds [10 * i; 10 * i + 1])).
  apply (@not_resumable _ W 0 true 1 50 3 1 [Some (ds_save W 0 (fst (stk 0 50 3 (ds_init W, ds_iter W))))]); auto; vm_compute; congruence.
Qed.
Print Assumptions C29_resume_refuted.

Example cx_epochs : forall i, i < 2 ->
  emits 0 (fresh (list_ds [10 * i; 10 * i + 1])) (concat (map (fun e => epoch (keyed 0 [10 * i; 10 * i + 1])) (seq 0 2))).
Proof.
  intros i Hi. assert (E : runk 0 5 6 (fresh (list_ds [10 * i; 10 * i + 1])) = concat (map (fun e => epoch (keyed 0 [10 * i; 10 * i + 1])) (seq 0 2))) by reflexivity.
  rewrite <- E. apply runk_emits.
Qed.
