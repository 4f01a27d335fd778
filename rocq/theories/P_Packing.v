(** Property C33: PackingDataset. *)
From Coq Require Import String Permutation.
From Verif Require Import Base Dataset DatasetProofs Wrap WrapProofs WrapRun WrapTrace WrapSpec WrapLib
  Wrappers MapModel SourceProofs Buffer Batch BatchSpec BatchProofs P_Batch P_GroupBatch
  Packing PackingSpec PackingProofs GenBatchProofs PackingProofs2 PackingProofs3.
Local Open Scope string_scope.
Local Open Scope list_scope.
Local Open Scope nat_scope.

(** every epoch is cut into buffers of [size] samples, the pre packer chooses groups from each, and every
    group becomes one pack; provided there are never ten fruitless buffers in a row *)
Theorem C33_packs {A B} nw size (pre : nat -> nat -> list (sample A) -> ures (list (list (sample A)))) (f : nat -> nat -> list A -> ures B)
    (D : dataset A) w eps xs :
  0 < size -> w < nw -> (forall i l, pre w i l <> UFatal) -> (forall i l, f w i l <> UFatal) ->
  no_drought (pre w) size 0 eps xs ->
  emits w (fresh D) (concat (map epoch eps) ++ map Yield xs) ->
  exists outs, emits w (fresh (wrap (pack_ds nw size pre f) D)) outs /\
    packed (pre w) (f w) size 0 0 eps xs outs.
Proof.
  intros Hs Hw H1 H2 ND E. destruct (packed_exists pre f Hs w eps xs 0 0) as [outs HP]. exists outs. split; [|exact HP].
  rewrite <- (ev_packed Hs HP). apply (pk_forward Hs Hw H1 H2 (clean_epochs eps xs)); [|exact E].
  apply (dry_ok f Hs ND).
Qed.
Print Assumptions C33_packs.

(** what follows from samples and epochs is determined by them *)
Theorem C33_determined {A B} size (pre : nat -> list (sample A) -> ures (list (list (sample A)))) (f : nat -> list A -> ures B) i j eps xs o1 o2 :
  0 < size -> packed pre f size i j eps xs o1 -> packed pre f size i j eps xs o2 -> o1 = o2.
Proof.
  intros Hs H1 H2.
  rewrite <- (@ev_packed A B size (fun _ => pre) (fun _ => f) Hs 0 _ _ _ _ _ H1).
  exact (@ev_packed A B size (fun _ => pre) (fun _ => f) Hs 0 _ _ _ _ _ H2).
Qed.

(** ... and nothing else comes out *)
Theorem C33_nothing_else {A B} nw size (pre : nat -> nat -> list (sample A) -> ures (list (list (sample A)))) (f : nat -> nat -> list A -> ures B)
    (D : dataset A) w outs :
  0 < size -> w < nw -> clean outs ->
  emits w (fresh (wrap (pack_ds nw size pre f) D)) outs ->
  exists eps xs more, emits w (fresh D) (concat (map epoch eps) ++ map Yield xs) /\
    packed (pre w) (f w) size 0 0 eps xs (outs ++ more).
Proof.
  intros Hs Hw HC E. destruct (pk_trace Hs Hw HC E) as (ins & more & C & EI & EQ).
  destruct (clean_decompose C) as (eps & xs & ->). exists eps, xs, more. split; [exact EI|].
  destruct (packed_exists pre f Hs w eps xs 0 0) as [o HP]. rewrite <- EQ, (ev_packed Hs HP). exact HP.
Qed.
Print Assumptions C33_nothing_else.

(** *** each sample is used at most once, or exactly once *)
Lemma samples_app {P} (a b : list (event (sample P))) : samples (a ++ b) = samples a ++ samples b.
Proof. induction a as [|[x| | |e] a IH]; cbn [app samples]; rewrite ?IH; reflexivity. Qed.
Lemma samples_yields {P} (xs : list (sample P)) : samples (map Yield xs) = xs.
Proof. induction xs as [|x xs IH]; cbn; rewrite ?IH; reflexivity. Qed.
Lemma samples_epoch {P} (xs : list (sample P)) : samples (epoch xs) = xs.
Proof. unfold epoch. rewrite samples_app, samples_yields. apply app_nil_r. Qed.

Section Once.
  Context {A B : Type} (size : nat).
  Variable pre : nat -> list (sample A) -> ures (list (list (sample A))).
  Variable f : nat -> list A -> ures B.

  Lemma parts_tuples (l : list (sample A)) : flat_map (fun a => match a with ATup k => [k] | _ => [] end) (map (fun a => ATup (rk a)) l) = map rk l.
  Proof. induction l as [|a l IH]; cbn; rewrite ?IH; reflexivity. Qed.

  Lemma packs_once gs : forall j, exists rest, Permutation (flat_map parts (packs f j gs) ++ rest) (map rk (concat gs)).
  Proof.
    induction gs as [|g gs IH]; intros j; cbn [packs concat]; [exists []; apply Permutation_refl|].
    destruct (IH (S j)) as [rest HR]. rewrite map_app. destruct (f j (map pl g)).
    - exists rest. cbn [app flat_map]. rewrite <- app_assoc. apply Permutation_app; [|exact HR]. cbn [parts rk]. rewrite parts_tuples. apply Permutation_refl.
    - exists (map rk g ++ rest). cbn [app]. rewrite app_assoc, (Permutation_app_comm _ (map rk g)), <- app_assoc. apply Permutation_app_head, HR.
    - exists (map rk g ++ rest). cbn [app]. rewrite app_assoc, (Permutation_app_comm _ (map rk g)), <- app_assoc. apply Permutation_app_head, HR.
    - exists (map rk g ++ rest). cbn [app]. rewrite app_assoc, (Permutation_app_comm _ (map rk g)), <- app_assoc. apply Permutation_app_head, HR.
  Qed.

  Lemma packs_all gs : (forall j l, exists b, f j l = UOk b) -> forall j, flat_map parts (packs f j gs) = map rk (concat gs).
  Proof.
    intros HF. induction gs as [|g gs IH]; intros j; cbn [packs concat]; [reflexivity|]. destruct (HF j (map pl g)) as [b ->].
    cbn [app flat_map]. rewrite IH, map_app. f_equal. cbn [parts rk]. apply parts_tuples.
  Qed.

  (** a pre packer that puts every buffered sample into at most one group *)
  Definition selects : Prop := forall i c gs, pre i c = UOk gs -> exists rest, Permutation (concat gs ++ rest) c.
  (** ... into exactly one *)
  Definition partitions : Prop := forall i c, exists gs, pre i c = UOk gs /\ Permutation (concat gs) c.

  Lemma perm_mid {X} (a b c d : list X) : Permutation ((a ++ b) ++ (c ++ d)) ((a ++ c) ++ (b ++ d)).
  Proof. rewrite <- !app_assoc. apply Permutation_app_head. rewrite !app_assoc. apply Permutation_app_tail, Permutation_app_comm. Qed.

  Lemma chosen_all_once chunks : selects -> forall i, exists rest, Permutation (concat (chosen_all pre i chunks) ++ rest) (concat chunks).
  Proof.
    intros HS. induction chunks as [|c cs IH]; intros i; cbn [chosen_all concat]; [exists []; apply Permutation_refl|].
    destruct (IH (S i)) as [r HR].
    assert (exists r1, Permutation (concat (chosen pre i c) ++ r1) c) as [r1 H1].
    { unfold chosen. destruct (pre i c) eqn:E; [exact (HS _ _ _ E)|exists c; apply Permutation_refl..]. }
    exists (r1 ++ r). rewrite concat_app. rewrite perm_mid. apply Permutation_app; assumption.
  Qed.

  Lemma chosen_all_all chunks : partitions -> forall i, Permutation (concat (chosen_all pre i chunks)) (concat chunks).
  Proof.
    intros HS. induction chunks as [|c cs IH]; intros i; cbn [chosen_all concat]; [apply Permutation_refl|].
    rewrite concat_app. apply Permutation_app; [|apply IH]. unfold chosen. destruct (HS i c) as (gs & -> & H). exact H.
  Qed.

  Lemma groups_concat (e : list (sample A)) chunks : groups size false e chunks -> concat chunks = e.
  Proof.
    intros (full & tail & _ & _ & -> & ->). destruct tail; [rewrite app_nil_r; reflexivity|]. rewrite concat_app. cbn. rewrite app_nil_r. reflexivity.
  Qed.

  (** every sample is in at most one pack, once *)
  Theorem C33_each_sample_at_most_once eps xs outs i j : selects -> packed pre f size i j eps xs outs ->
    exists rest, Permutation (flat_map parts (samples outs) ++ rest) (map rk (concat eps ++ xs)).
  Proof.
    intros HS H. induction H as [i j xs full tail E _ _|i j e eps xs chunks outs HG _ IH].
    - rewrite samples_yields. destruct (packs_once (chosen_all pre i full) j) as [r1 H1]. destruct (chosen_all_once full HS i) as [r2 H2].
      exists (r1 ++ map rk r2 ++ map rk tail). cbn [concat app]. subst xs. rewrite map_app, !app_assoc. apply Permutation_app_tail.
      rewrite H1, <- map_app. apply Permutation_map, H2.
    - destruct IH as [r HR]. rewrite samples_app, samples_epoch, flat_map_app. cbn [concat]. rewrite <- (groups_concat HG).
      destruct (packs_once (chosen_all pre i chunks) j) as [r1 H1]. destruct (chosen_all_once chunks HS i) as [r2 H2].
      exists ((r1 ++ map rk r2) ++ r). rewrite <- (app_assoc (concat chunks)), (map_app rk (concat chunks)), perm_mid. apply Permutation_app; [|exact HR].
      rewrite app_assoc, H1, <- map_app. apply Permutation_map, H2.
  Qed.

  (** if nothing is skipped, every sample of every complete epoch is in exactly one pack *)
  Theorem C33_each_sample_once eps outs i j : 0 < size -> partitions -> (forall j l, exists b, f j l = UOk b) -> packed pre f size i j eps [] outs ->
    Permutation (flat_map parts (samples outs)) (map rk (concat eps)).
  Proof.
    intros Hs HS HF H. remember (@nil (sample A)) as xs eqn:Ex. revert Ex. induction H as [i j xs full tail E F _|i j e eps xs chunks outs HG _ IH]; intros Ex.
    - rewrite samples_yields. rewrite Ex in E. symmetry in E. apply app_eq_nil in E as [E _].
      destruct full as [|c full]; [apply Permutation_refl|]. inversion F as [|? ? Hc _]. cbn in E. apply app_eq_nil in E as [-> _]. cbn in Hc. lia.
    - rewrite samples_app, samples_epoch, flat_map_app. cbn [concat]. rewrite map_app. apply Permutation_app; [|exact (IH Ex)].
      rewrite packs_all by exact HF. rewrite <- (groups_concat HG). apply Permutation_map, chosen_all_all, HS.
  Qed.
End Once.
Print Assumptions C33_each_sample_at_most_once.
Print Assumptions C33_each_sample_once.

(** packs of two: sort and pair up, one of several possible pre packers *)
Fixpoint pairs {X} (l : list X) : list (list X) :=
  match l with [] => [] | [a] => [[a]] | a :: b :: l' => [a; b] :: pairs l' end.
Definition pair_up {A} (_ _ : nat) (l : list (sample A)) : ures (list (list (sample A))) := UOk (pairs (rev l)).
(** keeps only the first sample of the buffer *)
Definition first_only {A} (_ _ : nat) (l : list (sample A)) : ures (list (list (sample A))) := UOk [firstn 1 l].
Definition as_pack (_ i : nat) (l : list nat) : ures (nat * list nat) := UOk (i, l).

Lemma pairs_concat {X} (l : list X) : concat (pairs l) = l.
Proof.
  assert (H : forall n (l : list X), length l < n -> concat (pairs l) = l).
  { intros n. induction n as [|n IH]; intros m Hm; [lia|]. destruct m as [|a [|b m]]; [reflexivity..|].
    cbn [pairs concat app]. rewrite IH by (cbn in Hm; lia). reflexivity. }
  exact (H _ l (Nat.lt_succ_diag_r _)).
Qed.

Lemma pair_up_sel {A} w i (l : list (sample A)) gs : pair_up w i l = UOk gs -> incl (concat gs) l.
Proof. intros [= <-]. rewrite pairs_concat. intros a. rewrite <- in_rev. auto. Qed.

Example C33_nonvacuous :
  partitions (A := nat) (pair_up 0) /\ selects (A := nat) (first_only 0) /\
  (forall eps xs, no_drought (A := nat) (pair_up 0) 3 0 eps xs) /\
  let W := wrap (pack_ds 1 3 pair_up as_pack) (list_ds [10; 11; 12; 13]) in
  produces (D := W) 0 (fresh W)
    [mkS (0, [12; 11]) [AStr "PackingDataset"; AInt 0; ATup [AInt 2]; ATup [AInt 1]];
     mkS (1, [10]) [AStr "PackingDataset"; AInt 1; ATup [AInt 0]];
     mkS (2, [13]) [AStr "PackingDataset"; AInt 2; ATup [AInt 3]]].
Proof.
  split; [|split; [|split]].
  - intros i c. exists (pairs (rev c)). split; [reflexivity|]. rewrite pairs_concat. symmetry. apply Permutation_rev.
  - intros i c gs [= <-]. exists (skipn 1 c). destruct c; apply Permutation_refl.
  - intros eps xs. apply (@choosy_no_drought nat nat 3 pair_up (fun _ _ _ => USkip)); [lia|]. intros i c Hc H.
    unfold chosen, pair_up in H. apply (f_equal (@length _)) in H. destruct c as [|a [|b [|c [|]]]]; try discriminate Hc. discriminate H.
  - cbv zeta. exact (runk_emits 0 60 4 (fresh (wrap (pack_ds 1 3 pair_up as_pack) (list_ds [10; 11; 12; 13])))).
Qed.

(** *** ten fruitless buffers in a row: the next full buffer raises, even if a group is chosen from it *)
Theorem C33_drought_raises {A B} nw size (pre : nat -> nat -> list (sample A) -> ures (list (list (sample A)))) (f : nat -> nat -> list A -> ures B)
    (D : dataset A) w eps full dry10 c outs :
  0 < size -> w < nw -> (forall i l, pre w i l <> UFatal) -> (forall i l, f w i l <> UFatal) ->
  no_drought (pre w) size 0 eps (concat (full ++ dry10)) -> Forall (fun c => length c = size) (full ++ dry10) ->
  length dry10 = 10 ->
  (forall n, n < 10 -> chosen (pre w) (n_buffers size eps + length full + n) (nth n dry10 []) = []) ->
  length c = size ->
  packed (pre w) (f w) size 0 0 eps (concat (full ++ dry10)) outs ->
  emits w (fresh D) (concat (map epoch eps) ++ map Yield (concat (full ++ dry10) ++ c)) ->
  emits w (fresh (wrap (pack_ds nw size pre f) D)) (outs ++ [Raise OtherError]).
Proof. intros. eapply pk_raises; eauto. Qed.
Print Assumptions C33_drought_raises.

(** a pre packer that skips the first ten buffers *)
Definition skip_ten {A} (_ i : nat) (l : list (sample A)) : ures (list (list (sample A))) := if i <? 10 then USkip else UOk [l].
Example C33_drought_nonvacuous :
  emits 0 (fresh (wrap (pack_ds 1 1 skip_ten as_pack) (stream_ds S))) [Raise OtherError].
Proof.
  apply (@C33_drought_raises nat _ 1 1 skip_ten as_pack (stream_ds S) 0 [] [] (map (fun n => [mkS (S n) [AInt n]]) (seq 0 10)) [mkS 11 [AInt 10]] []); auto.
  - intros i l. unfold skip_ten. destruct (i <? 10); discriminate.
  - discriminate.
  - eapply nd_part with (full := map (fun n => [mkS (S n) [AInt n]]) (seq 0 10)) (tail := []); auto.
    + repeat constructor.
    + intros (k & Hk & _). cbn in Hk. lia.
  - repeat constructor.
  - intros n Hn. do 10 (destruct n as [|n]; [reflexivity|]). lia.
  - exact (@pd_part nat _ (skip_ten 0) (as_pack 0) 1 0 0 (concat (map (fun n => [mkS (S n) [AInt n]]) (seq 0 10)))
       (map (fun n => [mkS (S n) [AInt n]]) (seq 0 10)) [] eq_refl ltac:(repeat constructor) ltac:(cbn; lia)).
  - exact (runk_emits 0 60 11 (fresh (stream_ds S))).
Qed.

(** *** restore keys *)
Theorem C33_restores {A B} nw size (pre : nat -> nat -> list (sample A) -> ures (list (list (sample A)))) (f : nat -> nat -> list A -> ures B) (D : dataset A) rst :
  0 < size -> (forall w i l gs, pre w i l = UOk gs -> incl (concat gs) l) ->
  restorable D rst nw -> restorable (wrap (pack_ds nw size pre f) D) rst nw.
Proof.
  intros Hs Hsel HR. apply wrap_restores; [reflexivity|apply pk_no_reset|exact HR|].
  eapply local_yields_weaken; [| |apply pk_restores]; auto.
Qed.
Print Assumptions C33_restores.

(** a pre packer that changes the samples it groups: the key of a pack gives back a different pack *)
Definition bump (_ _ : nat) (l : list (sample nat)) : ures (list (list (sample nat))) := UOk (map (fun a => [mkS (S (pl a)) (rk a)]) l).
Theorem C33_restores_changed_samples_refuted :
  ~ restorable (wrap (pack_ds 1 2 bump as_pack) (stream_ds S)) true 1.
Proof.
  intros H. set (W := wrap (pack_ds 1 2 bump as_pack) (stream_ds S)) in H.
  assert (E : emits 0 (fresh W) [Yield (mkS (0, [2]) [AStr "PackingDataset"; AInt 0; ATup [AInt 0]])]) by exact (runk_emits 0 60 1 (fresh W)).
  apply emits_yield_inv in E as (s' & HN & _).
  specialize (H 0 (fresh W) _ s' Nat.lt_0_1 (@r_init _ W 0 true 1) HN). vm_compute in H. discriminate H.
Qed.

(** *** resuming: exact over an endless dataset *)
Theorem C33_resumes_partial {A B} nw size (pre : nat -> nat -> list (sample A) -> ures (list (list (sample A)))) (f : nat -> nat -> list A -> ures B) (D : dataset A) rst :
  0 < size -> (forall w i l gs, pre w i l = UOk gs -> incl (concat gs) l) ->
  endless D rst nw -> restorable D rst nw -> resumable D rst nw ->
  resumable (wrap (pack_ds nw size pre f) D) rst nw.
Proof.
  intros Hs Hsel HE HS HR. apply (@wrap_resumable A B _ D nw rst rst true true); auto.
  - left. apply pk_no_reset.
  - apply pk_local_resumable; auto.
Qed.
Print Assumptions C33_resumes_partial.

Theorem C33_endless {A B} nw size (pre : nat -> nat -> list (sample A) -> ures (list (list (sample A)))) (f : nat -> nat -> list A -> ures B) (D : dataset A) rst :
  0 < size -> (forall w i l gs, pre w i l = UOk gs -> incl (concat gs) l) ->
  endless D rst nw -> restorable D rst nw -> endless (wrap (pack_ds nw size pre f) D) rst nw.
Proof.
  intros Hs Hsel HE HR.
  apply (@wrap_endless A B _ D nw rst rst true true) with (Y := fun rs w y => t_restore_sample (pack_ds nw size pre f) rs w (rk y) = Ok y); auto.
  - left. apply pk_no_reset.
  - eapply local_yields_weaken; [| |apply pk_restores]; auto. discriminate.
Qed.

Example C33_resumes_nonvacuous : resumable (wrap (pack_ds 2 3 pair_up as_pack) (stream_ds S)) true 2.
Proof.
  apply C33_resumes_partial; [lia|intros w i l gs; apply pair_up_sel|apply stream_endless|apply stream_restorable|apply stream_resumable].
Qed.

(** a finite dataset, a checkpoint between the last packs of an epoch: after restoring, the end of that
    epoch is not reported *)
Theorem C33_resume_in_last_packs_refuted : exists (D : dataset nat) (pre : nat -> nat -> list (sample nat) -> ures (list (list (sample nat)))) (f : nat -> nat -> list nat -> ures (nat * list nat)),
  (forall w i l gs, pre w i l = UOk gs -> incl (concat gs) l) /\ resumable D true 1 /\ restorable D true 1 /\
  ~ resumable (wrap (pack_ds 1 3 pre f) D) true 1.
Proof.
  exists (list_ds [1; 2; 3; 4; 5]), pair_up, as_pack. split; [intros w i l gs; apply pair_up_sel|].
  split; [apply list_resumable|]. split; [apply list_restorable|].
  set (W := wrap (pack_ds 1 3 pair_up as_pack) (list_ds [1; 2; 3; 4; 5])).
  apply (@not_resumable _ W 0 true 1 60 3 1 [Some (ds_save W 0 (fst (stk 0 60 3 (ds_init W, ds_iter W))))]); auto; vm_compute; congruence.
Qed.
Print Assumptions C33_resume_in_last_packs_refuted.

(** a final packer that is a generator function: the position within a pack is not saved *)
Definition gen_pack (_ i : nat) (l : list nat) : list nat * gend := (l, GEnd).
Theorem C33_generator_resume_refuted :
  (forall w i l gs, pair_up (A := nat) w i l = UOk gs -> incl (concat gs) l) /\
  endless (stream_ds S) true 1 /\ resumable (stream_ds S) true 1 /\ restorable (stream_ds S) true 1 /\
  ~ resumable (wrap (packgen_ds 1 2 pair_up gen_pack) (stream_ds S)) true 1.
Proof.
  split; [intros w i l gs; apply pair_up_sel|].
  split; [apply stream_endless|]. split; [apply stream_resumable|]. split; [apply stream_restorable|].
  set (W := wrap (packgen_ds 1 2 pair_up gen_pack) (stream_ds S)).
  apply (@not_resumable _ W 0 true 1 60 1 1 [Some (ds_save W 0 (fst (stk 0 60 1 (ds_init W, ds_iter W))))]); auto; vm_compute; congruence.
Qed.
Print Assumptions C33_generator_resume_refuted.

(** a worker that has not reported any state yet (None among the merged states) starts, after restoring, with
    two packs of no samples *)
Theorem C33_worker_without_state_refuted : exists (sts : list (option (ds_wst (wrap (pack_ds 2 3 pair_up as_pack) (stream_ds S))))),
  let W := wrap (pack_ds 2 3 pair_up as_pack) (stream_ds S) in
  length sts = 2 /\ nth_error sts 1 = Some None /\
  emits 1 (ds_restore W (Some (ds_merge W sts)) (ds_init W), ds_iter W)
    [Yield (mkS (0, []) [AStr "PackingDataset"; AInt 0]); Yield (mkS (1, []) [AStr "PackingDataset"; AInt 1])] /\
  exists y, emits 1 (fresh W) [Yield y] /\ snd (pl y) <> [].
Proof.
  set (W := wrap (pack_ds 2 3 pair_up as_pack) (stream_ds S)).
  exists [Some (ds_save W 0 (ds_init W)); None]. cbv zeta. split; [reflexivity|]. split; [reflexivity|]. split.
  - exact (runk_emits 1 60 2 (ds_restore W (Some (ds_merge W [Some (ds_save W 0 (ds_init W)); None])) (ds_init W), ds_iter W)).
  - exists (mkS (0, [3; 2]) [AStr "PackingDataset"; AInt 0; ATup [AInt 2]; ATup [AInt 1]]). split; [exact (runk_emits 1 60 1 (fresh W))|discriminate].
Qed.
Print Assumptions C33_worker_without_state_refuted.

(** *** restore keys of a final packer that is a generator function; it may raise at its end *)
Theorem C33_generator_restores {A B} nw size (pre : nat -> nat -> list (sample A) -> ures (list (list (sample A))))
    (f : nat -> nat -> list A -> list B * gend) (D : dataset A) rst :
  0 < size -> (forall w i l gs, pre w i l = UOk gs -> incl (concat gs) l) ->
  restorable D rst nw -> restorable (wrap (packgen_ds nw size pre f) D) rst nw.
Proof.
  intros Hs Hsel HR. apply wrap_restores; [reflexivity|apply pg_no_reset|exact HR|apply pg_restores; auto].
Qed.
Print Assumptions C33_generator_restores.

Example C33_generator_nonvacuous :
  let W := wrap (packgen_ds 1 2 (fun _ _ l => UOk [l]) (fun _ i (l : list nat) => ([(i, l); (i, rev l)], GErr))) (list_ds [5; 6]) in
  produces (D := W) 0 (fresh W)
    [mkS (0, [5; 6]) [AStr "PackingDataset"; AInt 0; AInt 0; ATup [AInt 0]; ATup [AInt 1]];
     mkS (0, [6; 5]) [AStr "PackingDataset"; AInt 0; AInt 1; ATup [AInt 0]; ATup [AInt 1]]] /\
  restorable W true 1.
Proof.
  cbv zeta. split.
  - exact (runk_emits 0 60 3 (fresh (wrap (packgen_ds 1 2 (fun _ _ l => UOk [l]) (fun _ i (l : list nat) => ([(i, l); (i, rev l)], GErr))) (list_ds [5; 6])))).
  - apply C33_generator_restores; [lia| |apply list_restorable]. intros w i l gs E. injection E as <-. cbn. rewrite app_nil_r. apply incl_refl.
Qed.
