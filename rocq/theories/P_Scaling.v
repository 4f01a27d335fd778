(** C57: reproducible scaling (docs/source/repro_scaling.md).

    The document's rules: the global batch size stays the same and is a multiple of
    [micro-batch size * world_size * num_workers]; [world_size * num_workers] stays the same; the same seed on every rank
    (the generators of the model are functions of the global worker: rng_at).  Then the global batches are the same. *)
From Coq Require Import String QArith.
From Verif Require Import Base Dataset DatasetProofs Wrap WrapProofs WrapSpec Rng RngProofs Sharder SharderSpec SharderProofs2 EndToEndProofs SampleLoader Tar TarSpec Joined JoinedSpec WebProofs
  Wrappers ShuffleBuffer MapModel Batch Packing IterMap IterMapProofs Blend P_SampleLoader Pipeline P_Pipeline
  Loader LoaderSpec LoaderProofs LoaderSys LoaderSysProofs LoaderGlobal Scaling Lockstep ScalingProofs ScalingMain.
Local Close Scope Q_scope.
Local Close Scope Z_scope.
Local Open Scope list_scope.
Local Open Scope nat_scope.

(** "By obeying these rules, you will be able to reproduce the same global batches": for every pipeline (of [pipe]), any two
    layouts with the same number of global workers, any loader settings, any global batch number [s], and any
    micro batches [outs r] that the loaders of the ranks return (as soon as they have returned enough of them): the global
    batch number [s] consists of the same micro batches (contents and restore keys) in both layouts.
    In global batch [s], rank [r] contributes its micro batches number [s * acc] .. [(s+1) * acc - 1], where
    [acc = gbs / (mbs * world)] is the number of gradient accumulation steps. *)
Theorem C57_same_global_batches : forall A (p : pipe A) world1 n1 world2 n2 pre1 min1 cp1 pre2 min2 cp2 gbs mbs k s
    (outs1 outs2 : nat -> list (sample A)),
  0 < world1 -> 0 < world2 -> 0 < n1 -> 0 < n2 -> 0 < mbs ->
  world1 * n1 = world2 * n2 ->
  gbs = k * (mbs * world1 * n1) ->
  trainable (world1 * n1) p ->
  0 < pre1 <= min1 -> 2 <= cp1 -> 0 < pre2 <= min2 -> 2 <= cp2 ->
  (forall r, r < world1 -> returns r n1 pre1 min1 cp1 (s_fresh (build world1 n1 r p)) (outs1 r) /\
     (s + 1) * grad_steps gbs mbs world1 <= length (outs1 r)) ->
  (forall r, r < world2 -> returns r n2 pre2 min2 cp2 (s_fresh (build world2 n2 r p)) (outs2 r) /\
     (s + 1) * grad_steps gbs mbs world2 <= length (outs2 r)) ->
  Permutation (global_batch world1 (grad_steps gbs mbs world1) s outs1)
              (global_batch world2 (grad_steps gbs mbs world2) s outs2).
Proof.
  intros A p world1 n1 world2 n2 pre1 min1 cp1 pre2 min2 cp2 gbs mbs k s outs1 outs2 W1 W2 N1 N2 M HW HG HT P1 C1 P2 C2 O1 O2.
  assert (G1 : grad_steps gbs mbs world1 = k * n1) by (eapply grad_steps_mul; eauto).
  assert (G2 : grad_steps gbs mbs world2 = k * n2).
  { eapply grad_steps_mul; eauto. rewrite HG. f_equal. nia. }
  rewrite G1 in *. rewrite G2 in *.
  eapply (@same_global_batches A p world1 n1 world2 n2 pre1 min1 cp1 pre2 min2 cp2 k s); auto;
    intros r Hr; try apply (O1 r Hr); try apply (O2 r Hr).
Qed.
Print Assumptions C57_same_global_batches.

(** Behind it: the worker with global id [g] does exactly the same in both layouts: same samples, restore keys, ends of
    epochs, errors. *)
Theorem C57_same_worker : forall A (p : pipe A) world1 n1 world2 n2 r1 w1 r2 w2,
  world1 * n1 = world2 * n2 -> trainable (world1 * n1) p ->
  r1 < world1 -> w1 < n1 -> r2 < world2 -> w2 < n2 ->
  r1 * n1 + w1 = r2 * n2 + w2 ->
  forall evs, emits w1 (fresh (build world1 n1 r1 p)) evs <-> emits w2 (fresh (build world2 n2 r2 p)) evs.
Proof.
  intros A p world1 n1 world2 n2 r1 w1 r2 w2 HW HT R1 W1 R2 W2 HG evs. split; intros H.
  - eapply locked_emits; [|exact H]. apply build_locked; auto.
  - eapply locked_emits; [|exact H]. apply build_locked; auto. rewrite <- HW. exact HT.
Qed.
Print Assumptions C57_same_worker.

(** ** the loaders do return something: non-vacuity *)
Lemma reach_weaken {P} (D : dataset P) w nw s : reach w false nw s -> reach w true nw (s : st D).
Proof. induction 1; [apply r_init|eapply r_yield; eauto|eapply r_done; eauto|eapply r_restore; eauto|discriminate]. Qed.
Lemma resumable_weaken {P} (D : dataset P) nw : resumable D true nw -> resumable D false nw.
Proof. intros H w s sts W R. apply H; [exact W|apply reach_weaken, R]. Qed.

Lemma endless_weaken {P} (D : dataset P) nw : endless D true nw -> endless D false nw.
Proof. intros H w s s' W R. apply (H w); [exact W|apply reach_weaken, R]. Qed.

Definition turns {X} (n k : nat) (ls : nat -> list X) : list X :=
  flat_map (fun i => flat_map (fun p => firstn 1 (skipn i (ls p))) (seq 0 n)) (seq 0 k).

Lemma sub_round {X} n (f : nat -> X) p : forall m, m <= n -> p < n -> sub n (n - m) p (map f (seq (n - m) m)) = if n - m <=? p then [f p] else [].
Proof.
  induction m as [|m IH]; intros Hm Hp.
  - cbn. destruct (Nat.leb_spec (n - 0) p); [lia|reflexivity].
  - cbn [seq map sub]. replace (S (n - S m)) with (n - m) by lia.
    assert (E : sub n ((n - S m + 1) mod n) p (map f (seq (n - m) m)) = if n - m <=? p then [f p] else []).
    { destruct m as [|m]; [cbn; destruct (Nat.leb_spec (n - 0) p); [lia|reflexivity]|].
      replace ((n - S (S m) + 1) mod n) with (n - S m) by (rewrite Nat.mod_small by lia; lia). apply IH; lia. }
    rewrite E. destruct (Nat.eqb_spec (n - S m) p) as [<-|NE].
    + destruct (Nat.leb_spec (n - m) (n - S m)); [lia|]. rewrite Nat.leb_refl. reflexivity.
    + destruct (Nat.leb_spec (n - m) p), (Nat.leb_spec (n - S m) p); try reflexivity; lia.
Qed.

Lemma turns_snoc {X} n k (ls : nat -> list X) : turns n (S k) ls = turns n k ls ++ flat_map (fun p => firstn 1 (skipn k (ls p))) (seq 0 n).
Proof. unfold turns. rewrite seq_S, flat_map_app. cbn. rewrite app_nil_r. reflexivity. Qed.

Lemma one_each {X} (d : X) n k (ls : nat -> list X) : (forall p, p < n -> k < length (ls p)) ->
  flat_map (fun p => firstn 1 (skipn k (ls p))) (seq 0 n) = map (fun p => nth k (ls p) d) (seq 0 n).
Proof.
  intros H. rewrite <- (flat_map_concat_map (fun p => firstn 1 (skipn k (ls p))) (seq 0 n)) at 0 || idtac.
  assert (G : forall l, (forall p, In p l -> p < n) -> flat_map (fun p => firstn 1 (skipn k (ls p))) l = map (fun p => nth k (ls p) d) l).
  { induction l as [|p l IH]; intros Hl; [reflexivity|]. cbn [flat_map map]. rewrite IH by (intros; apply Hl; right; assumption).
    assert (Hp : k < length (ls p)) by (apply H, Hl; left; reflexivity). destruct (nth_split (ls p) d Hp) as (l1 & l2 & E & L).
    replace (skipn k (ls p)) with (nth k (ls p) d :: l2); [reflexivity|]. rewrite E at 2. rewrite skipn_app, L, Nat.sub_diag, skipn_all2 by lia. reflexivity. }
  apply G. intros p I. apply in_seq in I. lia.
Qed.

Lemma turns_spec {X} (d : X) n (ls : nat -> list X) : 0 < n -> forall k, (forall p, p < n -> k <= length (ls p)) ->
  length (turns n k ls) = k * n /\ forall p, p < n -> sub n 0 p (turns n k ls) = firstn k (ls p).
Proof.
  intros Hn. induction k as [|k IH]; intros H; [split; reflexivity|].
  destruct IH as [L SS]; [intros; apply Nat.lt_le_incl, H; assumption|]. rewrite turns_snoc, (one_each d) by exact H.
  split; [rewrite app_length, L, map_length, seq_length; lia|]. intros p Hp. rewrite sub_app by lia. rewrite SS by exact Hp. rewrite L. cbn [Nat.add].
  rewrite Nat.mod_mul by lia. pose proof (@sub_round X n (fun q => nth k (ls q) d) p n ltac:(lia) Hp) as E. rewrite Nat.sub_diag in E. cbn [Nat.leb] in E. rewrite E.
  pose proof (H p Hp) as HK. destruct (nth_split (ls p) d HK) as (l1 & l2 & E' & L'). remember (nth k (ls p) d) as x. rewrite E', !firstn_app, L'.
  rewrite Nat.sub_diag. replace (S k - k) with 1 by lia. rewrite (@firstn_all2 X (S k) l1), (@firstn_all2 X k l1) by lia. cbn. rewrite app_nil_r. reflexivity.
Qed.

(** If every worker delivers at least [k] samples, the loader can return [k * n] micro batches. *)
Lemma loader_can {P} (D : dataset P) rank n prefetch min_n n_cp k (evs : nat -> list (event (sample P))) : 0 < n -> 0 < prefetch <= min_n -> 2 <= n_cp ->
  endless D false n -> resumable D false n -> (forall p, p < n -> clean (evs p) /\ emits p (fresh D) (evs p) /\ k <= length (ysamples (evs p))) ->
  exists outs, returns rank n prefetch min_n n_cp (s_fresh D) outs /\ length outs = k * n.
Proof.
  intros Hn [P0 P1] HC HE HR H. set (ls := fun p => map snd (number (gid rank n p) 0 (ysamples (evs p)))).
  destruct (Nat.eq_dec k 0) as [->|K0]; [exists []; split; [eexists; constructor|reflexivity]|].
  assert (LL : forall p, p < n -> k <= length (ls p)).
  { intros p Hp. unfold ls. rewrite map_length, number_length. apply H, Hp. }
  destruct (ls 0) as [|d l0] eqn:E0; [specialize (LL 0 Hn); rewrite E0 in LL; cbn in LL; lia|].
  destruct (turns_spec d Hn LL) as [L SS]. exists (turns n k ls). split; [|exact L].
  eapply (pds_returns Hn P0 P1 HC HE HR); [apply sinv_fresh; assumption|]. intros p Hp. cbn [s_fresh y_next]. rewrite SS by exact Hp.
  destruct (H p Hp) as (C & E & _). unfold ls. exists (firstn k (number (gid rank n p) 0 (ysamples (evs p)))). split; [|symmetry; apply firstn_map].
  exists (number (gid rank n p) 0 (ysamples (evs p))), (skipn k (number (gid rank n p) 0 (ysamples (evs p)))). cbn [s_fresh y_q y_wk y_off app].
  split; [|symmetry; apply firstn_skipn].
  assert (EL : lw n 0 p = p). { unfold lw. replace (p + n - 0) with (p + 1 * n) by lia. rewrite Nat.mod_add by lia. apply Nat.mod_small, Hp. }
  rewrite EL. apply delivers_fresh. exists (evs p). auto.
Qed.

(** Non-vacuity: a webdataset (two shards, two joined columns), loaded, shuffled through a buffer and batched; on one rank with two
    workers and on two ranks with one worker each; global batch size 4, micro batch size 1, global batch number 1. *)
Definition sc_pipe : pipe (list nat) :=
  PBatch 1 false (fun _ _ l => UOk l)
   (PShuffle lcg 2
     (PMap (fun g i c => UOk (length c + 10 * g + 100 * i))
       (PWeb pf_files (fun _ => true) lcg pf_shards None 0 1 (Over 1)))).

Example sc_trainable : trainable 2 sc_pipe.
Proof.
  cbn [sc_pipe trainable]. split; [eauto|]. split; [apply lcg_ok|]. split; [apply pf_prepared|]. split; [vm_compute; reflexivity|]. split; [exact I|].
  split; [apply lcg_ok|]. split; [lia|]. split; [discriminate|]. eexists. split; [vm_compute; reflexivity|]. repeat constructor; discriminate.
Qed.

Definition sc_evs (world n r w : nat) := runk w 40 4 (fresh (build world n r sc_pipe)).
Example sc_outs : forall world n r, In (world, n) [(1, 2); (2, 1)] -> r < world ->
  exists outs, returns r n 2 2 2 (s_fresh (build world n r sc_pipe)) outs /\ (1 + 1) * grad_steps 4 1 world <= length outs.
Proof.
  intros world n r [E | [E | []]] Hr; injection E as <- <-.
  - destruct (@loader_can _ (build 1 2 r sc_pipe) r 2 2 2 2 4 (sc_evs 1 2 r)) as (outs & H & L); try lia.
    + apply endless_weaken. apply C45_pipeline_resumes. apply build_training; [lia|exact Hr|apply sc_trainable].
    + apply resumable_weaken. apply C45_pipeline_resumes. apply build_training; [lia|exact Hr|apply sc_trainable].
    + intros p Hp. split; [|split; [apply runk_emits|]]; destruct r as [|r]; try lia; destruct p as [|[|p]]; try lia; vm_compute; repeat constructor.
    + exists outs. split; [exact H|]. rewrite L. cbn. lia.
  - destruct (@loader_can _ (build 2 1 r sc_pipe) r 1 2 2 2 4 (sc_evs 2 1 r)) as (outs & H & L); try lia.
    + apply endless_weaken. apply C45_pipeline_resumes. apply build_training; [lia|exact Hr|apply sc_trainable].
    + apply resumable_weaken. apply C45_pipeline_resumes. apply build_training; [lia|exact Hr|apply sc_trainable].
    + intros p Hp. split; [|split; [apply runk_emits|]]; destruct p as [|p]; try lia; destruct r as [|[|r]]; try lia; vm_compute; repeat constructor.
    + exists outs. split; [exact H|]. rewrite L. cbn. lia.
Qed.

(** what the two workers deliver: different data *)
Example sc_different : map pl (samples (sc_evs 1 2 0 0)) <> map pl (samples (sc_evs 1 2 0 1)).
Proof. vm_compute. discriminate. Qed.

(** The rule "multiple of micro-batch size * world_size * num_workers" is needed: 4 global workers, global batch size
    2 * micro batch size: with one rank and 4 workers the first global batch comes from workers 0 and 1; with two ranks
    and 2 workers each it comes from workers 0 and 2. *)
Definition sc_rank (world n : nat) (r : nat) : list nat := turns n 2 (fun w => [gwid n r w; gwid n r w]).
Theorem C57_multiple_needed : exists gbs mbs world1 n1 world2 n2,
  world1 * n1 = world2 * n2 /\ (exists k, gbs = k * (mbs * world1)) /\ (exists k, gbs = k * (mbs * world2)) /\
  ~ Permutation (global_batch world1 (grad_steps gbs mbs world1) 0 (sc_rank world1 n1))
                (global_batch world2 (grad_steps gbs mbs world2) 0 (sc_rank world2 n2)).
Proof.
  exists 2, 1, 1, 4, 2, 2. split; [reflexivity|]. split; [exists 2; reflexivity|]. split; [exists 1; reflexivity|].
  vm_compute. intros H. apply (Permutation_in 1) in H; [|right; left; reflexivity]. destruct H as [H|[H|[]]]; discriminate.
Qed.
Print Assumptions C57_multiple_needed.
