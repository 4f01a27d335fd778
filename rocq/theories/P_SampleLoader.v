(** Properties C12, C13, C14: the sample loader.

    [loader_ds R shards content par shuffle loop rs] is the loader of one rank: [shards] has one list
    of sub-shards per worker, [content s] are the samples of sub-shard [s], [par] is
    parallel_shard_iters, [shuffle] is shuffle_over_epochs. *)
From Coq Require Import QArith.
From Verif Require Import Base Dataset DatasetProofs WrapSpec Rng RngProofs Sharder SampleLoader SampleLoaderSpec
  SampleLoaderProofs SampleLoaderProofs2 SampleLoaderProofs3.
Local Close Scope Q_scope.
Local Close Scope Z_scope.
Local Open Scope nat_scope.

(** what the sharder guarantees about the sub-shards it hands to a rank (see C12_sharder_delivers):
    none is empty, and within a worker no two start at the same sample of the same shard *)
Definition proper_shards (shards : list (list shseq)) : Prop :=
  Forall (fun ws => Forall (fun s => (0 < count0 s)%Z) ws /\ distinct_keys ws) shards.

Section Proper.
  Variable shards : list (list shseq).
  Hypothesis HP : proper_shards shards.
  Lemma proper_nth w : Forall (fun s => (0 < count0 s)%Z) (nth w shards []) /\ distinct_keys (nth w shards []).
  Proof.
    destruct (le_lt_dec (length shards) w) as [H|H].
    - rewrite nth_overflow by exact H. split; constructor.
    - apply (proj1 (Forall_forall _ _) HP). apply nth_In. exact H.
  Qed.
  Lemma proper_keys w : distinct_keys (worker_shards shards w).
  Proof. apply proper_nth. Qed.
  Lemma proper_counts w : counts_ok shards w.
  Proof. intros s Hs. apply (proj1 (Forall_forall _ _) (proj1 (proper_nth w))). exact Hs. Qed.
End Proper.

(** C12, shuffle_over_epochs = k: in every history of a worker (any number of checkpoints and
    restarts), what it delivered is a number of complete epochs, each of them containing every sample
    of its sub-shards exactly k times (each reading of a sub-shard in order), and the beginning of
    another such epoch. *)
Theorem C12_shuffled_epochs : forall X R shards (content : shseq -> list (sample X)) par k loop rs w outs s,
  rng_ok R -> proper_shards shards -> par >= 1 -> w < length shards -> nth w shards [] <> [] ->
  @history X (loader_ds R shards content par (Over k) loop rs) w (length shards) outs s ->
  exists es part xs, outs = epochs_seen loop es part /\
    Forall (shuffled_epoch content k (nth w shards [])) es /\
    shuffled_epoch content k (nth w shards []) (part ++ xs).
Proof.
  intros X R shards content par k loop rs w outs s OK HP Hpar W NE H.
  destruct (history_shuffled (@proper_keys _ HP) W NE (@proper_counts _ HP w) Hpar (k := k) OK eq_refl H)
    as (es & part & A & B & _ & _ & _ & xs & C). exists es, part, xs. auto.
Qed.
Print Assumptions C12_shuffled_epochs.

(** ... in particular an epoch is a permutation of all the samples, k times each *)
Theorem C12_epoch_is_permutation : forall X (content : shseq -> list (sample X)) k ws xs,
  shuffled_epoch content k ws xs -> Permutation xs (concat (repeat (flat_map content ws) k)).
Proof.
  intros X content k ws xs H. symmetry. rewrite <- (il_permutation H). unfold copies. rewrite flat_map_concat_map. clear H.
  induction k as [|k IH]; cbn [repeat concat map]; [reflexivity|].
  rewrite map_app, concat_app. apply Permutation_app_head. exact IH.
Qed.
Print Assumptions C12_epoch_is_permutation.

(** C12, without shuffling: every epoch is all the samples of the worker's sub-shards, in order. *)
Theorem C12_in_order : forall X R shards (content : shseq -> list (sample X)) loop rs w outs s,
  proper_shards shards -> w < length shards -> nth w shards [] <> [] ->
  @history X (loader_ds R shards content 1 NoShuffle loop rs) w (length shards) outs s ->
  let all := flat_map content (nth w shards []) in
  exists es part xs, outs = epochs_seen loop es part /\ Forall (eq all) es /\ all = part ++ xs.
Proof.
  intros X R shards content loop rs w outs s HP W NE H all.
  destruct (history_in_order (@proper_keys _ HP) W NE (@proper_counts _ HP w) (le_n 1) eq_refl eq_refl H)
    as (es & part & A & B & _ & _ & _ & xs & C). exists es, part, xs. subst all. rewrite flat_map_concat_map. auto.
Qed.
Print Assumptions C12_in_order.

(** C12, shuffle_over_epochs = -1: the samples are those of sub-shards drawn from the worker's
    sub-shards, each drawn one read in order from its start; no epoch ever ends. *)
Theorem C12_with_replacement : forall X R shards (content : shseq -> list (sample X)) par loop rs w outs s,
  rng_ok R -> proper_shards shards -> par >= 1 -> w < length shards -> nth w shards [] <> [] ->
  @history X (loader_ds R shards content par Replace loop rs) w (length shards) outs s ->
  exists xs drawn rest, outs = map Yield xs /\ Forall (fun t => In t (nth w shards [])) drawn /\
    interleaved (map content drawn) (xs ++ rest).
Proof.
  intros X R shards content par loop rs w outs s OK HP Hpar W NE H.
  destruct (history_replace (@proper_keys _ HP) W NE (@proper_counts _ HP w) Hpar OK eq_refl H) as (xs & ss & rest & A & B & C & _).
  exists xs, ss, rest. auto.
Qed.
Print Assumptions C12_with_replacement.

(** C12, progress: an epoch, once begun, comes to its end, whatever the random choices; *)
Theorem C12_epochs_complete : forall X R shards (content : shseq -> list (sample X)) par shuffle rs rst w s,
  rng_ok R -> proper_shards shards -> par >= 1 -> w < length shards -> nth w shards [] <> [] ->
  shuffle <> Replace -> (shuffle = NoShuffle -> par = 1) ->
  @reach X (loader_ds R shards content par shuffle false rs) w rst (length shards) s ->
  exists xs, emits w s (map Yield xs ++ [Done]).
Proof.
  intros X R shards content par shuffle rs rst w s OK HP Hpar W NE NR HN H.
  exact (epoch_completes (@proper_keys _ HP) W NE (@proper_counts _ HP w) Hpar OK HN NR eq_refl H).
Qed.
Print Assumptions C12_epochs_complete.

(** ... and with loop=True there is always a next sample (no end, no error). *)
Theorem C12_endless : forall X R shards (content : shseq -> list (sample X)) par shuffle rs w outs s,
  rng_ok R -> proper_shards shards -> par >= 1 -> w < length shards -> nth w shards [] <> [] ->
  (shuffle = NoShuffle -> par = 1) -> (forall k, shuffle = Over k -> k >= 1) ->
  Forall (fun t => content t <> []) (nth w shards []) ->
  @history X (loader_ds R shards content par shuffle true rs) w (length shards) outs s ->
  exists a s', next w s (Yield a) s'.
Proof.
  intros X R shards content par shuffle rs w outs s OK HP Hpar W NE HN HK HC H.
  assert (HC' : forall t, In t (worker_shards shards w) -> content t <> []) by (apply Forall_forall; exact HC).
  assert (D : shuffle = Replace \/ shuffle <> Replace) by (destruct shuffle; [right|left|right]; congruence).
  destruct D as [D|D].
  - exact (replace_yields (@proper_keys _ HP) W NE (@proper_counts _ HP w) Hpar OK HN D HC' H).
  - refine (loop_yields (@proper_keys _ HP) W NE (@proper_counts _ HP w) Hpar OK HN D HK eq_refl _ (history_reach _)).
    + destruct (nth w shards []) as [|t l] eqn:E; [congruence|]. exists t.
      assert (In t (worker_shards shards w)) by (unfold worker_shards; rewrite E; left; reflexivity). auto.
    + exact H.
Qed.
Print Assumptions C12_endless.

(** A worker without sub-shards (more workers than samples) only ever reports the end. *)
Theorem C12_no_shards : forall X R shards (content : shseq -> list (sample X)) par shuffle loop rs w n,
  nth w shards [] = [] ->
  emits w (fresh (loader_ds R shards content par shuffle loop rs)) (repeat Done n).
Proof.
  intros X R shards content par shuffle loop rs w n H. induction n as [|n IH]; [constructor|]. cbn [repeat].
  apply (@em_done _ _ w _ (fresh (loader_ds R shards content par shuffle loop rs))); [|exact IH]. apply next_now; [|discriminate]. cbn [fresh fst snd ds_step loader_ds ds_init ds_iter].
  unfold slot_at. cbn [so_slots]. rewrite nth_repeat_any. cbn [sl_bad empty_slot].
  unfold worker_shards. rewrite H. reflexivity.
Qed.
Print Assumptions C12_no_shards.

(** C13: the loader resumes exactly, in every mode, from every state at which it can be saved
    (including states that were themselves reached through restoring). *)
Theorem C13_loader_resumes : forall X R shards (content : shseq -> list (sample X)) par shuffle loop rs rst,
  proper_shards shards ->
  resumable (loader_ds R shards content par shuffle loop rs) rst (length shards).
Proof. intros X R shards content par shuffle loop rs rst HP. exact (loader_resumable (@proper_keys _ HP) (rst := rst)). Qed.
Print Assumptions C13_loader_resumes.

(** C14: at any time at most parallel_shard_iters sub-shards are in progress, and the saved
    sample_count is the number of samples delivered since the dataset was built. *)
Theorem C14_at_most_par_open : forall X R shards (content : shseq -> list (sample X)) par shuffle loop rs w outs s,
  proper_shards shards -> par >= 1 -> w < length shards -> nth w shards [] <> [] ->
  @history X (loader_ds R shards content par shuffle loop rs) w (length shards) outs s ->
  length (open (snd (ds_save (loader_ds R shards content par shuffle loop rs) w (fst s)))) <= par.
Proof.
  intros X R shards content par shuffle loop rs w outs s HP Hpar W NE H.
  exact (history_par (@proper_keys _ HP) W NE (@proper_counts _ HP w) Hpar H).
Qed.
Print Assumptions C14_at_most_par_open.

(** C14: the saved counters: epoch_count epochs are complete, epoch_sample_count samples of the
    current one are delivered, sample_count samples altogether. *)
Theorem C14_counters : forall X R shards (content : shseq -> list (sample X)) par k loop rs w outs s,
  rng_ok R -> proper_shards shards -> par >= 1 -> w < length shards -> nth w shards [] <> [] ->
  @history X (loader_ds R shards content par (Over k) loop rs) w (length shards) outs s ->
  let saved := snd (ds_save (loader_ds R shards content par (Over k) loop rs) w (fst s)) in
  exists es part, outs = epochs_seen loop es part /\ Forall (shuffled_epoch content k (nth w shards [])) es /\
    sl_ep saved = length es /\ sl_epc saved = length part /\ sl_cnt saved = n_yields outs.
Proof.
  intros X R shards content par k loop rs w outs s OK HP Hpar W NE H saved.
  destruct (history_shuffled (@proper_keys _ HP) W NE (@proper_counts _ HP w) Hpar (k := k) OK eq_refl H)
    as (es & part & A & B & C & D & E & _). exists es, part. auto.
Qed.
Print Assumptions C14_counters.

(** C14: no sub-shard is opened more often than k times per epoch: the open ones, those waiting and
    those done with are together exactly k times the worker's sub-shards. *)
Theorem C14_opened_once_per_pass : forall X R shards (content : shseq -> list (sample X)) par k loop rs w outs s,
  rng_ok R -> proper_shards shards -> par >= 1 -> w < length shards -> nth w shards [] <> [] ->
  @history X (loader_ds R shards content par (Over k) loop rs) w (length shards) outs s ->
  let saved := snd (ds_save (loader_ds R shards content par (Over k) loop rs) w (fst s)) in
  exists finished, Permutation (open saved ++ sl_pend saved ++ finished) (copies k (nth w shards [])).
Proof.
  intros X R shards content par k loop rs w outs s OK HP Hpar W NE H saved.
  exact (history_open (@proper_keys _ HP) W NE (@proper_counts _ HP w) Hpar OK (or_introl eq_refl) H).
Qed.
Print Assumptions C14_opened_once_per_pass.

(** Why [proper_shards] asks for non-empty sub-shards: an empty one (count 0) makes the loader report
    the end of the epoch although sub-shards are still waiting; their samples are not delivered. *)
Definition ex_content (s : shseq) : list (sample nat) :=
  map (fun i => mkS (sh_name (fst s) * 100 + Z.to_nat (sh_offset (fst s)) + i) [AInt i]) (seq 0 (Z.to_nat (count0 s))).
Definition ex_rs : nat -> rkey -> result (sample nat) := fun _ _ => Err ValueError.
Definition sub (n : nat) (o c : Z) : shseq := (mkShard n o c, []).

Theorem C12_empty_subshard_refuted :
  emits 0 (fresh (loader_ds lcg [[sub 0 0 0; sub 1 0 3]] ex_content 1 NoShuffle false ex_rs)) [Done; Done] /\
  flat_map ex_content [sub 0 0 0; sub 1 0 3] <> [].
Proof.
  split; [|discriminate].
  assert (E : runk 0 20 2 (fresh (loader_ds lcg [[sub 0 0 0; sub 1 0 3]] ex_content 1 NoShuffle false ex_rs)) = [Done; Done]) by (vm_compute; reflexivity).
  rewrite <- E. apply runk_emits.
Qed.

(** Non-vacuity: two workers, three sub-shards in the first, two open at a time, shuffled over 2. *)
Definition ex_shards2 : list (list shseq) := [[sub 0 0 2; sub 0 2 1; sub 1 0 3]; [sub 1 3 2]].
Example C12_example_proper : proper_shards ex_shards2.
Proof.
  repeat constructor; cbn; try lia; intuition congruence.
Qed.
Example C12_example_shuffled :
  map (fun e => match e with Yield a => pl a | Done => 999 | _ => 1000 end)
    (runk 0 20 13 (fresh (loader_ds lcg ex_shards2 ex_content 2 (Over 2) false ex_rs)))
  = [2; 100; 101; 0; 102; 1; 2; 100; 101; 0; 102; 1; 999].
Proof. vm_compute. reflexivity. Qed.
