(** Property theorems C01-C06 (sharding). *)
From Verif Require Import Base PyFloat Sharder SharderSpec BitrevProofs SharderProofs SharderProofs2 SharderProofs3.
Local Open Scope Z_scope.

(** C01: over all ranks and workers, in (rank, worker) order, the assigned rows are exactly the
    dataset's rows, each once, in order; every worker gets an entry. *)
Theorem C01_sharding_partition : forall shards world nworkers rot,
  shards <> [] -> Forall whole_shard shards -> total_samples shards < 2 ^ 53 -> (0 < world)%nat ->
  exists ll, shard_all_ranks shards world nworkers None rot = Ok ll /\
    length ll = (world * Nat.max 1 nworkers)%nat /\
    concat (map all_rows ll) = all_rows shards.
Proof. exact shard_partition. Qed.
Print Assumptions C01_sharding_partition.

(** C01 (form of the sub-shards): every returned sub-shard is non-empty and covers the same range in
    all columns of a joined dataset. *)
Theorem C01_subshards_wellformed : forall shards world nworkers maxs rot ll,
  shards <> [] -> Forall whole_shard shards -> total_samples shards < 2 ^ 51 ->
  match maxs with Some m => 0 < m | None => True end -> (0 < world)%nat ->
  shard_all_ranks shards world nworkers maxs rot = Ok ll ->
  Forall (Forall (fun s => 0 < count0 s /\ aligned s /\ max_len_ok maxs s)) ll.
Proof. exact shard_all_wellformed. Qed.
Print Assumptions C01_subshards_wellformed.

(** C02: loads are floor or floor+1, and exactly (total mod G) workers have the extra sample. *)
Theorem C02_sharding_balance : forall shards world nworkers rot,
  shards <> [] -> Forall whole_shard shards -> total_samples shards < 2 ^ 53 -> (0 < world)%nat ->
  let G := Z.of_nat (world * Nat.max 1 nworkers) in
  exists ll, shard_all_ranks shards world nworkers None rot = Ok ll /\
    Forall (fun c => c = total_samples shards / G \/ c = total_samples shards / G + 1) (loads ll) /\
    Z.of_nat (length (filter (fun c => c =? total_samples shards / G + 1) (loads ll)))
      = total_samples shards mod G.
Proof. exact shard_balance. Qed.
Print Assumptions C02_sharding_balance.

(** C02 (who gets the extra sample): the workers in bit-reversal order, starting at the rotation
    offset, get the remainder samples. *)
Theorem C02_remainder_order : forall shards world nworkers rot i p ll,
  shards <> [] -> Forall whole_shard shards -> total_samples shards < 2 ^ 53 ->
  let G := (world * Nat.max 1 nworkers)%nat in
  (i < G)%nat -> bitrev G = Some p ->
  shard_all_ranks shards world nworkers None rot = Ok ll ->
  nth (nth i p 0%nat) (loads ll) 0 = total_samples shards / Z.of_nat G +
    (if (Z.of_nat i - rot) mod Z.of_nat G <? total_samples shards mod Z.of_nat G then 1 else 0).
Proof. exact shard_exact_load. Qed.
Print Assumptions C02_remainder_order.

(** C03: the per-global-worker assignment depends only on the number of global workers. *)
Theorem C03_sharding_reshape : forall shards w1 n1 w2 n2 maxs rot, Forall whole_shard shards ->
  (w1 * Nat.max 1 n1 = w2 * Nat.max 1 n2)%nat ->
  shard_all_ranks shards w1 n1 maxs rot = shard_all_ranks shards w2 n2 maxs rot.
Proof. exact shard_reshape. Qed.
Print Assumptions C03_sharding_reshape.

(** C04: with the accumulated rotation offsets the combined load over all blended datasets is
    floor or floor+1 of the grand total over the number of global workers. *)
Theorem C04_rotation_balance : forall dss world nworkers, (0 < world)%nat ->
  let G := (world * Nat.max 1 nworkers)%nat in
  Forall (fun ds => ds <> [] /\ Forall whole_shard ds /\ total_samples ds < 2 ^ 53) dss ->
  let T := zsum (map total_samples dss) in
  exists lls, shard_datasets dss (worker_offsets 0 (map total_samples dss) (Z.of_nat G)) world nworkers = Ok lls /\
    forall j, (j < G)%nat ->
      combined_load lls j = T / Z.of_nat G \/ combined_load lls j = T / Z.of_nat G + 1.
Proof. exact rotation_balance. Qed.
Print Assumptions C04_rotation_balance.

(** C05, full claim refuted: with max_samples_per_sequence = 100 (the documented value), one shard of
    1867 samples and a single worker, the last sample is never assigned to anybody: the float
    computation int(19 * (1867/19)) is 1866. *)
Theorem C05_max_samples_split_refuted : exists shards m,
  shards <> [] /\ Forall whole_shard shards /\ total_samples shards = 1867 /\ m = 100 /\
  exists ll, shard_all_ranks shards 1 1 (Some m) 0 = Ok ll /\
    length (concat (map all_rows ll)) = 1866%nat.
Proof.
  exists [(mkShard 0 0 1867, [])], 100.
  split; [discriminate|]. split; [repeat constructor; cbn; lia|]. split; [reflexivity|]. split; [reflexivity|].
  eexists. split; [vm_compute; reflexivity|vm_compute; reflexivity].
Qed.
Print Assumptions C05_max_samples_split_refuted.

(** C05, what holds in general: splitting one range [a,b) keeps everything, in order, except possibly
    the very last sample of the range. *)
Theorem C05_split_loses_at_most_last_partial : forall s a b m, 0 <= a <= b -> 0 < m /\ b - a < 2 ^ 51 ->
  flat_map rows (split_shard s a b (Some m)) = rows (reshard s a (b - a)) \/
  flat_map rows (split_shard s a b (Some m)) = rows (reshard s a (b - 1 - a)).
Proof. intros s a b m. exact (@split_shard_near s a b (Some m)). Qed.
Print Assumptions C05_split_loses_at_most_last_partial.

(** C05, never an error, a duplicate or an invented sample: every worker's samples with a maximum are
    the samples it would get without one, possibly with some left out. *)
Theorem C05_split_sublist_partial : forall shards world nworkers rot m,
  shards <> [] -> Forall whole_shard shards -> total_samples shards < 2 ^ 51 -> (0 < world)%nat -> 0 < m ->
  exists ll ll0, shard_all_ranks shards world nworkers (Some m) rot = Ok ll /\
    shard_all_ranks shards world nworkers None rot = Ok ll0 /\
    Forall2 (fun p q => sublist (all_rows p) (all_rows q)) ll ll0.
Proof. exact shard_max_sublist. Qed.
Print Assumptions C05_split_sublist_partial.

(** C05, the partition holds whenever the float computation does not round below an integer. *)
Theorem C05_split_exact_partial : forall shards world nworkers rot m,
  shards <> [] -> Forall whole_shard shards -> total_samples shards < 2 ^ 51 -> (0 < world)%nat -> 0 < m ->
  (forall k, 0 <= k <= total_samples shards -> float_exact (Some m) k) ->
  exists ll, shard_all_ranks shards world nworkers (Some m) rot = Ok ll /\
    length ll = (world * Nat.max 1 nworkers)%nat /\
    concat (map all_rows ll) = all_rows shards.
Proof. exact shard_partition_max. Qed.
Print Assumptions C05_split_exact_partial.

(** C06 *)
Theorem C06_bit_reversal_permutation : forall n,
  exists p, bitrev n = Some p /\ Permutation p (seq 0 n).
Proof. exact bitrev_perm. Qed.
Print Assumptions C06_bit_reversal_permutation.

Theorem C06_bit_reversal_pow2 : forall k,
  exists p, bitrev (2 ^ k) = Some p /\ length p = (2 ^ k)%nat /\
    forall i, (i < 2 ^ k)%nat -> nth i p 0%nat = bitreverse k i.
Proof. exact bitrev_pow2. Qed.
Print Assumptions C06_bit_reversal_pow2.

(** Non-vacuity: a two-column dataset with an empty shard, 2 ranks x 3 workers. *)
Definition ex_shards : list shseq :=
  [(mkShard 0 0 5, [mkShard 10 0 5]); (mkShard 1 0 0, [mkShard 11 0 0]);
   (mkShard 2 0 7, [mkShard 12 0 7]); (mkShard 3 0 9, [mkShard 13 0 9])].

Example ex_shards_ok : ex_shards <> [] /\ Forall whole_shard ex_shards /\
  total_samples ex_shards < 2 ^ 51 /\ total_samples ex_shards = 21 /\ (0 < 2)%nat.
Proof. repeat split; try discriminate; repeat constructor; cbn; lia. Qed.

Example ex_loads : exists ll, shard_all_ranks ex_shards 2 3 None 4 = Ok ll /\ loads ll = [4; 3; 4; 3; 3; 4] /\
  loads ll <> repeat 4 6.
Proof. eexists. split; [vm_compute; reflexivity|]. split; [vm_compute; reflexivity|discriminate]. Qed.

Example ex_reshape : (2 * Nat.max 1 3 = 6 * Nat.max 1 0)%nat /\
  shard_all_ranks ex_shards 2 3 (Some 2) 4 = shard_all_ranks ex_shards 6 0 (Some 2) 4.
Proof. split; [reflexivity|vm_compute; reflexivity]. Qed.

Example ex_float_exact : forall k, 0 <= k <= 21 -> float_exact (Some 4) k.
Proof.
  intros k Hk. assert (H : forallb (fun z => let n := Z.of_nat z in
     implb (py_int_gt n (rnd (3 * 4) 2)) (py_int (py_mul (slice_count_of n 4) (py_div n (slice_count_of n 4))) =? n))
     (seq 0 22) = true) by (vm_compute; reflexivity).
  rewrite forallb_forall in H. specialize (H (Z.to_nat k)). cbv zeta in H.
  rewrite Z2Nat.id in H by lia. intros Hgt. rewrite Hgt in H. cbn [implb] in H.
  apply Z.eqb_eq, H, in_seq. lia.
Qed.

Example ex_offsets : worker_offsets 0 [21; 5; 9] 6 = [0; 3; 2].
Proof. reflexivity. Qed.
