(** Property C46 (and the link from C01-C05 to C12): the whole way from the dataset's shards over the
    sharder to what the loaders of all ranks and workers deliver in one epoch. *)
From Coq Require Import QArith.
From Verif Require Import Base Dataset DatasetProofs WrapSpec Rng RngProofs Sharder SharderSpec SampleLoader
  SampleLoaderSpec P_SampleLoader EndToEndProofs.
Local Close Scope Q_scope.
Local Close Scope Z_scope.
Local Open Scope nat_scope.

(** What the C12-C14 theorems ask for holds of everything the sharder returns. *)
Theorem C12_sharder_delivers : forall shards world n maxs rot ll,
  shards <> [] -> Forall whole_shard shards -> (total_samples shards < 2 ^ 51)%Z ->
  match maxs with Some m => (0 < m)%Z | None => True end -> 0 < world ->
  NoDup (map (fun s : shseq => sh_name (fst s)) shards) ->
  shard_all_ranks shards world n maxs rot = Ok ll -> proper_shards ll.
Proof. exact sharder_proper. Qed.
Print Assumptions C12_sharder_delivers.

(** C46: every rank shards the dataset for itself and each of its workers reads one epoch from its
    loader.  Over all ranks and workers, this delivers every sample of the dataset exactly once
    (k times each, if shuffled over k epochs), for all worlds, worker counts, numbers of shards open
    side by side and random choices; with max_samples_per_sequence some samples may be missing
    (C05), but none is delivered more often.  [row] is what is read at one position of the columns. *)
Theorem C46_epoch_covers_dataset :
  forall X (R : nat -> rng_ops) shards (row : list (nat * Z) -> sample X) world n maxs rot par shuffle k rs shs,
  shards <> [] -> Forall whole_shard shards -> (total_samples shards < 2 ^ 51)%Z ->
  match maxs with Some m => (0 < m)%Z | None => True end -> 0 < world ->
  NoDup (map (fun s : shseq => sh_name (fst s)) shards) ->
  (forall r, rng_ok (R r)) -> par >= 1 ->
  (shuffle = NoShuffle /\ par = 1 /\ k = 1) \/ shuffle = Over k ->
  (forall r, r < world -> shard_workers shards (mkWcfg r world n) maxs rot = Ok (shs r)) ->
  let nw := Nat.max 1 n in
  exists used, sublist used (all_rows shards) /\ (maxs = None -> used = all_rows shards) /\
  exists xs : nat -> nat -> list (sample X),
    (forall r w, r < world -> w < nw ->
       emits w (fresh (loader_ds (R r) (shs r) (fun s => map row (rows s)) par shuffle false rs)) (epoch (xs r w))) /\
    Permutation (concat (map (fun r => concat (map (xs r) (seq 0 nw))) (seq 0 world)))
                (concat (repeat (map row used) k)).
Proof. intros. eapply (@global_epoch X R shards row world n maxs rot par shuffle k (fun _ => rs) shs); eauto. Qed.
Print Assumptions C46_epoch_covers_dataset.

(** Non-vacuity: 3 shards (one of them empty), 2 ranks with 2 workers. *)
Definition e2e_shards : list shseq := [(mkShard 0 0 5, []); (mkShard 1 0 0, []); (mkShard 2 0 4, [])]%Z.
Example e2e_ok : e2e_shards <> [] /\ Forall whole_shard e2e_shards /\ (total_samples e2e_shards < 2 ^ 51)%Z /\
  NoDup (map (fun s : shseq => sh_name (fst s)) e2e_shards).
Proof.
  split; [discriminate|]. split; [repeat constructor; cbn; lia|]. split; [cbn; lia|].
  repeat constructor; cbn; intuition congruence.
Qed.
Example e2e_ranks : exists shs, forall r, r < 2 -> shard_workers e2e_shards (mkWcfg r 2 2) None 1 = Ok (shs r).
Proof.
  exists (fun r => match shard_workers e2e_shards (mkWcfg r 2 2) None 1 with Ok x => x | _ => [] end).
  intros [|[|r]] H; [vm_compute; reflexivity|vm_compute; reflexivity|lia].
Qed.
Example e2e_run : map (fun r => match shard_workers e2e_shards (mkWcfg r 2 2) None 1 with
    | Ok shs => map (fun w => map (fun e => match e with Yield a => pl a | _ => [] end)
        (runk w 30 4 (fresh (loader_ds lcg shs (fun s => map (fun c => mkS c [AInt 0]) (rows s)) 2 (Over 1) false (fun _ _ => Err ValueError))))) [0; 1]
    | _ => [] end) [0; 1]
  = [ [ [[(0, 0%Z)]; [(0, 1%Z)]; []; [(0, 0%Z)]]; [[(0, 2%Z)]; [(0, 3%Z)]; []; [(0, 2%Z)]] ];
      [ [[(2, 0%Z)]; [(0, 4%Z)]; [(2, 1%Z)]; []]; [[(2, 2%Z)]; [(2, 3%Z)]; []; [(2, 2%Z)]] ] ].
Proof. vm_compute. reflexivity. Qed.
