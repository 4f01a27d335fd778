(** Properties C07-C11: worker identities, sample index contexts, random generators. *)
From Coq Require Import String QArith.
From Verif Require Import Base WorkerConfig WorkerConfigProofs Rng RngProofs WorkerSpec WorkerProofs.
Local Close Scope Q_scope.
Local Close Scope string_scope.
Local Open Scope Z_scope.

(** C07: any two data loader worker processes of a job (same world size and worker count; the
    workers of one rank share the worker id offset) have global worker ids in range, different
    unless they are the same process of the same rank. *)
Theorem C07_worker_ids_unique c1 c2 p1 p2 off1 off2 n :
  0 < n -> num_workers c1 = n -> num_workers c2 = n -> world_size c1 = world_size c2 ->
  0 <= rank c1 < world_size c1 -> 0 <= rank c2 < world_size c2 ->
  0 <= off1 < n -> 0 <= off2 < n -> 0 <= p1 < n -> 0 <= p2 < n ->
  (rank c1 = rank c2 -> off1 = off2) ->
  exists g1 g2,
    global_worker_id c1 (in_process c1 p1 off1) None = Ok g1 /\
    global_worker_id c2 (in_process c2 p2 off2) None = Ok g2 /\
    0 <= g1 < world_size c1 * n /\
    (g1 = g2 -> rank c1 = rank c2 /\ p1 = p2).
Proof. exact (@gid_unique c1 c2 p1 p2 off1 off2 n). Qed.
Print Assumptions C07_worker_ids_unique.

(** C07: the seed is the hash of a text made of exactly (global worker id, seed offset) -- the rank
    when there are no workers -- and this text is different for different pairs. *)
Theorem C07_worker_seed_depends_only_on_id sha1 c e l gid :
  (num_workers c = 0 -> gid = rank c) ->
  (num_workers c <> 0 -> global_worker_id c e l = Ok gid) ->
  worker_seed sha1 c e l = Ok (Z.land (sha1 (seed_text gid (seed_offset c))) 4294967295).
Proof. exact (@seed_eq sha1 c e l gid). Qed.
Print Assumptions C07_worker_seed_depends_only_on_id.

Theorem C07_seed_text_injective g1 o1 g2 o2 : seed_text g1 o1 = seed_text g2 o2 -> g1 = g2 /\ o1 = o2.
Proof. exact (@seed_text_inj g1 o1 g2 o2). Qed.
Print Assumptions C07_seed_text_injective.

(** C07: the seeds pregenerated by the loader in the main process are those of the workers. *)
Theorem C07_seed_main_matches_worker sha1 c p : 0 < num_workers c -> 0 <= p < num_workers c ->
  worker_seed sha1 c main_process (Some p) = worker_seed sha1 c (in_process c p 0) None.
Proof. exact (@seed_main_worker sha1 c p). Qed.
Print Assumptions C07_seed_main_matches_worker.

(** C07: while a sample is restored, the worker is the one that made the sample, in whatever process
    the restore runs; asking for the id of some other worker is refused. *)
Theorem C07_restoring_worker c e gid :
  override e = Some gid ->
  global_worker_id c e None = Ok gid /\
  forall local, global_worker_id c e (Some local) = Err AssertionError.
Proof. intros H. unfold global_worker_id. rewrite H. split; [reflexivity|intros; reflexivity]. Qed.
Print Assumptions C07_restoring_worker.

Example C07_nonvacuous :
  global_worker_id (mkCfg 1 2 3 0) (in_process (mkCfg 1 2 3 0) 2 1) None = Ok 4 /\
  seed_text 4 7 = "4,7"%string.
Proof. split; reflexivity. Qed.

(** C08, refuted: with the offset stored as "worker whose turn it is" = k, torch's first process
    (id 0) does not become logical worker k. *)
Theorem C08_restore_order_refuted :
  exists c k, 0 < num_workers c /\ 0 <= k < num_workers c /\
    rank_worker_id c (in_process c 0 k) <> Ok k.
Proof. exists (mkCfg 0 1 3 0), 1. vm_compute. split; [reflexivity|]. split; [split; congruence|congruence]. Qed.
Print Assumptions C08_restore_order_refuted.

(** C08, what is true: process p (served p-th) is the right logical worker (k + p) mod n exactly
    when n divides 2k: for k = 0, for n = 1 and 2, and for k = n/2. *)
Theorem C08_restore_order_partial c k p :
  0 < num_workers c -> 0 <= k < num_workers c -> 0 <= p < num_workers c ->
  (rank_worker_id c (in_process c p k) = Ok ((k + p) mod num_workers c) <-> (2 * k) mod num_workers c = 0).
Proof. exact (@restore_order c k p). Qed.
Print Assumptions C08_restore_order_partial.

(** C09: any nest of sample index contexts, entered with an active worker config, leaves the
    environment exactly as it was (also when user code raises), and at each read the user sees the
    innermost index as sample index and the outermost as batch index, scaled to be unique over
    workers. *)
Theorem C09_contexts_nest c b e inner outer mid l :
  active e = true -> stack e = mid ++ [inner] -> hd inner mid = outer ->
  rank_worker_id c e = Ok l ->
  run_body c b e =
    (e, match body_raises b with
        | Some x => Err x
        | None => Ok (map (glob (Z.max (num_workers c) 1) l) (body_reads inner outer b))
        end).
Proof. exact (@run_body_spec c b e inner outer mid l). Qed.
Print Assumptions C09_contexts_nest.

(** C09: the protocol of one step of a worker.  Activating succeeds exactly in an inactive process;
    whatever nest of contexts then runs, raising or not, deactivating succeeds and leaves the process
    as it was before.  A step that would end with a context still open is refused, and deactivating
    an inactive process does nothing. *)
Theorem C09_activation c b e idx ov :
  (active e = true -> worker_activate idx ov e = Err AssertionError) /\
  (active e = false -> exists e1, worker_activate idx ov e = Ok e1 /\ active e1 = true /\
     override e1 = ov /\
     forall l, rank_worker_id c e1 = Ok l ->
       exists r, run_body c b e1 = (e1, r) /\
         worker_deactivate e1 = Ok (mkEnv (winfo e) (id_offset e) false [] None)) /\
  (active e = true -> length (stack e) <> 1%nat -> worker_deactivate e = Err AssertionError) /\
  (active e = false -> worker_deactivate e = Ok e).
Proof.
  split; [intros H; unfold worker_activate; now rewrite H|].
  split; [|split].
  - intros H. eexists. split; [unfold worker_activate; rewrite H; reflexivity|].
    split; [reflexivity|]. split; [reflexivity|].
    intros l Hl. eexists. split; [|reflexivity].
    apply (run_body_spec b (inner := idx) (outer := idx) (mid := [])); [reflexivity|reflexivity|reflexivity|exact Hl].
  - intros H Hl. unfold worker_deactivate. rewrite H.
    destruct (length (stack e) =? 1)%nat eqn:E; [|reflexivity].
    apply Nat.eqb_eq in E. contradiction.
  - intros H. unfold worker_deactivate. now rewrite H.
Qed.
Print Assumptions C09_activation.

Example C09_activation_nonvacuous :
  exists e1, worker_activate 3 None (in_process (mkCfg 0 1 2 0) 1 0) = Ok e1 /\
  rank_worker_id (mkCfg 0 1 2 0) e1 = Ok 1 /\
  worker_deactivate (fst (run_body (mkCfg 0 1 2 0) (BCtx 5 BRead) e1)) = Ok (in_process (mkCfg 0 1 2 0) 1 0).
Proof. eexists. split; [reflexivity|]. split; reflexivity. Qed.

(** C09: the scaled index is different for different workers of a rank or different local indexes *)
Theorem C09_indexes_never_collide n l1 l2 x1 x2 : 0 <= l1 < n -> 0 <= l2 < n ->
  x1 * n + l1 = x2 * n + l2 -> x1 = x2 /\ l1 = l2.
Proof. exact (@mixed_radix_inj n x1 l1 x2 l2). Qed.
Print Assumptions C09_indexes_never_collide.

Example C09_nonvacuous :
  run_body (mkCfg 0 1 2 0) (BSeq (BCtx 5 (BSeq BRead (BCtx 9 BRead))) BRead)
    (mkEnv (Some (1, 2)) 0 true [3] None) =
  (mkEnv (Some (1, 2)) 0 true [3] None, Ok [(11, 7); (19, 7); (7, 7)]).
Proof. reflexivity. Qed.

(** C10: whatever a worker's generator has been used for, restoring the merged state of all workers
    (other entries arbitrary, possibly None) into a new object continues with the same draws. *)
Theorem C10_rng_resumes R w ds (o : wrng R) sts :
  nth_error sts w = Some (Some (wrng_save w o)) ->
  fst (do_draws w ds (wrng_restore (Some (wrng_merge sts)) (wrng_init R))) = fst (do_draws w ds o).
Proof. exact (@rng_resume R w ds o sts). Qed.
Print Assumptions C10_rng_resumes.

(** C10: choosing among one alternative returns it and leaves the generator alone *)
Theorem C10_single_choice_consumes_nothing R w p (o : wrng R) : wrng_choice_idx w [p] o = (0%nat, o).
Proof. exact eq_refl. Qed.
Print Assumptions C10_single_choice_consumes_nothing.

(** C10: restore_state(None) is the initial stream on a generator that was not used yet ... *)
Theorem C10_reset_unused_partial R w ds (pend : option (list (option (rng_t R)))) :
  fst (do_draws w ds (wrng_restore None (mkWrng None pend))) = fst (do_draws w ds (wrng_init R)).
Proof. exact eq_refl. Qed.
Print Assumptions C10_reset_unused_partial.

(** ... but not after it was used: restoring the initial state is refuted. *)
Theorem C10_reset_refuted : exists R, rng_ok R /\ exists w ds1 ds2,
  fst (do_draws w ds2 (wrng_restore None (snd (do_draws w ds1 (wrng_init R))))) <>
  fst (do_draws w ds2 (wrng_init R)).
Proof. exists lcg. split; [exact lcg_ok|]. exists 0%nat, [DBelow 10], [DBelow 10]. vm_compute. congruence. Qed.
Print Assumptions C10_reset_refuted.

Example C10_nonvacuous :
  let o := snd (do_draws (R := lcg) 1 [DBelow 10; DShuffle 4] (wrng_init lcg)) in
  nth_error [None; Some (wrng_save 1 o)] 1 = Some (Some (wrng_save 1 o)) /\
  fst (do_draws 1 [DBelow 10; DShuffle 3] o) = [[6%nat]; [2; 0; 1]%nat].
Proof. vm_compute. split; reflexivity. Qed.

(** C11 *)
Theorem C11_shuffle_permutation R (OK : rng_ok R) A w (l : list A) (o : wrng R) :
  Permutation (fst (wrng_shuffle w l o)) l.
Proof. exact (@shuffle_perm R OK A w l o). Qed.
Print Assumptions C11_shuffle_permutation.

Theorem C11_rand_pop_removes_one R (OK : rng_ok R) A w (l : list A) (o : wrng R) : l <> [] ->
  exists x rest o', wrng_rand_pop w l o = (Some x, rest, o') /\ Permutation l (x :: rest).
Proof. exact (@rand_pop_spec R OK A w l o). Qed.
Print Assumptions C11_rand_pop_removes_one.

Theorem C11_choice_legal R (OK : rng_ok R) w ps (o : wrng R) :
  (exists p, In p ps /\ (0 < p)%Q) -> (forall p, In p ps -> (0 <= p)%Q) ->
  exists p, nth_error ps (fst (wrng_choice_idx w ps o)) = Some p /\ (0 < p)%Q.
Proof. exact (@choice_ok R OK w ps o). Qed.
Print Assumptions C11_choice_legal.

Example C11_nonvacuous : rng_ok lcg /\ fst (wrng_shuffle 2 [10; 20; 30; 40] (wrng_init lcg)) = [40; 10; 20; 30].
Proof. split; [exact lcg_ok|reflexivity]. Qed.
