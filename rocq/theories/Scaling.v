(** Reproducible scaling (docs/source/repro_scaling.md): the same training pipeline on differently many
    ranks and workers.

    [pipe A]: a training pipeline, described independently of the number of ranks: the dataset's files, the user functions
    (as functions of the global worker id, the sample index and the content: what "stateless" user functions may depend
    on, C47) and the random generators (seeded by the global worker id: worker.py:207-219 worker_seed, C07).
    [build world n rank p]: the dataset object that rank [rank] of [world] constructs with num_workers = [n]: every
    constructor is the wrapper modelled elsewhere (task_encoder/base.py:484-601, flavors/webdataset/base_webdataset.py).

    Simplification: the worker rotation offset [rot] (task_encoder/base.py:508-510) is given: it depends on the
    number of global workers only. *)
From Coq Require Import String QArith.
From Verif Require Import Base Dataset Wrap Rng RngProofs Sharder SharderSpec SampleLoader Tar Joined JoinedSpec Wrappers ShuffleBuffer MapModel
  Batch Packing IterMap IterMapProofs Blend P_SampleLoader Pipeline.
Local Close Scope Q_scope.
Local Close Scope Z_scope.
Local Open Scope list_scope.
Local Open Scope nat_scope.

(** worker.py:190-205 global_worker_id *)
Definition gwid (n rank w : nat) : nat := rank * n + w.

(** the generators of a rank; [R] is indexed by the global worker *)
Definition rng_at (R : rng_ops) (n rank : nat) : rng_ops :=
  {| rng_t := rng_t R; rng_seed := fun w => rng_seed R (gwid n rank w);
     rng_below := rng_below R; rng_mult := rng_mult R; rng_perm := rng_perm R |}.

Definition fn_at {A B} (fn : iterfn A B) (n rank : nat) : iterfn A B :=
  {| if_st := if_st fn; if_start := if_start fn; if_act := fun w => if_act fn (gwid n rank w);
     if_end := fun w => if_end fn (gwid n rank w) |}.

(** what the sharder gives to the workers of one rank *)
Definition shards_of (shards : list shseq) (maxs : option Z) (rot : Z) (world n rank : nat) : list (list shseq) :=
  match shard_workers shards (mkWcfg rank world n) maxs rot with Ok l => l | Err _ => [] end.

Inductive pipe : Type -> Type :=
| PWeb Dat (F : files Dat) (pfilter : string -> bool) (R : rng_ops) (shards : list shseq) (maxs : option Z) (rot : Z)
    (par : nat) (shuffle : shuffling) : pipe (list (group Dat))
| PMap A B (f : nat -> nat -> A -> ures B) (p : pipe A) : pipe B
| PMapGen A B (f : nat -> nat -> A -> list B * gend) (p : pipe A) : pipe B
| PShuffle A (R : rng_ops) (size : nat) (p : pipe A) : pipe A
| PBatch A B (size : nat) (drop : bool) (f : nat -> nat -> list A -> ures B) (p : pipe A) : pipe B
| PFilter A (q : nat -> nat -> A -> result bool) (p : pipe A) : pipe A
| PLog A (p : pipe A) : pipe A
| PGc A (every_n : nat) (p : pipe A) : pipe A
| PBlend A (R : rng_ops) (m : nat) (weight : nat -> Q) (ps : nat -> pipe A) : pipe A
| PPack A B (size : nat) (pre : nat -> nat -> list (sample A) -> ures (list (list (sample A)))) (f : nat -> nat -> list A -> ures B)
    (p : pipe A) : pipe B
| PIterMap A B (fn : iterfn A B) (p : pipe A) : pipe B.

Fixpoint build {A : Type} (world n rank : nat) (p : pipe A) : dataset A :=
  match p in pipe T return dataset T with
  | PWeb F pfilter R shards maxs rot par shuffle =>
      web_ds F pfilter (rng_at R n rank) (shards_of shards maxs rot world n rank) par shuffle true
  | PMap f p => wrap (map_ds n (fun w => f (gwid n rank w))) (build world n rank p)
  | PMapGen f p => wrap (mapgen_ds n (fun w => f (gwid n rank w))) (build world n rank p)
  | PShuffle R size p => wrap (shuffle_buffer (rng_at R n rank) n size) (build world n rank p)
  | PBatch size drop f p => wrap (batch_ds n size drop (fun w => f (gwid n rank w))) (build world n rank p)
  | PFilter q p => wrap (filter_ds n (fun w => q (gwid n rank w))) (build world n rank p)
  | PLog p => wrap (log_ds n) (build world n rank p)
  | PGc every_n p => wrap (gc_ds true every_n) (build world n rank p)
  | PBlend R m weight ps => blend_ds (rng_at R n rank) m (fun i => build world n rank (ps i)) weight (fun _ _ => true)
  | PPack size pre f p => wrap (pack_ds n size (fun w => pre (gwid n rank w)) (fun w => f (gwid n rank w))) (build world n rank p)
  | PIterMap fn p => wrap (itermap_ds n (fn_at fn n rank) true) (build world n rank p)
  end.

(** The pipelines the theorem is about, for [G] global workers.  The conditions are those of C45 ([training]); every global
    worker gets samples from every dataset (otherwise the worker has nothing to deliver). *)
Fixpoint trainable {A : Type} (G : nat) (p : pipe A) : Prop :=
  match p with
  | PWeb F pfilter R shards maxs rot par shuffle =>
      prepared F shards /\ (total_samples shards < 2 ^ 51)%Z /\ match maxs with Some m => (0 < m)%Z | None => True end /\
      rng_ok R /\ 0 < par /\ (shuffle = NoShuffle -> par = 1) /\
      exists ll, shard_all_ranks shards G 1 maxs rot = Ok ll /\ Forall (fun ws => ws <> []) ll
  | PMap f p => trainable G p
  | PMapGen f p => (forall w i a, length (fst (f w i a)) <= 1 /\ snd (f w i a) = GEnd) /\ trainable G p
  | PShuffle R size p => rng_ok R /\ trainable G p
  | PBatch size drop f p => (forall w i l, exists b, f w i l = UOk b) /\ trainable G p
  | PFilter q p => trainable G p
  | PLog p => trainable G p
  | PGc every_n p => trainable G p
  | PBlend R m weight ps => forall i, i < m -> trainable G (ps i)
  | PPack size pre f p =>
      0 < size /\ (forall w i l gs, pre w i l = UOk gs -> incl (concat gs) l) /\ trainable G p
  | PIterMap fn p => memoryless fn /\ hungry fn /\ greedy fn /\ never_fails fn /\ trainable G p
  end.
