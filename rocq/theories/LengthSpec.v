(** What len() should be: the number of samples that all the workers of the rank deliver in an epoch. *)
From Coq Require Import String QArith.
From Verif Require Import Base Dataset WrapSpec Rng Sharder SampleLoader SampleLoaderSpec Wrappers MapModel GroupBatchSpec BatchSpec TaskEncoder TaskEncoderSpec
  P_SampleLoader P_Batch Config Length.
Local Close Scope Q_scope.
Local Close Scope Z_scope.
Local Open Scope list_scope.
Local Open Scope nat_scope.

(** worker [w] starts the dataset and reads as many epochs as there are numbers in [ns]: the epochs have these numbers of samples, and
    no error occurs *)
Definition epoch_sizes {V} (w : nat) (D : dataset V) (ns : list nat) : Prop := exists eps, runs w D eps /\ map (@length V) eps = ns.

(** worker [w] can read as many samples as it wants to, in any number of epochs, without an error *)
Definition keeps_going {V} (w : nat) (D : dataset V) : Prop :=
  forall k, exists ins, emits w (fresh D) ins /\ clean ins /\ k <= length (samples ins).

Section Spec.
  Context {V K : Type} (keq : K -> K -> bool) (E : @env V K) (len_map : nat -> nat -> nat) (wc : wconf).
  Let nw := nworkers wc.

  (** the number of samples in an epoch of worker [w] *)
  Fixpoint worker_len (p : pipe) (w : nat) : nat :=
    match p with
    | PLoad shards _ _ _ _ _ _ => list_sum (map (fun s => Z.to_nat (sh_count (cs_info (fst s)))) (nth w shards []))
    | PBatch size _ _ _ drop_last _ d => group_count size drop_last (worker_len d w)
    | PRepeat (Some n) d => n * worker_len d w
    | PEpochize len _ => local_share nw len w
    | PLimit len _ d => Nat.min (local_share nw len w) (worker_len d w)
    | PConcat ds => list_sum (map (fun d => worker_len d w) ds)
    | PBlend _ => 0
    | PMap _ _ _ _ d | PIterMap _ _ _ _ _ d | PFilter _ _ d | PShuffle _ d | PGroup _ _ _ _ _ _ _ d | PPack _ _ _ _ _ _ d
    | PRepeat None d | PGc _ d | PLog _ d => worker_len d w
    end.

  (** the source: each worker's shards, read to their ends; each sub-shard has as many samples as it says; one pass over the data in an
      epoch *)
  Definition whole_source (shards : list (list (cshard * list cshard))) (exclude : list string) (loop : bool) (shuffle : shuffling) (par pf h : nat) : Prop :=
    loop = false /\ length shards = nw /\ proper_shards (infos shards) /\ par >= 1 /\
    ((shuffle = NoShuffle /\ par = 1) \/ shuffle = Over 1) /\
    forall ws s, In ws (infos shards) -> In s ws -> length (e_content E exclude pf h (paths shards) s) = Z.to_nat (count0 s).

  (** the pipelines whose len() is exact, for [m] epochs: no sample is skipped or multiplied, and where workers share a number of
      samples, they share it evenly *)
  Fixpoint exact (p : pipe) (m : nat) : Prop :=
    match p with
    | PLoad shards exclude loop shuffle par pf h => whole_source shards exclude loop shuffle par pf h
    | PMap f _ _ h d => (exists g, e_map E (c_code f) (c_code h) = Fn g /\ forall w i x, exists y, g w i x = UOk y) /\ exact d m
    | PShuffle size d => 0 < size /\ exact d m
    | PBatch size f _ _ drop_last h d =>
        (exists g, e_batch E (c_code f) (c_code h) = Fn g /\ forall w i x, exists y, g w i x = UOk y) /\ 0 < size /\ exact d m /\
        (drop_last = true \/ pipe_len len_map wc d mod nw = 0) /\
        forall w, w < nw -> pipe_len len_map wc d / nw <= worker_len d w <= pipe_len len_map wc d / nw + 1
    | PRepeat (Some n) d => m <= 1 /\ exact d n
    | PEpochize len d => forall w, w < nw -> 0 < local_share nw len w -> keeps_going w (denote keq E wc d)
    | PLimit len _ d => exact d 1 /\ resettable (denote keq E wc d) true nw /\
        ((forall w, w < nw -> local_share nw len w <= worker_len d w) \/ (forall w, w < nw -> worker_len d w <= local_share nw len w))
    | PConcat ds => fold_right and True (map (fun d => exact d m) ds)
    | PGc _ d | PLog _ d => exact d m
    | _ => False
    end.

  (** the pipelines of which len() is an upper bound: functions may skip samples, samples may be filtered and grouped *)
  Fixpoint bounded (p : pipe) (m : nat) : Prop :=
    match p with
    | PLoad shards exclude loop shuffle par pf h => whole_source shards exclude loop shuffle par pf h
    | PMap f _ _ h d => (exists g, e_map E (c_code f) (c_code h) = Fn g /\ forall w i x, g w i x <> UFatal) /\ bounded d m
    | PFilter f _ d => (forall w i x, exists b, e_filter E (c_code f) w i x = Ok b) /\ bounded d m
    | PShuffle size d => 0 < size /\ bounded d m
    | PGroup fixed key f _ _ drop_last h d =>
        (forall a b, keq a b = true <-> a = b) /\
        (exists cls size, (forall w, groups_by fixed (e_key E (c_code key) (c_code h) w) cls size) /\ forall k, 0 < size k) /\
        (forall w i l, e_group E (c_code f) (c_code h) w i l <> UFatal) /\ bounded d m
    | PRepeat (Some n) d => m <= 1 /\ bounded d n
    | PEpochize len d => forall w, w < nw -> 0 < local_share nw len w -> keeps_going w (denote keq E wc d)
    | PLimit len _ d => bounded d 1 /\ resettable (denote keq E wc d) true nw
    | PConcat ds => fold_right and True (map (fun d => bounded d m) ds)
    | PGc _ d | PLog _ d => bounded d m
    | _ => False
    end.
End Spec.
