(** Specification vocabulary for sharding: what a list of sub-shards means to a user,
    independent of how the sharder computes it. *)
From Verif Require Import Base PyFloat Sharder.
Local Open Scope Z_scope.

(** The rows (one tuple (shard name, sample index) per column) a sub-shard stands for, in order. *)
Definition rows (s : shseq) : list (list (nat * Z)) :=
  map (fun i => map (fun sh => (sh_name sh, sh_offset sh + Z.of_nat i)) (columns s))
      (seq 0 (Z.to_nat (count0 s))).

Definition all_rows (l : list shseq) : list (list (nat * Z)) := flat_map rows l.

(** A whole shard as found in a dataset: every column starts at 0 and has the same, non-negative
    number of samples. *)
Definition whole_shard (s : shseq) : Prop :=
  0 <= count0 s /\ Forall (fun sh => sh_offset sh = 0 /\ sh_count sh = count0 s) (columns s).

Definition total_samples (shards : list shseq) : Z := zsum (map count0 shards).

(** [sublist a b]: [a] is [b] with some elements left out (order kept, nothing added or duplicated). *)
Inductive sublist {A} : list A -> list A -> Prop :=
| sub_nil : sublist [] []
| sub_skip x a b : sublist a b -> sublist a (x :: b)
| sub_keep x a b : sublist a b -> sublist (x :: a) (x :: b).

(** Load (number of samples) of each worker. *)
Definition loads (ll : list (list shseq)) : list Z := map (fun wk => Z.of_nat (length (all_rows wk))) ll.

(** All datasets of a blend sharded, each with its own rotation offset. *)
Fixpoint shard_datasets (dss : list (list shseq)) (offs : list Z) (world n : nat) : result (list (list (list shseq))) :=
  match dss, offs with
  | ds :: dss', o :: offs' =>
      bind (shard_all_ranks ds world n None o)
           (fun ll => bind (shard_datasets dss' offs' world n) (fun r => Ok (ll :: r)))
  | _, _ => Ok []
  end.

(** Samples worker number j holds over all the datasets. *)
Definition combined_load (lls : list (list (list shseq))) (j : nat) : Z :=
  zsum (map (fun ll => nth j (loads ll) 0) lls).

(** every column of a sub-shard covers the same sample range *)
Definition aligned (s : shseq) : Prop :=
  Forall (fun sh => sh_offset sh = offset0 s /\ sh_count sh = count0 s) (columns s).

(** the slice count used for n samples and maximum m *)
Definition slice_count_of (n m : Z) : Z := Z.max (py_round (py_div n m)) 1.

(** "the float computation int(k * (n/k)) gives back n whenever n samples are split" *)
Definition float_exact (maxs : option Z) (n : Z) : Prop :=
  match maxs with
  | None => True
  | Some m => py_int_gt n (rnd (3 * m) 2) = true ->
      py_int (py_mul (slice_count_of n m) (py_div n (slice_count_of n m))) = n
  end.

(** at most 1.5 * max samples (+ 2 for rounding) *)
Definition max_len_ok (maxs : option Z) (p : shseq) : Prop :=
  match maxs with None => True | Some m => 4 * count0 p < 6 * m + 8 end.

(** classical bit reversal of the k lowest bits *)
Fixpoint bitreverse (k i : nat) : nat :=
  match k with
  | O => 0
  | S k' => ((i mod 2) * 2 ^ k' + bitreverse k' (i / 2))%nat
  end.
