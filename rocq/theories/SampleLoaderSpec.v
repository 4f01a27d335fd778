(** Vocabulary for the sample loader properties (C12-C14). *)
From Verif Require Import Base Dataset WrapSpec Sharder.

(** [xs] merges the lists [ls]: every element of every list occurs, and each list's elements occur in
    the order in which they are in that list *)
Inductive interleaved {A} : list (list A) -> list A -> Prop :=
| il_nil ls : Forall (eq []) ls -> interleaved ls []
| il_cons l1 x l l2 xs : interleaved (l1 ++ l :: l2) xs -> interleaved (l1 ++ (x :: l) :: l2) (x :: xs).

(** Everything worker [w] delivered since it was built, in whatever number of runs: [history outs s]
    says that the runs so far delivered the events [outs] altogether, where any run may have been ended
    at any point and a freshly built dataset restored from the state saved there (the entries of the
    other workers are arbitrary), and the dataset is now in state [s]. *)
Inductive history {P} (D : dataset P) (w nw : nat) : list (event (sample P)) -> st D -> Prop :=
| h_init : history w nw [] (ds_init D, ds_iter D)
| h_yield outs s a s' : history w nw outs s -> next w s (Yield a) s' -> history w nw (outs ++ [Yield a]) s'
| h_done outs s s' : history w nw outs s -> next w s Done s' ->
    history w nw (outs ++ [Done]) (fst s', ds_iter D)
| h_restore outs s sts : history w nw outs s -> length sts = nw ->
    nth_error sts w = Some (Some (ds_save D w (fst s))) ->
    history w nw outs (ds_restore D (Some (ds_merge D sts)) (ds_init D), ds_iter D).

(** the epochs [es] and then the samples [part] of the next epoch, as a consumer sees them: with
    [loop] the ends of the epochs are not visible *)
Definition epochs_seen {P} (loop : bool) (es : list (list (sample P))) (part : list (sample P))
  : list (event (sample P)) :=
  (if loop then map Yield (concat es) else concat (map epoch es)) ++ map Yield part.

(** the sub-shards [ws], each of them [k] times *)
Definition copies (k : nat) (ws : list shseq) : list shseq := concat (repeat ws k).

(** one epoch over the sub-shards [ws], each read [k] times, in any order, and side by side *)
Definition shuffled_epoch {X} (content : shseq -> list (sample X)) (k : nat) (ws : list shseq)
    (xs : list (sample X)) : Prop :=
  interleaved (map content (copies k ws)) xs.
