(** Vocabulary for the statements about data loader workers. *)
From Verif Require Import Base Dataset Loader.

Section Spec.
  Context {P : Type} (D : dataset P) (w gid nw min_n n_cp : nat).

  (** the samples (with their index in the worker) among the worker's outputs *)
  Definition emitted (l : list (@wevent P)) : list (nat * sample P) :=
    flat_map (fun e => match e with Emit i a => [(i, a)] | _ => [] end) l.

  (** the worker in state [s] can deliver the samples [ys] (and maybe more) *)
  Definition delivers (s : wstate D) (ys : list (nat * sample P)) : Prop :=
    exists l s', wruns w gid min_n n_cp s l s' /\ emitted l = ys.

  (** Worker states that occur: a new worker, after any output, and a worker restored from a checkpoint
      that was requested for the last received sample [k], one that was delivered in this life of
      the worker. [base]: the sample index at which this life began. *)
  Inductive wreach : nat -> wstate D -> Prop :=
  | wreach_fresh : wreach 0 (w_fresh D)
  | wreach_next b s e s' : wreach b s -> wnext w gid min_n n_cp s e s' -> (forall x, e <> Fail x) -> wreach b s'
  | wreach_restore b s k c off cks : wreach b s -> b <= k < k_index s -> get_checkpoint s k = Ok (c, off) ->
      length cks = nw -> nth_error cks w = Some (c, off) -> wreach (S k) (w_restored w cks).
End Spec.
