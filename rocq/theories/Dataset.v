(** What a SavableDataset (flavors/base_dataset.py:263-360) is, as a Coq record, and the notions
    "what it emits" and "it resumes" stated on that interface only.

    A dataset object lives in one process per worker.  [ds_obj] is the state stored on the Python
    object(s); [ds_gen] is the local state of a running [__iter__] generator (locals + program
    counter).  [ds_step w] runs the generator of worker [w] a little further: it either yields a
    sample, finishes (StopIteration), raises, or makes silent progress ([Tau]).
    [ds_save]/[ds_merge]/[ds_restore] are save_state (in the worker), merge_states (in the main
    process, one entry per worker, None allowed) and restore_state (in the main process, before the
    workers start).  [ds_restore_sample] is restore_sample. *)
From Coq Require Import String.
From Verif Require Import Base.

(** Restore keys (base_dataset.py:386-423): tuples of strings, ints and nested tuples. *)
Inductive atom : Type :=
| AStr (s : string)
| AInt (n : nat)
| ATup (l : list atom).

Definition rkey := list atom.

(** A sample: its content and its [__restore_key__]. *)
Record sample (P : Type) := mkS { pl : P; rk : rkey }.
Arguments mkS {P} pl rk.
Arguments pl {P} s.
Arguments rk {P} s.

Inductive event (A : Type) : Type :=
| Yield (a : A)
| Tau
| Done
| Raise (e : exn).
Arguments Yield {A} a.
Arguments Tau {A}.
Arguments Done {A}.
Arguments Raise {A} e.

Record dataset (P : Type) := mkDataset {
  ds_obj : Type;
  ds_gen : Type;
  ds_wst : Type;
  ds_mst : Type;
  ds_init : ds_obj;                                     (* after __init__ *)
  ds_iter : ds_gen;                                     (* iter(dataset), nothing executed yet *)
  ds_step : nat -> ds_obj -> ds_gen -> ds_obj * ds_gen * event (sample P);
  ds_save : nat -> ds_obj -> ds_wst;
  ds_merge : list (option ds_wst) -> ds_mst;
  ds_restore : option ds_mst -> ds_obj -> ds_obj;
  ds_restore_sample : nat -> rkey -> result (sample P)
}.
Arguments ds_init {P} d.
Arguments ds_iter {P} d.
Arguments ds_step {P} d.
Arguments ds_save {P} d.
Arguments ds_merge {P} d.
Arguments ds_restore {P} d.
Arguments ds_restore_sample {P} d.

Section Run.
  Context {P : Type} (D : dataset P) (w : nat).

  Definition st : Type := (ds_obj D * ds_gen D)%type.

  (** One call of [next(it)], given at most [n] silent steps. *)
  Fixpoint nextn (n : nat) (s : st) : option (event (sample P) * st) :=
    match n with
    | O => None
    | S n' =>
        match ds_step D w (fst s) (snd s) with
        | (o, g, Tau) => nextn n' (o, g)
        | (o, g, e) => Some (e, (o, g))
        end
    end.

  (** [next(it)] on state [s] returns event [e] and leaves state [s']. *)
  Definition next (s : st) (e : event (sample P)) (s' : st) : Prop :=
    exists n, nextn n s = Some (e, s').

  (** What a consumer that keeps calling next(), and calls iter() again after each StopIteration,
      can observe. An escaping exception ends the observation. *)
  Inductive emits : st -> list (event (sample P)) -> Prop :=
  | em_nil s : emits s []
  | em_yield s a s' l : next s (Yield a) s' -> emits s' l -> emits s (Yield a :: l)
  | em_done s s' l : next s Done s' -> emits (fst s', ds_iter D) l -> emits s (Done :: l)
  | em_raise s e s' : next s (Raise e) s' -> emits s [Raise e].

  (** The states of worker [w] that can occur at a point where the state may be saved: initially,
      after a yielded sample, after an epoch end, after having been restored (with [nw]
      workers) from a previously saved state, and, if [rst], after restore_state(None) was called
      on the object and it was iterated anew. *)
  Inductive reach (rst : bool) (nw : nat) : st -> Prop :=
  | r_init : reach rst nw (ds_init D, ds_iter D)
  | r_yield s a s' : reach rst nw s -> next s (Yield a) s' -> reach rst nw s'
  | r_done s s' : reach rst nw s -> next s Done s' -> reach rst nw (fst s', ds_iter D)
  | r_restore s sts : reach rst nw s -> length sts = nw ->
      nth_error sts w = Some (Some (ds_save D w (fst s))) ->
      reach rst nw (ds_restore D (Some (ds_merge D sts)) (ds_init D), ds_iter D)
  | r_reset s : rst = true -> reach rst nw s ->
      reach rst nw (ds_restore D None (fst s), ds_iter D).
End Run.

Definition same_stream {P} (D : dataset P) (w : nat) (s1 s2 : st D) : Prop :=
  forall l, emits w s1 l <-> emits w s2 l.

(** THE resume property: whatever state worker [w] is in when saved, restoring the merged state of
    all [nw] workers (the other workers' entries are arbitrary) into a freshly constructed dataset
    object and iterating it emits exactly what the uninterrupted worker would emit. *)
Definition resumable {P} (D : dataset P) (rst : bool) (nw : nat) : Prop :=
  forall w (s : st D) sts, w < nw -> reach w rst nw s -> length sts = nw ->
    nth_error sts w = Some (Some (ds_save D w (fst s))) ->
    same_stream w s (ds_restore D (Some (ds_merge D sts)) (ds_init D), ds_iter D).

(** Every yielded sample can be brought back through its restore key (property C15). *)
Definition restorable {P} (D : dataset P) (rst : bool) (nw : nat) : Prop :=
  forall w (s : st D) a (s' : st D), w < nw -> reach w rst nw s -> next w s (Yield a) s' ->
    ds_restore_sample D w (rk a) = Ok a.

(** The dataset never ends (training datasets loop forever). *)
Definition endless {P} (D : dataset P) (rst : bool) (nw : nat) : Prop :=
  forall w (s s' : st D), w < nw -> reach w rst nw s -> ~ next w s Done s'.

(** restore_state(None) brings the dataset back to its initial state *)
Definition resettable {P} (D : dataset P) (rst : bool) (nw : nat) : Prop :=
  forall w (s : st D), w < nw -> reach w rst nw s ->
    same_stream w (ds_restore D None (fst s), ds_iter D) (ds_init D, ds_iter D).

(** worker [w], started from scratch, emits the samples [xs] and then stops *)
Definition produces {P} (D : dataset P) (w : nat) (s : st D) (xs : list (sample P)) : Prop :=
  emits w s (map Yield xs ++ [Done]).

(** worker [w] emits at least the samples [xs], in this order *)
Definition starts_with {P} (D : dataset P) (w : nat) (s : st D) (xs : list (sample P)) : Prop :=
  emits w s (map Yield xs).
