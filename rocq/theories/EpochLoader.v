(** Model of one epoch of a data loader with workers on datasets that end: savable_loader.py:1034-1187 (BasicDataLoader, as
    used by get_val_dataset loaders) and the iteration part of SavableDataLoader, which both leave the scheduling to PyTorch's
    multi-process DataLoader iterator.

    PyTorch (not part of the repository; modelled from torch/utils/data/dataloader.py _MultiProcessingDataLoaderIter and
    _utils/worker.py _worker_loop, for iterable datasets with batch_size=None and persistent workers): the main process hands
    out numbered tasks to the active workers in turn; each worker answers its tasks in order, with its next sample, or, once,
    with a stop message; answers of different workers arrive in any order; samples are returned in the order of the task
    numbers.

    Simplifications: worker [p]'s samples of this epoch are the list [xs p] (SimpleSavableDatasetWrapper, 60-112, adds worker id
    and sample index to each); no worker fails; task_info is the list of the tasks from rcvd_idx on. *)
From Verif Require Import Base.
Local Open Scope nat_scope.

Definition fset {V} (f : nat -> V) (p : nat) (v : V) : nat -> V := fun x => if x =? p then v else f x.

Section Epoch.
  Context {X : Type}.
  Variables (n prefetch : nat).

  (** a task: its number, its worker, and the sample if it arrived early; in the result queue None is the stop message *)
  Definition task := (nat * nat * option X)%type.
  Definition t_idx (t : task) : nat := fst (fst t).
  Definition t_worker (t : task) : nat := snd (fst t).

  (** e_iq: index queue per worker; e_q: result queue; e_act: _workers_status; e_cyc: _worker_queue_idx_cycle;
      e_rem: what the worker has not yielded yet, None: iteration_end *)
  Record el := mkEl {
    e_tasks : list task; e_send : nat; e_iq : nat -> list nat; e_q : list task;
    e_act : nat -> bool; e_cyc : nat; e_rem : nat -> option (list X) }.

  (** _try_put_index: the next active worker in the cycle *)
  Fixpoint find_active (act : nat -> bool) (tries c : nat) : option nat :=
    match tries with
    | 0 => None
    | S t => if act c then Some c else find_active act t ((c + 1) mod n)
    end.
  Definition try_put (s : el) : el :=
    match find_active (e_act s) n (e_cyc s) with
    | None => s
    | Some p => mkEl (e_tasks s ++ [(e_send s, p, None)]) (S (e_send s)) (fset (e_iq s) p (e_iq s p ++ [e_send s])) (e_q s)
                     (e_act s) ((p + 1) mod n) (e_rem s)
    end.

  (** _reset: prefetch * num_workers tasks *)
  Fixpoint put_many (k : nat) (s : el) : el := match k with 0 => s | S k' => put_many k' (try_put s) end.
  Definition e_start (xs : nat -> list X) : el :=
    put_many (prefetch * n) (mkEl [] 0 (fun _ => []) [] (fun _ => true) 0 (fun p => Some (xs p))).

  Definition with_tasks (t : list task) (s : el) : el := mkEl t (e_send s) (e_iq s) (e_q s) (e_act s) (e_cyc s) (e_rem s).
  Definition with_q (q : list task) (s : el) : el := mkEl (e_tasks s) (e_send s) (e_iq s) q (e_act s) (e_cyc s) (e_rem s).

  Inductive estep : el -> list (nat * X) -> el -> Prop :=
  (* _worker_loop: the next index *)
  | es_work s p i l x r : p < n -> e_iq s p = i :: l -> e_rem s p = Some (x :: r) ->
      estep s [] (mkEl (e_tasks s) (e_send s) (fset (e_iq s) p l) (e_q s ++ [(i, p, Some x)]) (e_act s) (e_cyc s) (fset (e_rem s) p (Some r)))
  | es_end s p i l : p < n -> e_iq s p = i :: l -> e_rem s p = Some [] ->
      estep s [] (mkEl (e_tasks s) (e_send s) (fset (e_iq s) p l) (e_q s ++ [(i, p, None)]) (e_act s) (e_cyc s) (fset (e_rem s) p None))
  | es_ignore s p i l : p < n -> e_iq s p = i :: l -> e_rem s p = None ->
      estep s [] (mkEl (e_tasks s) (e_send s) (fset (e_iq s) p l) (e_q s) (e_act s) (e_cyc s) (e_rem s))
  (* _next_data *)
  | es_skip s i p t : e_tasks s = (i, p, None) :: t -> e_act s p = false -> estep s [] (with_tasks t s)
  | es_buffered s i p x t : e_tasks s = (i, p, Some x) :: t -> estep s [(p, x)] (try_put (with_tasks t s))
  | es_get_stop s i0 p0 t i p q : e_tasks s = (i0, p0, None) :: t -> e_act s p0 = true -> e_q s = (i, p, None) :: q ->
      estep s [] (try_put (mkEl (e_tasks s) (e_send s) (e_iq s) q (fset (e_act s) p false) (e_cyc s) (e_rem s)))
  | es_get_now s i0 p0 t p x q : e_tasks s = (i0, p0, None) :: t -> e_act s p0 = true -> e_q s = (i0, p, Some x) :: q ->
      estep s [(p, x)] (try_put (with_q q (with_tasks t s)))
  | es_get_later s i0 p0 t i p x q : e_tasks s = (i0, p0, None) :: t -> e_act s p0 = true -> e_q s = (i, p, Some x) :: q -> i <> i0 ->
      estep s [] (with_q q (with_tasks (map (fun t : task => if t_idx t =? i then (t_idx t, t_worker t, Some x) else t) (e_tasks s)) s)).

  (** StopIteration: no task is left *)
  Definition e_stops (s : el) : Prop := e_tasks s = [].

  Inductive eruns : el -> list (nat * X) -> el -> Prop :=
  | er_nil s : eruns s [] s
  | er_step s o s1 o' s2 : eruns s o s1 -> estep s1 o' s2 -> eruns s (o ++ o') s2.
End Epoch.
