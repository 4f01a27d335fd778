(** Model of savable_loader.py: SavableDataLoader (615-1012) with num_workers > 0, on one rank, together with the
    behaviour of PyTorch's DataLoader it relies on.

    PyTorch (not part of the repository; modelled as documented): worker processes 0..n-1, samples are
    fetched from the processes in turn starting with process 0; a process may have at most
    prefetch_factor samples requested but not yet fetched; requests are served in any interleaving.

    Restriction: the dataset is endless (training): the end of an epoch is not modelled here. *)
From Verif Require Import Base Dataset Loader.
Local Open Scope nat_scope.

Definition fupd {V} (f : nat -> V) (p : nat) (v : V) : nat -> V := fun x => if x =? p then v else f x.

Section Sys.
  Context {P : Type} (D : dataset P) (rank n prefetch min_n n_cp : nat).

  (** worker.py:158-169 rank_worker_id in process [p] when worker_id_offset = [off]; and 190-205 *)
  Definition lw (off p : nat) : nat := (p + n - off) mod n.
  (** the process that is logical worker [l] *)
  Definition proc (off l : nat) : nat := (l + off) mod n.
  Definition gid (l : nat) : nat := rank * n + l.

  (** y_wk, y_q, y_rcv: per process: the worker, its samples not yet fetched, number of fetched samples;
      y_next: process to fetch from next; y_ctr: _worker_sample_counters (per logical worker);
      y_nid: _next_worker_id *)
  Record sys := mkSys {
    y_off : nat; y_wk : nat -> wstate D; y_q : nat -> list (nat * sample P); y_rcv : nat -> nat;
    y_next : nat; y_ctr : nat -> nat; y_nid : nat }.

  Inductive sstep : sys -> list (sample P) -> sys -> Prop :=
  | ss_produce y p i a s' :
      p < n -> length (y_q y p) < prefetch ->
      wnext (lw (y_off y) p) (gid (lw (y_off y) p)) min_n n_cp (y_wk y p) (Emit i a) s' ->
      sstep y [] (mkSys (y_off y) (fupd (y_wk y) p s') (fupd (y_q y) p (y_q y p ++ [(i, a)])) (y_rcv y)
                    (y_next y) (y_ctr y) (y_nid y))
  (* savable_loader.py:808-840 InnerIterator.__next__ *)
  | ss_receive y i a rest :
      y_q y (y_next y) = (i, a) :: rest ->
      sstep y [a] (mkSys (y_off y) (y_wk y) (fupd (y_q y) (y_next y) rest)
                     (fupd (y_rcv y) (y_next y) (S (y_rcv y (y_next y)))) ((y_next y + 1) mod n)
                     (fupd (y_ctr y) (lw (y_off y) (y_next y)) i) ((lw (y_off y) (y_next y) + 1) mod n)).

  Inductive sruns : sys -> list (sample P) -> sys -> Prop :=
  | sr_nil y : sruns y [] y
  | sr_step y o1 y1 o2 y2 : sstep y o1 y1 -> sruns y1 o2 y2 -> sruns y (o1 ++ o2) y2.

  (** a new loader: savable_loader.py:696-770; the counters start at 0 *)
  Definition s_fresh : sys :=
    mkSys 0 (fun _ => w_fresh D) (fun _ => []) (fun _ => 0) 0 (fun _ => 0) 0.

  (** savable_loader.py:862-912 _worker_command("get_checkpoint", counters), save_state_rank *)
  Definition save_state (y : sys) : result (list (checkpoint D * nat) * nat) :=
    bind (sequence (map (fun l => get_checkpoint (y_wk y (proc (y_off y) l)) (y_ctr y l)) (seq 0 n)))
         (fun cks => Ok (cks, y_nid y)).

  (** savable_loader.py:914-931 restore_state_rank into a newly constructed loader *)
  Definition restore_state (st : list (checkpoint D * nat) * nat) : sys :=
    let (cks, k) := st in
    mkSys k (fun p => w_restored (lw k p) cks) (fun _ => []) (fun _ => 0) 0 (fun _ => 0) 0.

  (** the loader can return the samples [outs] *)
  Definition returns (y : sys) (outs : list (sample P)) : Prop := exists y', sruns y outs y'.

  (** the loader [y], but fetching from logical worker [l] next *)
  Definition starting_at (y : sys) (l : nat) : sys :=
    mkSys (y_off y) (y_wk y) (y_q y) (y_rcv y) (proc (y_off y) l) (y_ctr y) l.

  (** every worker has contributed a sample since the loader was (re)started *)
  Definition all_started (y : sys) : Prop := forall p, p < n -> 0 < y_rcv y p.

  (** reachable loader states: new, running, and restored from a state saved when all workers had
      contributed *)
  Inductive sreach : sys -> Prop :=
  | sreach_fresh : sreach s_fresh
  | sreach_step y o y' : sreach y -> sstep y o y' -> sreach y'
  | sreach_restore y st : sreach y -> all_started y -> save_state y = Ok st -> sreach (restore_state st).
End Sys.
