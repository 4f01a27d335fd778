(** Model of the two threads of a worker process (savable_loader.py:306-338 _command_thread, 353-426 __iter__, 428-457
    _store_checkpoint, 515-534 get_checkpoint), step by step, and of the main process' side of the command queues (862-876
    _worker_command).

    The iterating thread and the command thread share the list _last_checkpoints and the lock _command_lock.  Every access to
    the list is a step of its own, and the steps of the two threads interleave in any way.

    What the iterating thread computes between two yields is the relation [wnext] of Loader.v; here only its accesses to the
    list and to the lock are refined.  Simplifications: reading the clock and saving the dataset's state belong to the step
    that computes the next sample; the threads' access to the queues is reliable. *)
From Verif Require Import Base Dataset Loader.
Local Open Scope nat_scope.

Section Threads.
  Context {P : Type} (D : dataset P) (w gid min_n n_cp : nat).
  Notation cp := (checkpoint D).
  Notation ws := (wstate D).

  Inductive who := Iterator | Commands.

  (** the iterating thread; [s]: the worker as of the last yield (Loader.v), [s']: as of the coming one *)
  Inductive ipc :=
  | IBoot (s : ws)                    (* the command thread has been started (360-371); not yet at 373 *)
  | IBoot1 (s : ws)                   (* 373: has the lock, is about to restore (374-376, 485-513) *)
  | IPark (s : ws)                    (* suspended at the yield (403), or the generator has ended *)
  | IWant (s : ws)                    (* asked for the next sample: waits for the lock (406; 373 in a new generator) *)
  | IHold (s : ws)                    (* has the lock, computes (384-396) *)
  | IPush (s s' : ws) (c : option cp) (* _store_checkpoint (399): about to append [c], if due *)
  | IPop (s s' : ws) (c : option cp)  (* has appended (447), about to discard the oldest (455-456) *)
  | IRel (s' : ws)                    (* about to release the lock (401) *)
  | IOut (s s' : ws) (c : cp)         (* the with block has been left, the lock released; the outer finally (423-426): about to append *)
  | IOut1 (s s' : ws) (c : cp).       (* has appended, about to discard the oldest *)

  (** the command thread *)
  Inductive cpc :=
  | CIdle                             (* waits for a command (316-319) *)
  | CWant (k : nat)                   (* get_checkpoint, last received sample [k]; waits for the lock (321) *)
  | CCall (k : nat)                   (* has the lock; about to call reversed(_last_checkpoints) (526) *)
  | CScan (k pos : nat)               (* the reversed iterator looks at index pos - 1 next *)
  | CAns (k : nat) (r : result (cp * nat)). (* about to put the answer into the result queue and to release the lock (327-335) *)

  Record threads := mkT { h_mem : list cp; h_lock : option who; h_it : ipc; h_ct : cpc }.

  (** what the outside sees *)
  Inductive label := LTau | LAsk (k : nat) | LAnswer (k : nat) (r : result (cp * nat)).

  Definition push (c : option cp) (l : list cp) : list cp := match c with Some x => l ++ [x] | None => l end.
  Definition pop (c : option cp) (l : list cp) : list cp :=
    match c with Some _ => if n_cp <? length l then tl l else l | None => l end.

  Inductive tstep : threads -> label -> threads -> Prop :=
  (* the iterating thread *)
  | t_boot m s c : tstep (mkT m None (IBoot s) c) LTau (mkT m (Some Iterator) (IBoot1 s) c)
  | t_restore m s c : tstep (mkT m (Some Iterator) (IBoot1 s) c) LTau (mkT (k_cps s) (Some Iterator) (IHold s) c)
  | t_request m l s c : tstep (mkT m l (IPark s) c) LTau (mkT m l (IWant s) c)
  | t_acquire m s c : tstep (mkT m None (IWant s) c) LTau (mkT m (Some Iterator) (IHold s) c)
  | t_compute m s i a s' x c : wnext w gid min_n n_cp s (Emit i a) s' -> k_cps s' = pop x (push x m) ->
      (forall y, x = Some y -> cp_index y = k_index s') ->
      tstep (mkT m (Some Iterator) (IHold s) c) LTau (mkT m (Some Iterator) (IPush s s' x) c)
  | t_push m l s s' x c : tstep (mkT m l (IPush s s' x) c) LTau (mkT (push x m) l (IPop s s' x) c)
  | t_pop m l s s' x c : tstep (mkT m l (IPop s s' x) c) LTau (mkT (pop x m) l (IRel s') c)
  | t_release m s' c : tstep (mkT m (Some Iterator) (IRel s') c) LTau (mkT m None (IPark s') c)
  | t_out m s e s' x c : wnext w gid min_n n_cp s e s' -> (forall i a, e <> Emit i a) -> k_cps s' = pop (Some x) (push (Some x) m) ->
      cp_index x = k_index s' ->
      tstep (mkT m (Some Iterator) (IHold s) c) LTau (mkT m None (IOut s s' x) c)
  | t_out_push m l s s' x c : tstep (mkT m l (IOut s s' x) c) LTau (mkT (push (Some x) m) l (IOut1 s s' x) c)
  | t_out_pop m l s s' x c : tstep (mkT m l (IOut1 s s' x) c) LTau (mkT (pop (Some x) m) l (IPark s') c)
  (* the command thread *)
  | t_ask m l i k : tstep (mkT m l i CIdle) (LAsk k) (mkT m l i (CWant k))
  | t_lock m i k : tstep (mkT m None i (CWant k)) LTau (mkT m (Some Commands) i (CCall k))
  | t_call m l i k : tstep (mkT m l i (CCall k)) LTau (mkT m l i (CScan k (length m)))
  (* the iterator of reversed(list) ends if its index has become invalid (CPython, listreviter_next) *)
  | t_end m l i k : tstep (mkT m l i (CScan k 0)) LTau (mkT m l i (CAns k (Err ValueError)))
  | t_gone m l i k p : nth_error m p = None -> tstep (mkT m l i (CScan k (S p))) LTau (mkT m l i (CAns k (Err ValueError)))
  | t_found m l i k p x : nth_error m p = Some x -> cp_index x <= k + 1 ->
      tstep (mkT m l i (CScan k (S p))) LTau (mkT m l i (CAns k (Ok (x, k + 1 - cp_index x))))
  | t_older m l i k p x : nth_error m p = Some x -> k + 1 < cp_index x ->
      tstep (mkT m l i (CScan k (S p))) LTau (mkT m l i (CScan k p))
  | t_answer m i k r : tstep (mkT m (Some Commands) i (CAns k r)) (LAnswer k r) (mkT m None i CIdle).

  (** the worker process has just started its two threads; [s]: [w_fresh] or [w_restored] (Loader.v).  The list is the one
      made in __init__ (290-295), also in a restored worker (its own is made in _restore_state, 506-513) *)
  Definition t_init (s : ws) : threads := mkT [mkCp None 0] None (IBoot s) CIdle.

  (** [tpath x l y]: a run; [l]: the states it passes through before [y], with the labels of the steps *)
  Inductive tpath : threads -> list (threads * label) -> threads -> Prop :=
  | tp_nil x : tpath x [] x
  | tp_cons x a y l z : tstep x a y -> tpath y l z -> tpath x ((x, a) :: l) z.
End Threads.

(** ** the main process' side *)
Section Queues.
  Context {A B : Type} (n : nat) (answer : nat -> A -> B).
  (** requests and answers of one command for all [n] workers: a command is put into every command queue (865-866), then one
      answer is taken from every result queue in turn (869).  [q_cmd], [q_res]: per worker *)
  Record queues := mkQ { q_cmd : nat -> list A; q_res : nat -> list B }.

  (** the worker processes: serve the oldest command, at any time *)
  Inductive served : queues -> queues -> Prop :=
  | sv_refl q : served q q
  | sv_step q i a cs q' : q_cmd q i = a :: cs ->
      served (mkQ (fun j => if j =? i then cs else q_cmd q j)
                  (fun j => if j =? i then q_res q i ++ [answer i a] else q_res q j)) q' ->
      served q q'.

  (** taking one answer from the queues [i], ..., [i + length rs - 1] in turn; blocks until there is one *)
  Inductive collect : nat -> queues -> list B -> queues -> Prop :=
  | co_nil i q : collect i q [] q
  | co_cons i q q1 r rs rest q2 : served q q1 -> q_res q1 i = r :: rest ->
      collect (S i) (mkQ (q_cmd q1) (fun j => if j =? i then rest else q_res q1 j)) rs q2 ->
      collect i q (r :: rs) q2.

  Definition put_all (a : A) (q : queues) : queues := mkQ (fun i => if i <? n then q_cmd q i ++ [a] else q_cmd q i) (q_res q).

  (** _worker_command(a): Some answers, or None if it was interrupted (KeyboardInterrupt) while waiting for an answer *)
  Inductive command (a : A) : queues -> option (list B) -> queues -> Prop :=
  | cm_done q rs q' : length rs = n -> collect 0 (put_all a q) rs q' -> command a q (Some rs) q'
  | cm_interrupted q rs q' : length rs < n -> collect 0 (put_all a q) rs q' -> command a q None q'.

  Inductive commands : queues -> list (A * option (list B)) -> queues -> Prop :=
  | cs_nil q : commands q [] q
  | cs_cons a r q q1 l q2 : command a q r q1 -> commands q1 l q2 -> commands q ((a, r) :: l) q2.

  Definition q_empty : queues := mkQ (fun _ => []) (fun _ => []).
End Queues.
Arguments CIdle {P D}.
Arguments CWant {P D} k.
Arguments CCall {P D} k.
Arguments CScan {P D} k pos.
Arguments LTau {P D}.
Arguments LAsk {P D} k.
