(** Model of worker.py: WorkerConfig. *)
From Coq Require Import String Ascii DecimalString DecimalZ.
From Verif Require Import Base.
Local Open Scope Z_scope.

(** worker.py:32-57, the per-object configuration that matters here. *)
Record wcfg := mkCfg { rank : Z; world_size : Z; num_workers : Z; seed_offset : Z }.

(** The class-level variables of WorkerConfig (worker.py:46, 70-75) plus what
    torch.utils.data.get_worker_info() returns in this process: None in the main process, Some (id, num_workers) in a
    data loader worker. [active] stands for active_worker_config being set. *)
Record wenv := mkEnv {
  winfo : option (Z * Z);
  id_offset : Z;
  active : bool;
  stack : list Z;              (* _sample_index_stack, innermost last *)
  override : option Z
}.

(** worker.py:158-169 rank_worker_id.  [if self._worker_override_global_rank:] is false for 0. *)
Definition rank_worker_id (c : wcfg) (e : wenv) : result Z :=
  match (match override e with Some 0 => None | o => o end) with
  | Some r =>
      if negb (id_offset e =? 0) then Err AssertionError
      else if num_workers c =? 0 then Err ZeroDivisionError
      else Ok (r mod num_workers c)
  | None =>
      match winfo e with
      | None => Ok (id_offset e)
      | Some (id, n) =>
          if negb (n =? num_workers c) then Err AssertionError
          else if n =? 0 then Err ZeroDivisionError
          else Ok ((id + n - id_offset e) mod n)
      end
  end.

(** worker.py:171-182 assert_worker *)
Definition assert_worker (c : wcfg) (e : wenv) : result unit :=
  if num_workers c <=? 1 then
    bind (rank_worker_id c e) (fun i => if i =? 0 then Ok tt else Err AssertionError)
  else match winfo e with
       | None => Err AssertionError
       | Some (_, n) => if n =? num_workers c then Ok tt else Err AssertionError
       end.

(** worker.py:184-200 global_worker_id *)
Definition global_worker_id (c : wcfg) (e : wenv) (local : option Z) : result Z :=
  match override e with
  | Some r => match local with None => Ok r | Some _ => Err AssertionError end
  | None =>
      match local with
      | Some l => Ok (rank c * num_workers c + l)
      | None => bind (assert_worker c e) (fun _ =>
                bind (rank_worker_id c e) (fun l => Ok (rank c * num_workers c + l)))
      end
  end.

(** the text that is hashed: f"{global_worker_id},{seed_offset}" (worker.py:221) *)
Definition str_of_Z (z : Z) : string := NilEmpty.string_of_int (Z.to_int z).
Definition seed_text (gid off : Z) : string := (str_of_Z gid ++ "," ++ str_of_Z off)%string.

(** worker.py:202-223 worker_seed; [sha1] is the digest as a big-endian integer. *)
Definition worker_seed (sha1 : string -> Z) (c : wcfg) (e : wenv) (local : option Z) : result Z :=
  bind (if num_workers c =? 0 then Ok (rank c) else global_worker_id c e local)
       (fun gid => Ok (Z.land (sha1 (seed_text gid (seed_offset c))) 4294967295)).

(** *** sample index stack, worker.py:77-124 *)
Definition worker_activate (idx : Z) (ov : option Z) (e : wenv) : result wenv :=
  if active e then Err AssertionError
  else Ok (mkEnv (winfo e) (id_offset e) true [idx] ov).

Definition worker_push (idx : Z) (e : wenv) : result wenv :=
  if active e then Ok (mkEnv (winfo e) (id_offset e) true (stack e ++ [idx]) (override e))
  else Err AssertionError.

Definition worker_pop (e : wenv) : result (Z * wenv) :=
  if active e then
    match rev (stack e) with
    | [] => Err IndexError
    | x :: r => Ok (x, mkEnv (winfo e) (id_offset e) true (rev r) (override e))
    end
  else Err AssertionError.

Definition worker_deactivate (e : wenv) : result wenv :=
  if active e then
    if (length (stack e) =? 1)%nat then Ok (mkEnv (winfo e) (id_offset e) false [] None)
    else Err AssertionError
  else Ok e.

Definition active_sample_index (c : wcfg) (e : wenv) : result Z :=
  match rev (stack e) with
  | [] => Err TypeError
  | x :: _ => bind (rank_worker_id c e) (fun l => Ok (x * Z.max (num_workers c) 1 + l))
  end.

Definition active_batch_index (c : wcfg) (e : wenv) : result Z :=
  match stack e with
  | [] => Err TypeError
  | x :: _ => bind (rank_worker_id c e) (fun l => Ok (x * Z.max (num_workers c) 1 + l))
  end.

(** wrappers/base.py:150-166 SampleIndex.ctx: push, run the body, pop in `finally` and check that
    the popped index is the pushed one.  The body is any function of the environment; it may raise. *)
Definition with_ctx {X} (idx : Z) (body : wenv -> wenv * result X) (e : wenv) : wenv * result X :=
  match worker_push idx e with
  | Err x => (e, Err x)
  | Ok e1 =>
      let '(e2, r) := body e1 in
      match worker_pop e2 with
      | Err x => (e2, Err x)
      | Ok (p, e3) => if p =? idx then (e3, r) else (e3, Err AssertionError)
      end
  end.

(** A body built from nested contexts and reads of the indexes: every user function the wrappers
    call runs inside such a nest.  [reads] collects (sample index, batch index) seen at each read. *)
Inductive body :=
| BRead                       (* user code looks at the active sample/batch index *)
| BRaise (x : exn)            (* user code raises *)
| BCtx (idx : Z) (b : body)   (* with SampleIndex.ctx(idx): b *)
| BSeq (b1 b2 : body).

Fixpoint run_body (c : wcfg) (b : body) (e : wenv) : wenv * result (list (Z * Z)) :=
  match b with
  | BRead =>
      (e, bind (active_sample_index c e) (fun s => bind (active_batch_index c e) (fun t => Ok [(s, t)])))
  | BRaise x => (e, Err x)
  | BCtx idx b => with_ctx idx (run_body c b) e
  | BSeq b1 b2 =>
      match run_body c b1 e with
      | (e1, Err x) => (e1, Err x)
      | (e1, Ok l1) => match run_body c b2 e1 with
                       | (e2, Err x) => (e2, Err x)
                       | (e2, Ok l2) => (e2, Ok (l1 ++ l2))
                       end
      end
  end.
