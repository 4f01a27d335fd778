(** Model of the decorator stateless(restore_seeds=True), task_encoder/base.py:110-204, and of
    SystemRng, rng.py:120-183.

    A decorated function is arbitrary code that uses the process' three global random generators; it
    is modelled as a function from their states to its result and their states (for a generator
    function: from one yield to the next).
    Simplifications: the function depends on its arguments and the generators only (plus the index it is
    seeded with); closing a suspended generator is not modelled. *)
From Coq Require Import String.
From Verif Require Import Base WorkerConfig.
Local Open Scope Z_scope.

(** the libraries' generators: a state type and manual_seed for each; get_state / set_state return and
    overwrite the whole state *)
Record libs := mkLibs {
  l_torch : Type; l_numpy : Type; l_random : Type;
  seed_torch : Z -> l_torch; seed_numpy : Z -> l_numpy; seed_random : Z -> l_random }.

Section Stateless.
  Variables (L : libs) (sha1 : string -> Z).

  (** the global generators of a process; also SystemRngState (rng.py:120-136) *)
  Record sysrng := mkRng { g_torch : l_torch L; g_numpy : l_numpy L; g_random : l_random L }.

  (** rng.py:143-148 *)
  Definition rng_seed (n : Z) : sysrng := mkRng (seed_torch L n) (seed_numpy L n) (seed_random L n).

  (** rng.py:168-183: "|".join(str(arg)); the first four bytes of the digest *)
  Definition args_text (a b : Z) : string := (str_of_Z a ++ "|" ++ str_of_Z b)%string.
  Definition seed_from_args (a b : Z) : Z := Z.shiftr (sha1 (args_text a b)) 128.

  (** a process: its generators and the variable [worker_seed] of the decorated function's closure *)
  Record proc := mkProc { p_rng : sysrng; p_seed : option Z }.

  Definition save_state (p : proc) : sysrng := p_rng p.                            (* rng.py:150-157 *)
  Definition restore_state (s : sysrng) (p : proc) : proc := mkProc s (p_seed p).  (* rng.py:159-164 *)

  (** base.py:139-141 / 184-186: worker_seed of the active config at the first call, then the cached one *)
  Definition get_worker_seed (c : wcfg) (e : wenv) (p : proc) : result Z * proc :=
    match p_seed p with
    | Some s => (Ok s, p)
    | None =>
        if active e then
          match worker_seed sha1 c e None with
          | Ok s => (Ok s, mkProc (p_rng p) (Some s))
          | Err x => (Err x, p)
          end
        else (Err OtherError, p)                            (* None.worker_seed(): AttributeError *)
    end.

  (** base.py:613-625 current_sample_index *)
  Definition current_sample_index (c : wcfg) (e : wenv) : result Z :=
    if active e then active_sample_index c e else Err AssertionError.

  Section Plain.
    Variables (X Y : Type) (fn : X -> sysrng -> result Y * sysrng).

    (** base.py:182-199 seed_wrapper *)
    Definition seed_wrapper (c : wcfg) (e : wenv) (x : X) (p : proc) : result Y * proc :=
      match get_worker_seed c e p with
      | (Err err, p1) => (Err err, p1)
      | (Ok ws, p1) =>
          let rng_state := save_state p1 in
          match current_sample_index c e with
          | Err err => (Err err, p1)
          | Ok idx =>
              let p2 := restore_state (rng_seed (seed_from_args ws idx)) p1 in
              let '(y, g) := fn x (p_rng p2) in
              let p3 := mkProc g (p_seed p2) in
              (y, restore_state rng_state p3)               (* finally *)
          end
      end.
  End Plain.

  Section Gen.
    (** a generator function: [g_start x] is the suspended generator; [g_next] runs it to its next yield *)
    Variables (X Y : Type).
    Inductive gout := GYield (y : Y) | GStop | GRaise (x : exn).
    Record genfn := mkGen { g_st : Type; g_start : X -> g_st; g_next : g_st -> sysrng -> gout * g_st * sysrng }.
    Variable fn : genfn.

    (** the wrapping generator: not started; suspended at the yield (line 174) with its variables [it] and
        inner_rand_state; finished *)
    Inductive wgen := WInit (x : X) | WAt (it : g_st fn) (inner : sysrng) | WEnd.

    (** base.py:155-170: the body of the loop, up to the yield *)
    Definition w_body (it : g_st fn) (inner : option sysrng) (outer : sysrng) (p : proc) : gout * wgen * proc :=
      let p1 := match inner with Some s => restore_state s p | None => p end in
      let '(o, it', g) := g_next it (p_rng p1) in
      let p2 := mkProc g (p_seed p1) in
      let inner' := save_state p2 in
      let p3 := restore_state outer p2 in                   (* finally, in all three cases *)
      match o with
      | GYield y => (GYield y, WAt it' inner', p3)
      | GStop => (GStop, WEnd, p3)
      | GRaise e => (GRaise e, WEnd, p3)
      end.

    (** base.py:137-179 seed_wrapper_generator: one call of next() *)
    Definition w_next (c : wcfg) (e : wenv) (w : wgen) (p : proc) : gout * wgen * proc :=
      match w with
      | WInit x =>
          match get_worker_seed c e p with
          | (Err err, p1) => (GRaise err, WEnd, p1)
          | (Ok ws, p1) =>
              let outer := save_state p1 in
              match current_sample_index c e with
              | Err err => (GRaise err, WEnd, p1)
              | Ok idx =>
                  let p2 := restore_state (rng_seed (seed_from_args ws idx)) p1 in
                  w_body (g_start fn x) None outer p2
              end
          end
      | WAt it inner =>
          let outer := save_state p in                      (* line 179 *)
          w_body it (Some inner) outer p
      | WEnd => (GStop, WEnd, p)
      end.
  End Gen.
End Stateless.
Arguments g_st {L X Y}.
Arguments g_start {L X Y}.
Arguments g_next {L X Y}.
Arguments WEnd {L X Y fn}.

(** When a sample is restored, savable_loader.py:579-592 activates the config in the main process, with the
    worker's global id as override, and the wrappers push the sample index found in the key *)
Definition restoring_env (off : Z) (g : Z) (stack : list Z) : wenv := mkEnv None off true stack (Some g).
(** while iterating: in the worker process with torch's worker id [id] *)
Definition iterating_env (c : wcfg) (off id : Z) (stack : list Z) : wenv := mkEnv (Some (id, num_workers c)) off true stack None.
