(** Model of bringing samples back (restore_sample, and the buffers of packing and grouping datasets after a restore) when the
    functions below may draw from the global random generators: map_dataset.py:237-264 (restore_sample), 139-147 (the call),
    buffer.py:59-70 and 148-157 (the buffered samples are made again, one after the other, in the worker, after
    savable_loader.py:367-369 has put back the generators), task_encoder/base.py:188-203 (stateless(restore_seeds=True)),
    239-251 and 439-466 (the map of the cookers is marked stateless whatever the cookers do).

    The three global generators are one state of type [G], as in RandomFns.v. *)
From Coq Require Import String.
From Verif Require Import Base Dataset Wrap Wrappers MapModel Batch RandomFns.

Section RandomRestore.
  Context {V G : Type}.

  (** A function that is marked stateless: plainly (@stateless, and every cooker), or with restore_seeds=True.
      [Plain f]: called with the generators as they are.
      [Seeded f]: base.py:188-203: the generators are seeded with the worker seed and the sample index, and put back afterwards.
      Simplification: functions, not generator functions; the cached worker seed is the worker's own (see C47). *)
  Inductive marked :=
  | Plain (f : G -> nat -> nat -> V -> ures V * G)
  | Seeded (f : G -> V -> ures V * G).

  Variable seed_args : nat -> nat -> G.            (* SystemRng.seed_args(worker_seed, current_sample_index) *)

  Definition call (m : marked) (g : G) (w i : nat) (x : V) : ures V * G :=
    match m with
    | Plain f => f g w i x
    | Seeded f => (fst (f (seed_args w i) x), g)
    end.

  (** the chain of map datasets, innermost first *)
  Definition chain (ms : list marked) : list (rstage V G) := map (fun m => RMap (call m)) ms.

  Variable rs : rkey -> result (sample V).         (* restore_sample of the dataset below *)

  (** map_dataset.py:237-264 restore_sample of the chain, outermost first *)
  Fixpoint restore_chain (ms : list marked) (w : nat) (g : G) (key : rkey) : result (sample V) * G :=
    match ms with
    | [] => (rs key, g)
    | m :: ms' =>
        match key with
        | AStr n :: AInt i :: inner =>
            if String.eqb n "MapDataset" then
              match restore_chain ms' w g inner with
              | (Ok a, g1) =>
                  match call m g1 w i (pl a) with
                  | (UOk b, g2) => (Ok (mkS b (map_key i (rk a))), g2)
                  | (_, g2) => (Err OtherError, g2)
                  end
              | (Err e, g1) => (Err e, g1)
              end
            else (Err AssertionError, g)
        | _ => (Err ValueError, g)
        end
    end.
  Definition random_restore (ms : list marked) : nat -> G -> rkey -> result (sample V) * G := restore_chain (rev ms).

  (** buffer.py:148-157 restore_samples, called by worker_start: one after the other *)
  Fixpoint refill (ms : list marked) (w : nat) (g : G) (keys : list rkey) : result (list (sample V)) * G :=
    match keys with
    | [] => (Ok [], g)
    | k :: keys' =>
        match random_restore ms w g k with
        | (Ok a, g1) =>
            match refill ms w g1 keys' with
            | (Ok l, g2) => (Ok (a :: l), g2)
            | (Err e, g2) => (Err e, g2)
            end
        | (Err e, g1) => (Err e, g1)
        end
    end.
End RandomRestore.
Arguments marked : clear implicits.
