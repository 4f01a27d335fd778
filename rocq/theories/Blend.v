(** Model of wrappers/blend_dataset.py (lines 38-155).  [weight i] is dataset i's weight and [has i w] is
    its worker_has_samples() in worker w (which does not change over time). *)
From Coq Require Import String QArith.
From Verif Require Import Base Dataset Rng Multi.
Local Close Scope Q_scope.
Local Open Scope nat_scope.

Definition blend_name : atom := AStr "BlendDataset".

Section Blend.
  Context {A : Type} (R : rng_ops) (n : nat) (D : nat -> dataset A) (weight : nat -> Q) (has : nat -> nat -> bool).

  (** 79-85: the datasets that have samples for this worker *)
  Definition live (w : nat) : list nat := filter (fun i => has i w) (seq 0 n).

  (** 87-88: torch.tensor(weights) / weights.sum().  Simplification: exact rationals for float32. *)
  Definition qsum (l : list Q) : Q := fold_right Qplus 0%Q l.
  Definition probs (w : nat) : list Q :=
    let ws := map weight (live w) in map (fun x => (x / qsum ws)%Q) ws.

  (** torch.multinomial raises on nan (all weights zero); with one alternative it is not called *)
  Definition drawable (w : nat) : bool :=
    (length (live w) =? 1) || existsb (fun i => negb (Qle_bool (weight i) 0)) (live w).

  Record bl_obj := mkBl { bl_rng : wrng R; bl_in : forall i, ds_obj (D i) }.

  (** __iter__ (77-94) before the first statement, before choice_idx, and inside
      next(dataset_iters[ds_idx]); [its] are the iterators inside the _repeat generators *)
  Inductive bl_gen :=
  | BlStart
  | BlPick (its : forall i, option (ds_gen (D i)))
  | BlPull (its : forall i, option (ds_gen (D i))) (k : nat).

  Definition bl_step (w : nat) (o : bl_obj) (g : bl_gen) : bl_obj * bl_gen * event (sample A) :=
    match g with
    | BlStart =>
        match live w with
        | [] => (o, g, Raise AssertionError)                              (* 78 *)
        | _ => (o, BlPick (fun _ => None), Tau)
        end
    | BlPick its =>
        if drawable w then
          let '(k, r) := wrng_choice_idx w (probs w) (bl_rng o) in         (* 91 *)
          (mkBl r (bl_in o), BlPull its k, Tau)
        else (o, g, Raise RuntimeError)
    | BlPull its k =>                                                     (* 92-93 and _repeat, 73-75 *)
        match nth_error (live w) k with
        | None => (o, g, Raise IndexError)
        | Some i =>
            match ds_step (D i) w (bl_in o i) (running (its i)) with
            | (io, ig, Yield a) => (mkBl (bl_rng o) (dupd (bl_in o) io), BlPick (dupd its (Some ig)), Yield (add_idx blend_name k a))
            | (io, ig, Tau) => (mkBl (bl_rng o) (dupd (bl_in o) io), BlPull (dupd its (Some ig)) k, Tau)
            | (io, ig, Done) => (mkBl (bl_rng o) (dupd (bl_in o) io), BlPull (@dupd (fun i => option (ds_gen (D i))) its i None) k, Tau)
            | (io, ig, Raise e) => (mkBl (bl_rng o) (dupd (bl_in o) io), g, Raise e)
            end
        end
    end.

  Definition blend_ds : dataset A :=
    {| ds_obj := bl_obj;
       ds_gen := bl_gen;
       ds_wst := option (rng_t R) * (forall i, ds_wst (D i));
       ds_mst := list (option (rng_t R)) * (forall i, ds_mst (D i));
       ds_init := mkBl (wrng_init R) (fun i => ds_init (D i));
       ds_iter := BlStart;
       ds_step := bl_step;
       (* 99-103 *)
       ds_save := fun w o => (wrng_save w (bl_rng o), fun i => ds_save (D i) w (bl_in o i));
       (* 105-114 *)
       ds_merge := fun sts => (wrng_merge (map (option_map fst) sts),
                               fun i => ds_merge (D i) (map (option_map (fun s => snd s i)) sts));
       (* 116-129 *)
       ds_restore := fun m o =>
         mkBl (wrng_restore (option_map fst m) (bl_rng o))
              (fun i => ds_restore (D i) (option_map (fun s => snd s i) m) (bl_in o i));
       (* 138-147: the index is taken in the list of all datasets *)
       ds_restore_sample := fun w key =>
         match key with
         | AStr id :: AInt k :: key' =>
             if String.eqb id "BlendDataset" then
               if k <? n then
                 match ds_restore_sample (D k) w key' with Ok a => Ok (add_idx blend_name k a) | Err e => Err e end
               else Err IndexError
             else Err AssertionError
         | _ => Err AssertionError
         end |}.
End Blend.
