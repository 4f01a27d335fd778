(** Model of wrappers/concat_dataset.py (lines 32-114).  Simplification: the constructor's length
    assertion (line 51) is not modelled. *)
From Coq Require Import String.
From Verif Require Import Base Dataset Multi.
Local Open Scope nat_scope.

Definition concat_name : atom := AStr "ConcatDataset".

Section Concat.
  Context {A : Type} (n : nat) (D : nat -> dataset A).

  Definition cc_obj : Type := forall i, ds_obj (D i).

  (** __iter__ (56-63): in dataset number [i], with its iterator *)
  Inductive cc_gen := CcAt (i : nat) (it : option (ds_gen (D i))).

  Definition cc_step (w : nat) (o : cc_obj) (g : cc_gen) : cc_obj * cc_gen * event (sample A) :=
    match g with
    | @CcAt i it =>
        if i <? n then
          match ds_step (D i) w (o i) (running it) with
          | (io, ig, Yield a) => (dupd o io, @CcAt i (Some ig), Yield (add_idx concat_name i a))
          | (io, ig, Tau) => (dupd o io, @CcAt i (Some ig), Tau)
          | (io, ig, Done) => (dupd o io, @CcAt (S i) None, Tau)
          | (io, ig, Raise e) => (dupd o io, g, Raise e)
          end
        else (o, g, Done)
    end.

  Definition concat_ds : dataset A :=
    {| ds_obj := cc_obj;
       ds_gen := cc_gen;
       ds_wst := forall i, ds_wst (D i);
       ds_mst := forall i, ds_mst (D i);
       ds_init := fun i => ds_init (D i);
       ds_iter := @CcAt 0 None;
       ds_step := cc_step;
       (* 68-71 *)
       ds_save := fun w o i => ds_save (D i) w (o i);
       (* 73-83 *)
       ds_merge := fun sts i => ds_merge (D i) (map (option_map (fun s => s i)) sts);
       (* 85-93 *)
       ds_restore := fun m o i => ds_restore (D i) (option_map (fun s => s i) m) (o i);
       (* 102-111 *)
       ds_restore_sample := fun w key =>
         match key with
         | AStr id :: AInt k :: key' =>
             if String.eqb id "ConcatDataset" then
               if k <? n then
                 match ds_restore_sample (D k) w key' with Ok a => Ok (add_idx concat_name k a) | Err e => Err e end
               else Err IndexError
             else Err AssertionError
         | _ => Err AssertionError
         end |}.
End Concat.
