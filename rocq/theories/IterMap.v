(** Model of wrappers/iter_map_dataset.py (IterMapDataset).

    [iter_map_fn] takes the iterator over the inner samples and is itself an iterator.  It is modelled as a
    state machine [iterfn]: in every state it either asks for the next input sample, yields a sample,
    returns, or raises.  What it does once its input has ended (after StopIteration from the input) is
    [if_end]: finitely many more samples and how it ends.  It may depend on the worker and on the sample
    index that is active (WorkerConfig.active_worker_sample_index) while it runs.

    Simplifications: the function does not catch exceptions of its input; an exception that escapes from
    the inner dataset ends the iteration (the code logs it if it is not a system exception, and then
    ends the epoch because the input generator is finished). *)
From Coq Require Import String.
From Verif Require Import Base Dataset Wrap Wrappers MapModel.
Local Open Scope list_scope.
Local Open Scope nat_scope.

Inductive iact (S A B : Type) : Type :=
| IPull (k : A -> S)        (* next(input) *)
| IYield (b : B) (s : S)
| IEnd                      (* return although the input has not ended *)
| IFail                     (* raise an exception that the error handler gets *)
| IFatal.                   (* raise one of SYSTEM_EXCEPTIONS *)
Arguments IPull {S A B} k.
Arguments IYield {S A B} b s.
Arguments IEnd {S A B}.
Arguments IFail {S A B}.
Arguments IFatal {S A B}.

Record iterfn (A B : Type) := mkIterfn {
  if_st : Type;
  if_start : if_st;                                           (* iter(iter_map_fn(input)) *)
  if_act : nat -> nat -> if_st -> iact if_st A B;             (* worker, sample index *)
  if_end : nat -> nat -> if_st -> list B * gend }.
Arguments if_st {A B} i.
Arguments if_start {A B} i.
Arguments if_act {A B} i.
Arguments if_end {A B} i.

Definition iter_name : atom := AStr "IterMapDataset".
(** set_sample_restore_key(sample, sample_idx, iter_idx, *sample_restore_keys, src=self): 133-139 *)
Definition iter_key (i k : nat) (keys : list rkey) : rkey := iter_name :: AInt i :: AInt k :: map ATup keys.

Section IterMap.
  Context {A B : Type} (nw : nat) (fn : iterfn A B) (stateless : bool).

  (** a running call of iter_map_fn: its state, and whether the input generator is already finished; or
      what remains after it saw the end of the input *)
  Inductive running := Body (ended : bool) (s : if_st fn) | Tail (ys : list B) (e : gend).

  (** program points of __iter__ (104-146): about to call [next] on iter_map_fn's iterator, inside that
      [next] with the sample index [i]. [k]: iter_idx, [keys]: sample_restore_keys *)
  Inductive im_gen := ImNext (r : running) (k : nat) (keys : list rkey) | ImIn (r : running) (i k : nat) (keys : list rkey).

  (** base.py:172-188 iter_ctx: get_next for every call of [next], also the one that ends; 128-146 *)
  Definition im_act (w : nat) (o : list nat) (g : im_gen) : action (list nat) im_gen A B :=
    match g with
    | ImNext r k keys => Local (upd o w (S (nth w o 0))) (ImIn r (nth w o 0) k keys) Tau
    | ImIn (Body ended s) i k keys =>
        match if_act fn w i s with
        | IPull g =>
            if ended then Local o (ImIn (Tail (fst (if_end fn w i s)) (snd (if_end fn w i s))) i k keys) Tau
            else Pull (fun x =>
              match x with
              | Some a => (o, ImIn (Body false (g (pl a))) i 0 (keys ++ [rk a]), Tau)       (* 114-120 *)
              | None => (o, ImIn (Tail (fst (if_end fn w i s)) (snd (if_end fn w i s))) i k keys, Tau)
              end)
        | IYield b s' => Local o (ImNext (Body ended s') (S k) []) (Yield (mkS b (iter_key i k keys)))
        | IEnd => Local o (ImNext (Body false (if_start fn)) 0 []) Done
        | IFail => Local o (ImNext (Body ended (if_start fn)) 0 keys) Tau                  (* 143-144, 127 *)
        | IFatal => Local o g (Raise OtherError)                                          (* 141-142 *)
        end
    | ImIn (Tail (b :: ys) e) i k keys => Local o (ImNext (Tail ys e) (S k) []) (Yield (mkS b (iter_key i k keys)))
    | ImIn (Tail [] e) i k keys =>
        match e with
        | GEnd => Local o (ImNext (Body false (if_start fn)) 0 []) Done
        | GSkip | GErr => Local o (ImNext (Body true (if_start fn)) 0 keys) Tau
        | GFatal => Local o g (Raise OtherError)
        end
    end.

  (** 181-214 restore_sample: run iter_map_fn on the restored samples [keys], and take the sample after
      skipping [k]; [i]: the index for the next sample. Every step uses up a key or a skip, so
      [fuel] = their number + 1 is enough. *)
  Fixpoint im_replay (rs : rkey -> result (sample A)) (w : nat) (fuel : nat) (s : if_st fn) (keys : list atom) (i k : nat) : result B :=
    match fuel with
    | O => Err OtherError
    | S fuel' =>
        match if_act fn w i s with
        | IPull g =>
            match keys with
            | [] => match nth_error (fst (if_end fn w i s)) k with Some b => Ok b | None => Err OtherError end
            | ATup key :: keys' => bind (rs key) (fun a => im_replay rs w fuel' (g (pl a)) keys' i k)
            | _ => Err ValueError
            end
        | IYield b s' => match k with O => Ok b | S k' => im_replay rs w fuel' s' keys (S i) k' end
        | IEnd => Err OtherError                           (* 206-209 RuntimeError *)
        | IFail | IFatal => Err OtherError
        end
    end.

  Definition itermap_ds : trans A B :=
    {| t_obj := list nat; t_gen := im_gen; t_wst := nat; t_mst := list nat; t_keep := false;
       t_init := repeat 0 nw;
       t_iter := ImNext (Body false (if_start fn)) 0 [];
       t_act := fun rs w o g => im_act w o g;
       (* 148-170 *)
       t_save := fun w o => nth w o 0;
       t_merge := merge_nat;
       t_restore := fun m o => restore_nat nw m;
       t_restore_sample := fun rs w key =>
         if stateless then
           match key with
           | AStr n :: AInt i :: AInt k :: keys =>
               if String.eqb n "IterMapDataset" then
                 bind (im_replay rs w (S (length keys + k)) (if_start fn) keys (i - k) k) (fun b =>
                   Ok (mkS b (AStr n :: AInt i :: AInt k :: keys)))
               else Err AssertionError
           | _ => Err ValueError
           end
         else Err AssertionError |}.
End IterMap.
Arguments Body {A B fn}.
Arguments Tail {A B fn}.

(** A function that treats every sample by itself, as in
      def iter_map_fn(input): for sample in input: yield from f(sample) *)
Definition per_sample {A B} (f : nat -> A -> list B * gend) : iterfn A B :=
  {| if_st := list B * gend;
     if_start := ([], GEnd);
     if_act := fun w i s =>
       match s with
       | (b :: ys, e) => IYield b (ys, e)
       | ([], GEnd) => IPull (fun a => f w a)
       | ([], GFatal) => IFatal
       | ([], _) => IFail
       end;
     if_end := fun w i s => ([], GEnd) |}.

(** A function that collects [size] samples and yields one made of them; the rest at the end, as in
      def iter_map_fn(input): while batch := list(islice(input, size)): yield f(batch) *)
Definition collect {A B} (size : nat) (f : nat -> nat -> list A -> B) : iterfn A B :=
  {| if_st := list A;
     if_start := [];
     if_act := fun w i s => if length s <? size then IPull (fun a => s ++ [a]) else IYield (f w i s) [];
     if_end := fun w i s => (match s with [] => [] | _ => [f w i s] end, GEnd) |}.
