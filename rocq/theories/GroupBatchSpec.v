(** What grouped batching means. *)
From Coq Require Import String.
From Verif Require Import Base Dataset WrapSpec Wrappers BatchSpec.

Section Spec.
  Context {A B K : Type} (keq : K -> K -> bool).

  (** the entries with key [k], in order *)
  Definition of_key {X} (k : K) (l : list (K * X)) : list X := map snd (filter (fun p => keq (fst p) k) l).

  (** the order in which the groups of an epoch come out. A group is completed by the arrival of its last
      sample: the sample number [n] (from 0) of [l] completes a group if the number of samples with its
      key so far is a multiple of the group size; the group is then the last [size k] of them *)
  Definition completed {X} (size : K -> nat) (l : list (K * X)) : list (K * list X) :=
    flat_map (fun n =>
      match nth_error l n with
      | Some (k, _) =>
          let s := of_key k (firstn (S n) l) in
          if length s mod size k =? 0 then [(k, skipn (length s - size k) s)] else []
      | None => []
      end) (seq 0 (length l)).
  (** every key once, in the order of their first arrival *)
  Definition first_seen (ks : list K) : list K :=
    fold_left (fun seen k => if existsb (fun k' => keq k' k) seen then seen else seen ++ [k]) ks [].
  (** what is left over of every key at the end *)
  Definition unfinished {X} (size : K -> nat) (l : list (K * X)) : list (K * list X) :=
    flat_map (fun k =>
      let s := of_key k l in
      match skipn (length s - length s mod size k) s with [] => [] | r => [(k, r)] end) (first_seen (map fst l)).
  Definition in_order {X} (size : K -> nat) (drop : bool) (l : list (K * X)) : list (K * list X) :=
    completed size l ++ if drop then [] else unfinished size l.

  (** [cls i x]: the group of the [i]-th sample, or None if it is to be left out *)
  Variable cls : nat -> A -> option K.
  Fixpoint classified (i : nat) (xs : list (sample A)) : list (K * sample A) :=
    match xs with
    | [] => []
    | a :: xs' => match cls i (pl a) with Some k => [(k, a)] | None => [] end ++ classified (S i) xs'
    end.

  (** the sample groups [kgs] (with their keys) of an epoch with samples [xs]: for every key, the
      samples of that key cut into consecutive groups of [size k]; and in the order above *)
  Definition grouped (size : K -> nat) (drop : bool) (i : nat) (xs : list (sample A)) (kgs : list (K * list (sample A))) : Prop :=
    (forall k, groups (size k) drop (of_key k (classified i xs)) (of_key k kgs)) /\
    kgs = in_order size drop (classified i xs).

  (** the batches made of groups, with their restore keys; a batch may be skipped by the batcher *)
  Fixpoint group_batches (f : nat -> list A -> ures B) (i : nat) (gs : list (list (sample A))) : list (sample B) :=
    match gs with
    | [] => []
    | g :: gs' =>
        match f i (map pl g) with
        | UOk b => [mkS b (AStr "GroupBatchDataset" :: AInt i :: map (fun a => ATup (rk a)) g)]
        | _ => []
        end ++ group_batches f (S i) gs'
    end.

  (** complete epochs [eps], then an epoch in progress with the samples [xs]; [i], [j]: number of
      samples and batches before *)
  Inductive group_batched (f : nat -> list A -> ures B) (size : K -> nat) (drop : bool) (i j : nat) :
      list (list (sample A)) -> list (sample A) -> list (event (sample B)) -> Prop :=
  | gbd_part xs kgs : grouped size true i xs kgs ->
      group_batched f size drop i j [] xs (map Yield (group_batches f j (map snd kgs)))
  | gbd_epoch e eps xs kgs outs : grouped size drop i e kgs ->
      group_batched f size drop (i + length e) (j + length kgs) eps xs outs ->
      group_batched f size drop i j (e :: eps) xs (epoch (group_batches f j (map snd kgs)) ++ outs).
End Spec.

(** the group key function [kf] puts samples into the groups [cls], of sizes [size], either given by
    [kf] or fixed *)
Definition groups_by {A K} (fixed : option nat) (kf : nat -> A -> ures (K * option nat)) (cls : nat -> A -> option K) (size : K -> nat) : Prop :=
  forall i x, match cls i x with
              | Some k => (fixed = Some (size k) /\ kf i x = UOk (k, None)) \/ (fixed = None /\ kf i x = UOk (k, Some (size k)))
              | None => kf i x = USkip \/ kf i x = UErr
              end.
