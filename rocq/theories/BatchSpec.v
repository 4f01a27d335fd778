(** What batching means. *)
From Coq Require Import String.
From Verif Require Import Base Dataset WrapSpec Wrappers.

(** [gs]: the samples [xs] of an epoch cut into consecutive groups of [size], only the last of which may
    be shorter; it is left out if [drop] *)
Definition groups {X} (size : nat) (drop : bool) (xs : list X) (gs : list (list X)) : Prop :=
  exists full tail,
    Forall (fun g => length g = size) full /\ length tail < size /\ xs = concat full ++ tail /\
    gs = if drop then full else match tail with [] => full | _ => full ++ [tail] end.

(** the batches made of the groups [gs], the first having sample index [i]: contents *)
Fixpoint batch_contents {A B} (f : nat -> list A -> ures B) (i : nat) (gs : list (list A)) : list B :=
  match gs with
  | [] => []
  | g :: gs' => match f i g with UOk b => [b] | _ => [] end ++ batch_contents f (S i) gs'
  end.

(** ... and with their restore keys, for a batcher that never fails *)
Fixpoint batches {A B} (f : nat -> list A -> B) (i : nat) (gs : list (list (sample A))) : list (sample B) :=
  match gs with
  | [] => []
  | g :: gs' => mkS (f i (map pl g)) (AStr "BatchDataset" :: AInt i :: map (fun a => ATup (rk a)) g) :: batches f (S i) gs'
  end.

(** total number of groups of [n] samples dealt evenly to [nw] workers (the first n mod nw workers
    get one more) *)
Definition group_count (size : nat) (drop : bool) (m : nat) : nat :=
  if drop then m / size else (m + size - 1) / size.
Definition worker_share (nw n w : nat) : nat := n / nw + (if w <? n mod nw then 1 else 0).
Definition total_batches (nw size : nat) (drop : bool) (n : nat) : nat :=
  list_sum (map (fun w => group_count size drop (worker_share nw n w)) (seq 0 nw)).

(** a batcher that is a generator: [h i l] are the samples it yields for a group; the [j]-th gets the key
    (BatchDataset, i, j, keys of the group) *)
Definition gen_outputs {A B} (h : nat -> list A -> list B) (i : nat) (g : list (sample A)) : list (sample B) :=
  let ys := h i (map pl g) in
  map (fun jy => mkS (snd jy) (AStr "BatchDataset" :: AInt i :: AInt (fst jy) :: map (fun a => ATup (rk a)) g))
      (combine (seq 0 (length ys)) ys).
Fixpoint gen_batches {A B} (h : nat -> list A -> list B) (i : nat) (gs : list (list (sample A))) : list (sample B) :=
  match gs with
  | [] => []
  | g :: gs' => gen_outputs h i g ++ gen_batches h (S i) gs'
  end.
Fixpoint gen_epochs {A B} (h : nat -> list A -> list B) (i : nat) (gss : list (list (list (sample A)))) : list (event (sample B)) :=
  match gss with
  | [] => []
  | gs :: gss' => epoch (gen_batches h i gs) ++ gen_epochs h (i + length gs) gss'
  end.
