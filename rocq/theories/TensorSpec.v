(** What batching tensors should mean. *)
From Coq Require Import String.
From Verif Require Import Base Tensor.

Section Spec.
  Context {T A : Type} (cast : T -> A -> A) (zero : T -> A).

  (** an index inside a shape *)
  Definition inside (idx sh : list nat) : Prop := Forall2 lt idx sh.

  (** [sh] is the smallest shape with the given number of dimensions that all the [shs] fit in *)
  Definition bounding (shs : list (list nat)) (ndim : nat) (sh : list nat) : Prop :=
    length sh = ndim /\
    forall d, d < ndim -> (forall s, In s shs -> nth d s 0 <= nth d sh 0) /\ (exists s, In s shs /\ nth d s 0 = nth d sh 0).

  (** [t] is the tensors of [batch] stacked along a new first dimension, each padded with zeros at the end of each
      dimension; elements are converted to the dtype of the first tensor *)
  Definition stacked (batch : list (tensor T A)) (t : tensor T A) : Prop :=
    exists b0 rest sh, batch = b0 :: rest /\ dtype t = dtype b0 /\ shape t = length batch :: sh /\
      bounding (map shape batch) (length (shape b0)) sh /\
      forall i b idx, nth_error batch i = Some b -> inside idx sh ->
        (inside idx (shape b) -> elt t (i :: idx) = cast (dtype b0) (elt b idx)) /\
        (~ inside idx (shape b) -> elt t (i :: idx) = zero (dtype b0)).

  (** [t] is the tensors concatenated along the first dimension, the other dimensions padded with zeros *)
  Definition concatenated (batch : list (tensor T A)) (t : tensor T A) : Prop :=
    exists b0 rest sh, batch = b0 :: rest /\ dtype t = dtype b0 /\ shape t = list_sum (map (fun b => hd 0 (shape b)) batch) :: sh /\
      bounding (map (fun b => tl (shape b)) batch) (length (shape b0) - 1) sh /\
      forall before b after i idx, batch = before ++ b :: after -> i < hd 0 (shape b) -> inside idx sh ->
        let at_ := list_sum (map (fun b => hd 0 (shape b)) before) + i in
        (inside idx (tl (shape b)) -> elt t (at_ :: idx) = cast (dtype b0) (elt b (i :: idx))) /\
        (~ inside idx (tl (shape b)) -> elt t (at_ :: idx) = zero (dtype b0)).

  (** the value at a path: dict keys and attribute names *)
  Inductive step := Key (k : string) | Attr (k : string).
  Inductive value_at : pyval T A -> list step -> pyval T A -> Prop :=
  | va_here v : value_at v [] v
  | va_key m k x p y : get k m = Some x -> value_at x p y -> value_at (PDict m) (Key k :: p) y
  | va_attr c m k x p y : get k m = Some x -> value_at x p y -> value_at (PRec c m) (Attr k :: p) y.

  (** what a batch holds where the samples hold [y0 :: ys]: tensors are merged as [P] says, dicts and records keep their
      names, anything else is listed *)
  Definition merged_node (P : list (tensor T A) -> tensor T A -> Prop) (y0 : pyval T A) (ys : list (pyval T A)) (y : pyval T A) : Prop :=
    match y0 with
    | PTensor _ => exists ts t, y0 :: ys = map (@PTensor T A) ts /\ P ts t /\ y = PTensor t
    | PDict m => exists m', y = PDict m' /\ map fst m' = map fst m
    | PRec c m => exists m', y = PRec c m' /\ map fst m' = map fst m
    | _ => y = PList (y0 :: ys)
    end.
  (** at every path of the first sample: the other samples have a value, and the batch has the merged one *)
  Definition merged (P : list (tensor T A) -> tensor T A -> Prop) (vs : list (pyval T A)) (r : pyval T A) : Prop :=
    exists v0 rest, vs = v0 :: rest /\ forall p y0, value_at v0 p y0 ->
      exists ys y, Forall2 (fun v x => value_at v p x) rest ys /\ value_at r p y /\ merged_node P y0 ys y.
  (** and when that is possible *)
  Definition mergeable (ok : list (tensor T A) -> Prop) (vs : list (pyval T A)) : Prop :=
    exists v0 rest, vs = v0 :: rest /\ forall p y0, value_at v0 p y0 ->
      exists ys, Forall2 (fun v x => value_at v p x) rest ys /\
        match y0 with PTensor _ => exists ts, y0 :: ys = map (@PTensor T A) ts /\ ok ts | _ => True end.

  Definition same_ndim (ts : list (tensor T A)) : Prop := exists n, ts <> [] /\ forall t, In t ts -> length (shape t) = n.

  (** every dict and record has each name once *)
  Inductive wellformed : pyval T A -> Prop :=
  | wf_tensor t : wellformed (PTensor t)
  | wf_dict m : NoDup (map fst m) -> Forall (fun kv => wellformed (snd kv)) m -> wellformed (PDict m)
  | wf_rec c m : NoDup (map fst m) -> Forall (fun kv => wellformed (snd kv)) m -> wellformed (PRec c m)
  | wf_list l : wellformed (PList l)
  | wf_other n : wellformed (POther n).
End Spec.
