(** Model of task_encoder/base.py:58-105 (generic_batch, batch_stack, batch_pad_stack, batch_list), 283-336 (_batch),
    627-720 (DefaultTaskEncoder.batch) and wrappers/mix_batch_dataset.py:19-72 (generic_concat, concat_pad,
    homogeneous_concat_mix).

    A torch tensor is its dtype, its shape and the element at every index inside the shape.  Trusted about torch:
    t[(s1, ..., sk)] = b for integers and slices s with non-negative bounds writes b's elements to the selected region,
    converted to t's dtype, if the region has b's shape, and raises IndexError if there are more selectors than
    dimensions.  (Broadcasting in other cases is not modelled; C51 shows that it never occurs.) *)
From Coq Require Import String.
From Verif Require Import Base.
Local Open Scope string_scope.
Local Open Scope list_scope.
Local Open Scope nat_scope.

Section Tensor.
  Context {T A : Type}.                        (* dtypes and element values *)
  Variable cast : T -> A -> A.                 (* conversion to a dtype on assignment *)
  Variable zero : T -> A.

  Record tensor := mkT { dtype : T; shape : list nat; elt : list nat -> A }.

  (** one selector: an integer, or slice(start, stop) *)
  Inductive sel := At (i : nat) | Slice (start stop : nat).

  (** the shape of the selected region; None: too many indices, or an integer out of range *)
  Fixpoint region (sels : list sel) (sh : list nat) : option (list nat) :=
    match sels, sh with
    | [], _ => Some sh
    | _ :: _, [] => None
    | At i :: sels', n :: sh' => if i <? n then region sels' sh' else None
    | Slice a b :: sels', n :: sh' => option_map (cons (Nat.min b n - Nat.min a n)) (region sels' sh')
    end.
  (** which element of the assigned tensor goes to an index *)
  Fixpoint source (sels : list sel) (idx : list nat) : option (list nat) :=
    match sels, idx with
    | [], _ => Some idx
    | _ :: _, [] => None
    | At i :: sels', j :: idx' => if i =? j then source sels' idx' else None
    | Slice a b :: sels', j :: idx' => if (a <=? j) && (j <? b) then option_map (cons (j - a)) (source sels' idx') else None
    end.

  Fixpoint list_eqb (a b : list nat) : bool :=
    match a, b with
    | [], [] => true
    | x :: a', y :: b' => (x =? y) && list_eqb a' b'
    | _, _ => false
    end.

  (** t[sels] = b *)
  Definition assign (t : tensor) (sels : list sel) (b : tensor) : result tensor :=
    match region sels (shape t) with
    | None => Err IndexError
    | Some r =>
        if list_eqb r (shape b) then
          Ok (mkT (dtype t) (shape t) (fun idx => match source sels idx with Some j => cast (dtype t) (elt b j) | None => elt t idx end))
        else Err OtherError                    (* broadcasting *)
    end.

  Definition new_zeros (t : tensor) (sh : list nat) : tensor := mkT (dtype t) sh (fun _ => zero (dtype t)).

  (** b.shape[dim] *)
  Definition dim_of (d : nat) (b : tensor) : result nat := match nth_error (shape b) d with Some n => Ok n | None => Err IndexError end.
  (** [max(b.shape[dim] for b in batch) for dim in dims] *)
  Definition max_dims (dims : list nat) (batch : list tensor) : result (list nat) :=
    sequence (map (fun d => bind (sequence (map (dim_of d) batch)) (fun l => Ok (list_max l))) dims).

  (** base.py 90-98 batch_pad_stack *)
  Fixpoint stack_loop (t : tensor) (i : nat) (batch : list tensor) : result tensor :=
    match batch with
    | [] => Ok t
    | b :: batch' => bind (assign t (At i :: map (Slice 0) (shape b)) b) (fun t' => stack_loop t' (S i) batch')
    end.
  Definition batch_pad_stack (batch : list tensor) : result tensor :=
    match batch with
    | [] => Err IndexError
    | b0 :: _ =>
        bind (max_dims (seq 0 (length (shape b0))) batch) (fun ms =>
        stack_loop (new_zeros b0 (length batch :: ms)) 0 batch)
    end.

  (** mix_batch_dataset.py 43-54 concat_pad *)
  Fixpoint concat_loop (t : tensor) (i : nat) (batch : list tensor) : result tensor :=
    match batch with
    | [] => Ok t
    | b :: batch' =>
        match shape b with
        | [] => Err IndexError
        | n :: sh => bind (assign t (Slice i (i + n) :: map (Slice 0) sh) b) (fun t' => concat_loop t' (i + n) batch')
        end
    end.
  Definition concat_pad (batch : list tensor) : result tensor :=
    bind (sequence (map (dim_of 0) batch)) (fun ns =>
    match batch with
    | [] => Err IndexError
    | b0 :: _ =>
        bind (max_dims (seq 1 (length (shape b0) - 1)) batch) (fun ms =>
        concat_loop (new_zeros b0 (list_sum ns :: ms)) 0 batch)
    end).

  (** ** structured samples *)
  Inductive pyval :=
  | PTensor (t : tensor)
  | PDict (m : list (string * pyval))
  | PRec (cls : string) (m : list (string * pyval))     (* dataclass or namedtuple *)
  | PList (l : list pyval)
  | POther (n : nat).                                    (* any other object *)

  Fixpoint get (k : string) (m : list (string * pyval)) : option pyval :=
    match m with [] => None | (k', v) :: m' => if String.eqb k k' then Some v else get k m' end.
  (** sample[key]; getattr(sample, key) *)
  Definition item (k : string) (v : pyval) : result pyval :=
    match v with PDict m => match get k m with Some x => Ok x | None => Err KeyError end | _ => Err TypeError end.
  Definition attr (k : string) (v : pyval) : result pyval :=
    match v with PRec _ m => match get k m with Some x => Ok x | None => Err OtherError end | _ => Err OtherError end.
  Definition tensor_of (v : pyval) : result tensor := match v with PTensor t => Ok t | _ => Err OtherError end.  (* no .shape *)

  Section Generic.
    Variable leaf : list tensor -> result tensor.
    (** base.py 58-82, mix_batch_dataset.py 19-40, on the first element and the others *)
    Fixpoint generic (v0 : pyval) (vs : list pyval) : result pyval :=
      match v0 with
      | PTensor t0 => bind (sequence (map tensor_of vs)) (fun ts => bind (leaf (t0 :: ts)) (fun t => Ok (PTensor t)))
      | PDict m =>
          bind ((fix fields (l : list (string * pyval)) : result (list (string * pyval)) :=
                   match l with
                   | [] => Ok []
                   | (k, x) :: l' => bind (sequence (map (item k) vs)) (fun xs => bind (generic x xs) (fun y => bind (fields l') (fun ys => Ok ((k, y) :: ys))))
                   end) m) (fun r => Ok (PDict r))
      | PRec c m =>
          bind ((fix fields (l : list (string * pyval)) : result (list (string * pyval)) :=
                   match l with
                   | [] => Ok []
                   | (k, x) :: l' => bind (sequence (map (attr k) vs)) (fun xs => bind (generic x xs) (fun y => bind (fields l') (fun ys => Ok ((k, y) :: ys))))
                   end) m) (fun r => Ok (PRec c r))
      | _ => Ok (PList (v0 :: vs))
      end.
    Definition generic_of (vs : list pyval) : result pyval := match vs with [] => Err IndexError | v0 :: vs' => generic v0 vs' end.
  End Generic.

  Definition generic_batch := generic_of batch_pad_stack.
  Definition generic_concat := generic_of concat_pad.

  (** mix_batch_dataset.py 57-72 homogeneous_concat_mix; simplification: all [POther] objects have one class *)
  Definition same_type (v w : pyval) : bool :=
    match v, w with
    | PTensor _, PTensor _ | PDict _, PDict _ | PList _, PList _ | POther _, POther _ => true
    | PRec c _, PRec d _ => String.eqb c d
    | _, _ => false
    end.
  Definition homogeneous_concat_mix (vs : list pyval) : result pyval :=
    match vs with
    | [] => Err IndexError
    | v0 :: _ => if forallb (same_type v0) vs then generic_concat vs else Err AssertionError
    end.

  (** _batch, 283-336: [actions]: what is done with the fields in it; the result is built as a dict, or as a
      dataclass / namedtuple with exactly the given fields *)
  Definition fields_of (vs : list pyval) : result (list (string * list pyval)) :=
    match vs with
    | PDict m :: _ => sequence (map (fun kv => bind (sequence (map (item (fst kv)) vs)) (fun xs => Ok (fst kv, xs))) m)
    | PRec _ m :: _ => sequence (map (fun kv => bind (sequence (map (attr (fst kv)) vs)) (fun xs => Ok (fst kv, xs))) m)
    | [] => Err IndexError
    | _ => Err ValueError
    end.
  Fixpoint action_for (k : string) (actions : list (string * (list pyval -> result pyval))) : option (list pyval -> result pyval) :=
    match actions with [] => None | (k', f) :: r => if String.eqb k k' then Some f else action_for k r end.
  Definition batch_fields (actions : list (string * (list pyval -> result pyval))) (vs : list pyval) : result (list (string * pyval)) :=
    bind (fields_of vs) (fun fs =>
    sequence (map (fun kx => bind (match action_for (fst kx) actions with Some f => f (snd kx) | None => generic_batch (snd kx) end)
                               (fun y => Ok (fst kx, y))) fs)).

  (** TaskEncoder.batch (260-263): no actions; DefaultTaskEncoder.batch (700-716), for Sample instances *)
  Definition keep (l : list pyval) : result pyval := Ok (PList l).
  Definition te_batch := batch_fields [].
  Definition default_batch := batch_fields [("__subflavor__", keep); ("__subflavors__", keep)].
End Tensor.
Arguments tensor : clear implicits.
Arguments pyval : clear implicits.
