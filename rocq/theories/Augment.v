(** Model of task_encoder/base.py:737-759 (AugmentTaskEncoder): a task encoder around another one, whose encode_sample, batch
    and encode_batch call the other one's.

    The class inherits everything else from TaskEncoder: no cookers (237), no grouping, no packing.  Its own three methods are
    plain functions (not generator functions), are not marked @stateless, and are not the ones of class TaskEncoder. *)
From Coq Require Import String QArith.
From Verif Require Import Base Dataset Wrap Wrappers MapModel TaskEncoder.
Local Close Scope Q_scope.
Local Close Scope Z_scope.
Local Open Scope list_scope.
Local Open Scope nat_scope.

(** "return self._task_encoder.m(x)" (751-758) as the map function of a MapDataset, or the batcher of a BatchDataset.  If [m] is
    a generator function, the call returns a generator although the delegating function is not a generator function: the
    assertion in map_dataset.py:143-145 (batch_dataset.py:169-171) fails, and AssertionError goes to the error handler
    (map_dataset.py:171-172, batch_dataset.py:193-194) *)
Definition delegate {A B} (f : ufn A B) : ufn A B :=
  match f with
  | Fn f => Fn f
  | GenFn _ => Fn (fun _ _ _ => UErr)
  end.

Definition delegating {A B} (m : method (ufn A B)) : method (ufn A B) :=
  mkMethod (delegate (m_fn m)) false false.

Definition augment {V K} (e : @encoder V K) : @encoder V K :=
  mkEnc [] (delegating (te_encode e)) (delegating (te_batch e)) (delegating (te_encode_batch e)) None None None.

(** the methods of class TaskEncoder itself (253-259, 279-283): encode_sample and encode_batch return their argument *)
Definition base_methods {V K} (e : @encoder V K) : Prop :=
  (m_base (te_encode e) = true -> m_fn (te_encode e) = Fn (fun _ _ x => UOk x)) /\
  (m_base (te_encode_batch e) = true -> m_fn (te_encode_batch e) = Fn (fun _ _ x => UOk x)).
