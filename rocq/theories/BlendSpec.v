(** Vocabulary for C28 and C29: a stream made of the samples of several datasets. *)
From Coq Require Import String.
From Verif Require Import Base Dataset.
Local Open Scope list_scope.
Local Open Scope nat_scope.

Section Spec.
  Context {A : Type} (n : nat) (has : nat -> nat -> bool).

  (** dataset [i] is one of the [n] datasets and has samples for worker [w] *)
  Definition in_use (w i : nat) : Prop := i < n /\ has i w = true.

  (** [e] is the sample [snd y] of dataset [fst y], which has samples for this worker; its key got the
      dataset's number among those with samples *)
  Definition drawn (w : nat) (y : nat * sample A) (e : event (sample A)) : Prop :=
    exists k, nth_error (filter (fun i => has i w) (seq 0 n)) k = Some (fst y) /\
      e = Yield (mkS (pl (snd y)) (AStr "BlendDataset" :: AInt k :: rk (snd y))).

  (** the samples that came from dataset [i] *)
  Definition of_ds (i : nat) (ys : list (nat * sample A)) : list (sample A) :=
    map snd (filter (fun y => fst y =? i) ys).
End Spec.

(** consuming the samples [ys], without reaching the end of the epoch, leads from [s] to [s'] *)
Inductive took {P} (D : dataset P) (w : nat) : st D -> list (sample P) -> st D -> Prop :=
| took_nil s : took w s [] s
| took_one s a s1 ys s' : next w s (Yield a) s1 -> took w s1 ys s' -> took w s (a :: ys) s'.

(** the sample of dataset [i] as a ConcatDataset yields it *)
Definition of_concat {A} (i : nat) (a : sample A) : sample A := mkS (pl a) (AStr "ConcatDataset" :: AInt i :: rk a).
Definition from_first {A} (a : sample A) : Prop := exists b : sample A, a = of_concat 0 b.
