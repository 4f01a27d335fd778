(** What a loader without worker processes shows of its dataset: the samples, numbered. *)
From Coq Require Import String.
From Verif Require Import Base Dataset.

(** sample [a] as the loader of global worker [g] returns it as its [i]-th *)
Definition shown {A} (g i : nat) (a : sample A) : sample A :=
  mkS (pl a) (AStr "SimpleSavableDatasetWrapper" :: AInt g :: AInt i :: rk a).
(** the events [l], the samples numbered from [i] *)
Fixpoint numbered {A} (g i : nat) (l : list (event (sample A))) : list (event (sample A)) :=
  match l with
  | [] => []
  | Yield a :: l' => Yield (shown g i a) :: numbered g (S i) l'
  | e :: l' => e :: numbered g i l'
  end.
(** the samples the events [l] contain *)
Definition how_many {A} (l : list (event (sample A))) : nat :=
  length (filter (fun e => match e with Yield _ => true | _ => false end) l).
