(** In which order a loader with workers on datasets that end returns the samples. *)
From Verif Require Import Base.

Section Spec.
  Context {X : Type}.
  (** round [k]: the [k]-th sample of each worker that has one *)
  Definition round (n : nat) (xs : nat -> list X) (k : nat) : list (nat * X) :=
    flat_map (fun p => match nth_error (xs p) k with Some x => [(p, x)] | None => [] end) (seq 0 n).
  (** the workers take turns until all have ended *)
  Definition in_turn (n : nat) (xs : nat -> list X) : list (nat * X) :=
    flat_map (round n xs) (seq 0 (list_max (map (fun p => length (xs p)) (seq 0 n)))).
End Spec.
