(** Model of flavors/webdataset/prepare.py:200-254: dropping unreadable shards and assigning shards
    to split parts.

    Simplifications: ratios are non-negative doubles (PyFloat.v; no overflow or underflow);
    sum() adds left to right (CPython before 3.12; from 3.12 on it is compensated); the shuffle of the
    shard list is represented by its result, an arbitrary permutation; pattern matching is an
    arbitrary predicate. *)
From Coq Require Import String.
From Verif Require Import Base PyFloat.
Local Open Scope list_scope.
Local Open Scope nat_scope.

Record shard_info := mkShard { sh_name : string; sh_count : nat }.

(** prepare.py:203-210: shards with count 0 failed to load and are skipped *)
Definition usable_shards (l : list shard_info) : list shard_info := filter (fun s => negb (sh_count s =? 0)) l.

(** d[k] = v *)
Fixpoint dict_set {V} (d : list (string * V)) (k : string) (v : V) : list (string * V) :=
  match d with
  | [] => [(k, v)]
  | (k', v') :: d' => if String.eqb k k' then (k, v) :: d' else (k', v') :: dict_set d' k v
  end.

Definition fzero : pyfloat := mkf 0 1.
Definition fsum (l : list pyfloat) : pyfloat := fold_left py_add l fzero.

(** prepare.py:232-240, the loop *)
Fixpoint split_loop (shards : list string) (total : pyfloat) (offset : nat) (ratios : list (string * pyfloat))
    (acc : list (string * list string)) : list (string * list string) :=
  match ratios with
  | [] => acc
  | (part, r) :: rest =>
      let total' := py_add total r in
      let end' := Z.to_nat (py_int (py_mul (Z.of_nat (length shards)) total')) in
      split_loop shards total' end' rest (dict_set acc part (slice offset end' shards))
  end.

(** prepare.py:222-240; [shards]: the names after shuffling *)
Definition ratio_split (shards : list string) (ratios : list (string * pyfloat)) : result (list (string * list string)) :=
  let total := fsum (map snd ratios) in
  if (fnum total =? 0)%Z then match ratios with [] => Ok [] | _ => Err ZeroDivisionError end
  else Ok (split_loop shards fzero 0 (map (fun pr => (fst pr, py_fdiv (snd pr) total)) ratios) []).

(** prepare.py:241-254 *)
Definition pattern_split (shards : list string) (parts : list (string * (string -> bool))) : list (string * list string) :=
  fold_left (fun acc p => dict_set acc (fst p) (filter (snd p) shards)) parts [].
