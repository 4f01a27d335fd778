(** Model of the restore keys as attributes of Python objects: flavors/base_dataset.py:386-403 add_sample_restore_key changes the
    object it is given; the rest of the development treats a sample as a value with its key.  Here the objects have identities.

    Modelled: what MapDataset (wrappers/map_dataset.py:139-168) does with the objects that a map function returns or yields for one
    input sample, for all behaviours of the function; and what it does over many samples when the function always returns one and
    the same object. *)
From Coq Require Import String.
From Verif Require Import Base Dataset Wrap Wrappers MapModel.

Section ObjectKeys.
  Context {V : Type}.

  (** a Sample object: its data and its __restore_key__ *)
  Record obj := mkO { o_val : V; o_key : rkey }.

  (** One yield of the generator function:
      [YOld r f]: an object that exists already, the input sample (r = 0) or the r-th object yielded new before, with its data
      changed by [f];
      [YNew f own]: a new object, whose data is computed from the input sample's, and whose __restore_key__ is the one the input
      sample has at this moment (own = None: Sample.derive_from, base_dataset.py:126-144) or another one. *)
  Inductive yielded :=
  | YOld (r : nat) (f : V -> V)
  | YNew (f : V -> V) (own : option rkey).

  (** the objects, the input sample first; None: no such object *)
  Definition yield_one (i j : nat) (h : list obj) (y : yielded) : option (list obj * (nat * obj)) :=
    match y with
    | YOld r f =>
        match nth_error h r with
        | Some o => let o' := mkO (f (o_val o)) (mapgen_key i j (o_key o)) in Some (upd h r o', (r, o'))
        | None => None
        end
    | YNew f own =>
        match h with
        | a :: _ =>
            let o' := mkO (f (o_val a)) (mapgen_key i j (match own with None => o_key a | Some k => k end)) in
            Some (h ++ [o'], (length h, o'))
        | [] => None
        end
    end.

  (** map_dataset.py:148-160: the yields for sample number [i], the first of them with sub-index [j]: the objects afterwards, and what
      was delivered: which object, and how it was at that moment *)
  Fixpoint yield_all (i j : nat) (h : list obj) (ys : list yielded) : option (list obj * list (nat * obj)) :=
    match ys with
    | [] => Some (h, [])
    | y :: ys' =>
        match yield_one i j h y with
        | Some (h1, d) => match yield_all i (S j) h1 ys' with Some (h2, ds) => Some (h2, d :: ds) | None => None end
        | None => None
        end
    end.

  (** map_dataset.py:161-167, a plain function that returns the object [o] for every sample: the keys it has, one delivery after the
      other, for the samples [i], [i+1], ... *)
  Fixpoint shared (i : nat) (o : obj) (n : nat) : list obj :=
    match n with
    | 0 => []
    | S n' => let o' := mkO (o_val o) (map_key i (o_key o)) in o' :: shared (S i) o' n'
    end.
End ObjectKeys.
Arguments obj : clear implicits.
Arguments yielded : clear implicits.
