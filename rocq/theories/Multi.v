(** Wrappers around several inner datasets (blend_dataset.py, concat_dataset.py): the inner datasets
    are a family [D i], i < n.  Their objects, iterators and saved states are kept per dataset, as
    functions of the dataset's index (the code's lists of equal length n). *)
From Verif Require Import Base Dataset.

Fixpoint nat_dec (i j : nat) : {i = j} + {i <> j}.
Proof. decide equality. Defined.

(** replace entry [i] of such a family *)
Definition dupd {F : nat -> Type} (f : forall i, F i) (i : nat) (v : F i) : forall j, F j :=
  fun j => match nat_dec i j with left e => eq_rect i F v j e | right _ => f j end.

(** the iterator to continue with, or iter(dataset) *)
Definition running {P} (D : dataset P) (it : option (ds_gen D)) : ds_gen D :=
  match it with Some g => g | None => ds_iter D end.

(** base_dataset.py:386-410, add_sample_restore_key(sample, ds_idx, src=self) *)
Definition add_idx {P} (name : atom) (i : nat) (a : sample P) : sample P := mkS (pl a) (name :: AInt i :: rk a).
