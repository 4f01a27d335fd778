(** What split.yaml says a split part contains, independently of the loading code (C59). *)
From Coq Require Import String Ascii.
From Verif Require Import Base Files Tar TarSpec.
Local Open Scope string_scope.
Local Open Scope list_scope.
Local Open Scope nat_scope.

(** [name] is one of the names that the patterns stand for *)
Definition named_by (braceexpand : string -> result (list string)) (patterns : list string) (name : string) : Prop :=
  exists p ns, In p patterns /\ braceexpand p = Ok ns /\ In name ns.
(** every pattern stands for some names *)
Definition well_formed (braceexpand : string -> result (list string)) (patterns : list string) : Prop :=
  forall p, In p patterns -> exists ns, braceexpand p = Ok ns.
(** [l] lists, one pattern after the other, the names each stands for *)
Inductive spelled_out (braceexpand : string -> result (list string)) : list string -> list string -> Prop :=
| so_nil : spelled_out braceexpand [] []
| so_cons p ps ns l : braceexpand p = Ok ns -> spelled_out braceexpand ps l -> spelled_out braceexpand (p :: ps) (ns ++ l).

(** [l'] is [l] without the elements for which [P] does not hold *)
Inductive kept {A} (P : A -> Prop) : list A -> list A -> Prop :=
| kept_nil : kept P [] []
| kept_take x l l' : P x -> kept P l l' -> kept P (x :: l) (x :: l')
| kept_drop x l l' : ~ P x -> kept P l l' -> kept P (x :: l) l'.

(** the dictionary has this entry *)
Definition entry {V} (d : list (string * V)) (k : string) (v : V) : Prop :=
  NoDup (map fst d) /\ In (k, v) d.

(** a sample as the user sees it: its key and its parts *)
Definition seen {Dat} (r : rsample Dat) : string * list (string * Dat) := (rs_key r, rs_parts r).
(** sample [g] of the archive of shard [name] *)
Definition sample_key {Dat} (name : string) (g : list (ent Dat)) : string := (name ++ "/" ++ base_of g)%string.
