(** Model of flavors/webdataset/default_generic_webdataset.py:48-107 (field_map, part_filter, load_sample),
    default_decoder_webdataset.py:104-107 (decoding first) and flavors/base_dataset.py:121-180 (derive_from,
    from_joined), 66-100 (extend).

    Simplifications: the values of a sample's parts after decoding are the [value]s of FieldAccess.v.  A dict display
    {**a, **b} is the list b ++ a, of which the first entry for a key counts (FieldAccess.lookup).  The decoder
    decodes every part on its own and may fail. *)
From Coq Require Import String.
From Verif Require Import Base Tar FieldAccess.
Local Open Scope string_scope.
Local Open Scope list_scope.
Local Open Scope nat_scope.

(** a dataclass: its fields with their defaults *)
Inductive fdefault := Required | Default (v : value) | Factory (v : value).
Definition dclass := list (string * fdefault).
(** an instance: the values of the fields *)
Definition instance := list (string * value).

Definition names {X} (l : list (string * X)) : list string := map fst l.
Definition mem (k : string) (l : list string) : bool := existsb (String.eqb k) l.

(** field.default is not MISSING; field.default_factory is not MISSING *)
Definition has_default (d : fdefault) : bool := match d with Default _ => true | _ => false end.
Definition has_factory (d : fdefault) : bool := match d with Factory _ => true | _ => false end.

(** cls(double-star kwargs): a dataclass's __init__ *)
Definition field_value (kwargs : list (string * value)) (f : string * fdefault) : option (string * value) :=
  match lookup (fst f) kwargs with
  | Some v => Some (fst f, v)
  | None => match snd f with Default v | Factory v => Some (fst f, v) | Required => None end
  end.
Fixpoint all_some {X} (l : list (option X)) : option (list X) :=
  match l with
  | [] => Some []
  | Some x :: l' => option_map (cons x) (all_some l')
  | None :: _ => None
  end.
Definition construct (cls : dclass) (kwargs : list (string * value)) : result instance :=
  if negb (forallb (fun k => mem k (names cls)) (names kwargs)) then Err TypeError      (* unexpected keyword argument *)
  else match all_some (map (field_value kwargs) cls) with Some i => Ok i | None => Err TypeError end.   (* missing argument *)

(** default_generic_webdataset.py:75 *)
Definition split_map (field_map : list (string * string)) : list (string * list (list string)) :=
  map (fun kf => (fst kf, split_field_access (snd kf))) field_map.

(** 76-85: the assert on the field map *)
Definition map_accepted (cls : dclass) (field_map : list (string * string)) : bool :=
  forallb (fun k => mem k (names cls)) (names field_map) &&
  forallb (fun k => mem k (names field_map)) (names (filter (fun f => has_default (snd f) && has_factory (snd f)) cls)).

(** 89-90: the parts to read.  access[0] exists for every option (FieldAccess.split_option) *)
Definition map_filter (field_map : list (string * string)) (part : string) : bool :=
  existsb (fun f => existsb (fun access => match access with p :: _ => String.eqb part p | [] => false end) (snd f)) (split_map field_map).

Section Load.
  Context {Dat : Type}.
  Variable dec : string -> Dat -> option value.          (* the decoder, or the identity with auto_decode=False *)
  Variable str : string -> value.                        (* Python strings and restore keys as values *)
  Variable rkval : string * nat -> value.

  (** default_decoder_webdataset.py:104-107; the meta data is not decoded (webdataset: keys starting with "_") *)
  Definition decode (r : rsample Dat) : option value :=
    option_map (fun ps => VDict (ps ++ [("__key__", str (rs_key r)); ("__shard__", str (fst (rs_rk r))); ("__restore_key__", rkval (rs_rk r))]))
      (all_some (map (fun p => option_map (pair (fst p)) (dec (fst p) (snd p))) (rs_parts r))).

  (** 86-88 *)
  Fixpoint load_fields (v : value) (fields : list (string * list (list string))) : result (list (string * value)) :=
    match fields with
    | [] => Ok []
    | (k, f) :: fields' =>
        match access v f with
        | FOk x => bind (load_fields v fields') (fun l => Ok ((k, x) :: l))
        | FErr _ => Err ValueError
        end
    end.

  (** 91-98 and 104-105, with a field map *)
  Definition load_sample (cls : dclass) (field_map : list (string * string)) (subflavor subflavors : value) (r : rsample Dat) : result instance :=
    match decode r with
    | None => Err OtherError
    | Some v =>
        bind (load_fields v (split_map field_map)) (fun inner =>
        construct cls ([("__restore_key__", rkval (rs_rk r)); ("__subflavor__", subflavor); ("__subflavors__", subflavors)]
                       ++ inner ++ [("__key__", str (rs_key r))]))
    end.
End Load.

(** base_dataset.py:104-119: the fields of class Sample *)
Definition base_fields : list string := ["__key__"; "__restore_key__"; "__subflavor__"; "__subflavors__"].

(** from_joined: 141-180 *)
Definition dict_put (k : string) (v : value) (d : list (string * value)) : list (string * value) := (k, v) :: d.
Definition join_args (primary : instance) (args : list (option instance)) : list (string * value) :=
  fold_left (fun d arg => match arg with
                          | None => d
                          | Some a => fold_left (fun d f => if mem (fst f) base_fields then d else dict_put (fst f) (snd f) d) a d
                          end) args
            (fold_left (fun d f => dict_put (fst f) (snd f) d) primary []).
Definition from_joined (cls : dclass) (args : list (option instance)) : result instance :=
  match args with
  | [] => construct cls []
  | None :: _ => Err AssertionError
  | Some primary :: _ => construct cls (join_args primary args)
  end.

(** derive_from: 121-139; a field given twice is a TypeError *)
Definition derive_from (cls : dclass) (base : instance) (kwargs : list (string * value)) : result instance :=
  match all_some (map (fun n => option_map (pair n) (lookup n base)) base_fields) with
  | None => Err OtherError                               (* AttributeError *)
  | Some b => if existsb (fun k => mem k base_fields) (names kwargs) then Err TypeError else construct cls (b ++ kwargs)
  end.

(** extend: 66-100 (all fields have init=True); the issubclass check is that cls has all of src's fields *)
Definition extend (cls : dclass) (src : instance) (kwargs : list (string * value)) : result instance :=
  if negb (forallb (fun k => mem k (names cls)) (names src)) then Err AssertionError
  else construct cls (kwargs ++ src).
