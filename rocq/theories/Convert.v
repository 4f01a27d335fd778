(** Model of task_encoder/base.py:670-696 (DefaultTaskEncoder.encode_sample), 714-734 (encode_batch), 326-333 (the construction
    of the result in TaskEncoder._batch) and flavors/base_dataset.py:33-63 (PinMemoryMixin).

    Simplifications: a class is a dict class, a dataclass, a namedtuple, another tuple class or none of these (never two of
    them).  Dicts have string keys.  All fields of an instance are set.  InitVar fields and __post_init__ are not modelled. *)
From Coq Require Import String.
From Verif Require Import Base.
Local Open Scope string_scope.
Local Open Scope list_scope.
Local Open Scope nat_scope.

Inductive kind := KDict | KData | KNamed | KTuple | KOther.

(** a declared field: its name and whether it is a parameter of __init__ (dataclasses.field(init=...)) *)
Record fdecl := mkF { fd_name : string; fd_init : bool }.
(** [c_mro]: the names of the class and its base classes *)
Record cls := mkC { c_name : string; c_kind : kind; c_mro : list string; c_fields : list fdecl }.

Inductive val :=
| VAtom (n : nat)                               (* str, int, None, ... *)
| VTensor (pinned : bool) (n : nat)             (* a torch tensor, and whether it is in pinned memory *)
| VObj (c : cls) (fs : list (string * val))     (* a dict with its items; a dataclass or namedtuple instance with its fields *)
| VSeq (tuple : bool) (l : list val).           (* a list, or a plain tuple *)

Definition dict_cls : cls := mkC "dict" KDict ["dict"; "object"] [].

Fixpoint get (n : string) (l : list (string * val)) : option val :=
  match l with [] => None | (k, x) :: l' => if String.eqb n k then Some x else get n l' end.
Definition has (n : string) (l : list (string * val)) : bool := match get n l with Some _ => true | None => false end.

Section Convert.
  (** the default of a field of a class, if it has one *)
  Variable dflt : cls -> string -> option val.

  (** ty(double-star fields) for a dataclass or namedtuple: a name that is no parameter, or a parameter without value and
      default, is a TypeError; fields with init=False get their default *)
  Fixpoint fill (c : cls) (ds : list fdecl) (kw : list (string * val)) : result (list (string * val)) :=
    match ds with
    | [] => Ok []
    | d :: ds' =>
        if fd_init d then
          match get (fd_name d) kw with
          | Some x => bind (fill c ds' kw) (fun r => Ok ((fd_name d, x) :: r))
          | None => match dflt c (fd_name d) with
                    | Some x => bind (fill c ds' kw) (fun r => Ok ((fd_name d, x) :: r))
                    | None => Err TypeError
                    end
          end
        else bind (fill c ds' kw) (fun r => Ok (match dflt c (fd_name d) with Some x => (fd_name d, x) :: r | None => r end))
    end.
  Definition is_param (c : cls) (n : string) : bool := existsb (fun d => fd_init d && String.eqb (fd_name d) n) (c_fields c).
  Definition construct (c : cls) (kw : list (string * val)) : result val :=
    if forallb (fun p => is_param c (fst p)) kw then bind (fill c (c_fields c) kw) (fun r => Ok (VObj c r)) else Err TypeError.

  (** base.py:677-687, 719-727: the fields of a sample by name *)
  Definition fields_of (v : val) : result (list (string * val)) :=
    match v with
    | VObj c fs => match c_kind c with KData | KNamed | KDict => Ok fs | _ => Err ValueError end
    | _ => Err ValueError
    end.

  (** base.py:688-696, 728-734, 326-333: an object of the given type from these fields; [v]: the dict that the fields are, if
      they come from a dict (684-685: "fields = sample") *)
  Definition make (ty : cls) (v : val) (fs : list (string * val)) : result val :=
    match c_kind ty with
    | KDict => Ok (match v with VObj c _ => match c_kind c with KDict => v | _ => VObj dict_cls fs end | _ => VObj dict_cls fs end)
    | KData | KNamed => construct ty fs
    | KTuple => Err TypeError                   (* tuple takes no keyword arguments *)
    | KOther => Err ValueError
    end.

  (** isinstance(v, ty) *)
  Definition mro (v : val) : list string :=
    match v with
    | VAtom _ => ["object"]
    | VTensor _ _ => ["Tensor"; "object"]
    | VObj c _ => c_mro c
    | VSeq true _ => ["tuple"; "object"]
    | VSeq false _ => ["list"; "object"]
    end.
  Definition is_instance (v : val) (ty : cls) : bool := existsb (String.eqb (c_name ty)) (mro v).

  (** DefaultTaskEncoder.encode_sample (670-696); [ty]: encoded_sample_type *)
  Definition encode_sample (ty : option cls) (v : val) : result val :=
    match ty with
    | None => Ok v
    | Some ty => if is_instance v ty then Ok v else bind (fields_of v) (make ty v)
    end.

  (** DefaultTaskEncoder.encode_batch (714-734); classes are compared by their names *)
  Definition same_cls (a : option cls) (b : cls) : bool := match a with Some a => String.eqb (c_name a) (c_name b) | None => false end.
  Definition encode_batch (raw ty : option cls) (v : val) : result val :=
    match ty with
    | None => Ok v
    | Some ty => if same_cls raw ty then Ok v else bind (fields_of v) (make ty v)
    end.

  (** _batch (283-333): [bf]: the fields of the samples, batched one by one (Tensor.v: batch_fields) *)
  Definition batch_as (bf : list val -> result (list (string * val))) (ty : cls) (vs : list val) : result val :=
    bind (bf vs) (fun fs => make ty (VObj dict_cls fs) fs).

  (** PinMemoryMixin._pin_memory (base_dataset.py:36-59).  For a dataclass the constructor is called with all fields, for a
      namedtuple with the values in order *)
  Fixpoint pin (v : val) : result val :=
    match v with
    | VAtom n => Ok (VAtom n)
    | VTensor _ n => Ok (VTensor true n)
    | VSeq t l => bind ((fix go (l : list val) : result (list val) :=
                           match l with [] => Ok [] | x :: l' => bind (pin x) (fun y => bind (go l') (fun ys => Ok (y :: ys))) end) l)
                       (fun l => Ok (VSeq t l))
    | VObj c fs =>
        match c_kind c with
        | KDict | KData | KNamed =>
            bind ((fix go (l : list (string * val)) : result (list (string * val)) :=
                     match l with [] => Ok [] | (k, x) :: l' => bind (pin x) (fun y => bind (go l') (fun ys => Ok ((k, y) :: ys))) end) fs)
                 (fun fs => match c_kind c with
                            | KDict => Ok (VObj dict_cls fs)
                            | KData => construct c fs
                            | _ => Ok (VObj c fs)
                            end)
        | _ => Ok v
        end
    end.
End Convert.
