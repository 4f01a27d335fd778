(** Model of typed_converter.py: raw_to_typed (164-512), safe_call_function (515-626), raw_to_instance (61-161),
    to_json_object (1100-1131): reading YAML/JSON data as typed Python objects, and writing them.

    Python values are [pv], annotations are [ty].
    Simplifications: floats are rationals (no nan, inf); dictionaries have string keys and are association lists; an
    instance of a NamedTuple or a dataclass is its class name with its __init__ fields (fields with init=False are computed by the
    constructor and not shown); [accepts] says whether a constructor (__post_init__) raises; an EPath is the string it was made of.
    The error message, path and stage of a JsonValueError are not modelled. *)
From Coq Require Import String Ascii QArith.
From Verif Require Import Base.
Local Close Scope Q_scope.
Local Close Scope Z_scope.
Local Open Scope string_scope.
Local Open Scope list_scope.
Local Open Scope nat_scope.

Inductive pv : Type :=
| PNone
| PBool (b : bool)
| PInt (z : Z)
| PFloat (q : Q)
| PStr (s : string)
| PList (l : list pv)
| PTup (l : list pv)
| PSet (l : list pv)
| PDict (d : list (string * pv))
| PInst (c : string) (f : list (string * pv))
| PPath (s : string)
| PObj (n : nat).                         (* a class, a function, any other object *)

Inductive ty : Type :=
| TStr | TInt | TFloat | TBool | TNone    (* TNone: type(None) *)
| TAny
| TLit (vs : list pv)                     (* Literal[...] *)
| TUnion (ts : list ty)
| TNamed (c : string) (fs : list (string * ty * option pv))   (* NamedTuple: fields, types, defaults *)
| TData (c : string) (fs : list (string * ty * option pv))    (* dataclass; default or default_factory() *)
| TList (t : ty) | TSet (t : ty)
| TTupOf (t : ty)                         (* Tuple[t, ...] *)
| TTup (ts : list ty)                     (* Tuple[t0, t1, ...] *)
| TDict (t : ty)                          (* Dict[str, t] *)
| TRawDict | TRawList                     (* dict, list *)
| TPath                                   (* EPath *)
| TClassOf (n : nat)                      (* Type[class n] *)
| TCallable
| TCls (n : nat).                         (* any other class *)

(** JsonValueError, or another exception *)
Inductive cres (X : Type) : Type :=
| COk (x : X)
| CJson
| CErr (e : exn).
Arguments COk {X} x.
Arguments CJson {X}.
Arguments CErr {X} e.
Definition cbind {X Y} (r : cres X) (k : X -> cres Y) : cres Y :=
  match r with COk x => k x | CJson => CJson | CErr e => CErr e end.

(** *** Python's == and hashability, as used by Literal and Set *)
Definition num (v : pv) : option Q :=
  match v with
  | PBool b => Some (if b then 1%Q else 0%Q)
  | PInt z => Some (inject_Z z)
  | PFloat q => Some q
  | _ => None
  end.
Fixpoint pyeq (a b : pv) {struct a} : bool :=
  match num a, num b with
  | Some x, Some y => Qeq_bool x y
  | Some _, None | None, Some _ => false
  | None, None =>
      match a, b with
      | PNone, PNone => true
      | PStr s, PStr t => String.eqb s t
      | PPath s, PPath t => String.eqb s t
      | PObj n, PObj m => n =? m
      | PList l, PList m | PTup l, PTup m =>
          (fix go l m := match l, m with
                         | [], [] => true
                         | x :: l', y :: m' => pyeq x y && go l' m'
                         | _, _ => false
                         end) l m
      | PSet l, PSet m => (length l =? length m) && forallb (fun x => existsb (pyeq x) m) l
      | PDict d, PDict e =>
          (length d =? length e) && forallb (fun kx => existsb (fun ky => String.eqb (fst kx) (fst ky) && pyeq (snd kx) (snd ky)) e) d
      | PInst c f, PInst c' f' =>
          String.eqb c c' &&
          (fix go (f f' : list (string * pv)) := match f, f' with
                         | [], [] => true
                         | (n, x) :: f1, (n', y) :: f2 => String.eqb n n' && pyeq x y && go f1 f2
                         | _, _ => false
                         end) f f'
      | _, _ => false
      end
  end.
Fixpoint hashable (v : pv) : bool :=
  match v with
  | PList _ | PSet _ | PDict _ => false
  | PTup l => forallb hashable l
  | PInst _ f => forallb (fun nv => hashable (snd nv)) f       (* NamedTuples and frozen dataclasses *)
  | _ => true
  end.
(** len(set(l)) == len(l) *)
Fixpoint distinct (l : list pv) : bool :=
  match l with
  | [] => true
  | x :: l' => negb (existsb (pyeq x) l') && distinct l'
  end.

(** *** dictionaries *)
Fixpoint dget (k : string) (d : list (string * pv)) : option pv :=
  match d with
  | [] => None
  | (k', v) :: d' => if String.eqb k k' then Some v else dget k d'
  end.
Fixpoint dput (k : string) (v : pv) (d : list (string * pv)) : list (string * pv) :=
  match d with
  | [] => [(k, v)]
  | (k', v') :: d' => if String.eqb k k' then (k', v) :: d' else (k', v') :: dput k v d'
  end.
Fixpoint dpop (k : string) (d : list (string * pv)) : list (string * pv) :=
  match d with
  | [] => []
  | (k', v) :: d' => if String.eqb k k' then d' else (k', v) :: dpop k d'
  end.
Definition has (k : string) (d : list (string * pv)) : bool := match dget k d with Some _ => true | None => false end.
(** key.replace("-", "_") *)
Fixpoint undash (s : string) : string :=
  match s with
  | EmptyString => EmptyString
  | String c s' => String (if Ascii.eqb c "-" then "_"%char else c) (undash s')
  end.
(** the dict comprehension of lines 298-299 *)
Definition undash_keys (d : list (string * pv)) : list (string * pv) :=
  fold_left (fun acc kv => dput (undash (fst kv)) (snd kv) acc) d [].

Definition f_name (f : string * ty * option pv) : string := fst (fst f).
Definition f_type (f : string * ty * option pv) : ty := snd (fst f).
Definition f_default (f : string * ty * option pv) : option pv := snd f.
Definition field_names (fs : list (string * ty * option pv)) : list string := map f_name fs.
Definition subset (ks names : list string) : bool := forallb (fun k => existsb (String.eqb k) names) ks.

(** "__module__" in raw_data and ("__class__" in raw_data or "__function__" in raw_data) *)
Definition names_object (d : list (string * pv)) : bool := has "__module__" d && (has "__class__" d || has "__function__" d).

(** *** converting the parts of a container with [cv] *)
Section Parts.
  Variable cv1 : pv -> cres pv.
  (** a list comprehension *)
  Fixpoint conv_all (l : list pv) : cres (list pv) :=
    match l with
    | [] => COk []
    | x :: l' => cbind (cv1 x) (fun v => cbind (conv_all l') (fun vs => COk (v :: vs)))
    end.
  (** set(...) of a generator: adding an unhashable element raises TypeError *)
  Fixpoint conv_set (l : list pv) : cres (list pv) :=
    match l with
    | [] => COk []
    | x :: l' => cbind (cv1 x) (fun v => if hashable v then cbind (conv_set l') (fun vs => COk (v :: vs)) else CErr TypeError)
    end.
  Fixpoint conv_vals (d : list (string * pv)) : cres (list (string * pv)) :=
    match d with
    | [] => COk []
    | (k, x) :: d' => cbind (cv1 x) (fun v => cbind (conv_vals d') (fun vs => COk ((k, v) :: vs)))
    end.
End Parts.
Section TypedParts.
  Variable cv : option pv -> ty -> cres pv.
  (** the alternatives of a Union in order; only a JsonValueError is caught *)
  Fixpoint conv_alts (r : pv) (ts : list ty) : cres pv :=
    match ts with
    | [] => CJson
    | t :: ts' => match cv (Some r) t with CJson => conv_alts r ts' | res => res end
    end.
  (** zip(raw_data, inner_types) *)
  Fixpoint conv_zip (ts : list ty) (l : list pv) : cres (list pv) :=
    match ts, l with
    | t :: ts', x :: l' => cbind (cv (Some x) t) (fun v => cbind (conv_zip ts' l') (fun vs => COk (v :: vs)))
    | _, _ => COk []
    end.
  (** the keyword arguments: the given value, or else the default *)
  Fixpoint conv_fields (d : list (string * pv)) (fs : list (string * ty * option pv)) : cres (list (string * pv)) :=
    match fs with
    | [] => COk []
    | (n, t, dflt) :: fs' =>
        cbind (cv (match dget n d with Some v => Some v | None => dflt end) t) (fun v =>
        cbind (conv_fields d fs') (fun rest => COk ((n, v) :: rest)))
    end.
End TypedParts.

Section Convert.
  Variable accepts : string -> list (string * pv) -> bool.
  Variables (strict imports : bool).
  (** raw_to_instance(raw_data, inst_type, strict) *)
  Variable inst : list (string * pv) -> ty -> cres pv.

  (** the check for additional attributes (312-319, 366-375) and inst_type applied to the keyword arguments *)
  Definition construct (c : string) (fs : list (string * ty * option pv)) (d kwargs : list (string * pv)) : cres pv :=
    if strict && negb (subset (map fst d) (field_names fs)) then CJson
    else if accepts c kwargs then COk (PInst c kwargs) else CJson.
  Definition plain_or_inst (r : pv) (t : ty) : cres pv :=
    match r with
    | PDict d => if imports && names_object d then inst d t else COk r
    | _ => COk r
    end.

  (** 164-512; None: _missing_value *)
  Fixpoint raw_to_typed (raw : option pv) (t : ty) {struct t} : cres pv :=
    match raw with
    | None => CJson                                                              (* 198-205 *)
    | Some r =>
        match t with
        | TStr => match r with PStr _ => COk r | _ => CJson end                   (* 206-218 *)
        | TInt => match r with PInt _ | PBool _ => COk r | _ => CJson end
        | TFloat => match r with PFloat _ | PInt _ | PBool _ => COk r | _ => CJson end
        | TBool => match r with PBool _ => COk r | _ => CJson end
        | TNone => match r with PNone => COk r | _ => CJson end
        | TAny => plain_or_inst r t                                              (* 219-228 *)
        | TLit vs => if existsb (pyeq r) vs then COk r else CJson                (* 229-240 *)
        | TUnion ts => conv_alts raw_to_typed r ts                               (* 241-283 *)
        | TNamed c fs =>                                                         (* 284-329 *)
            match r with
            | PDict d0 => let d := undash_keys d0 in cbind (conv_fields raw_to_typed d fs) (construct c fs d)
            | _ => CJson
            end
        | TData c fs =>                                                          (* 330-382 *)
            match r with
            | PDict d => cbind (conv_fields raw_to_typed d fs) (construct c fs d)
            | _ => CJson
            end
        | TList t1 =>                                                            (* 383-399 *)
            match r with
            | PList l => cbind (conv_all (fun x => raw_to_typed (Some x) t1) l) (fun vs => COk (PList vs))
            | _ => CJson
            end
        | TSet t1 =>                                                             (* 400-425 *)
            match r with
            | PList l => cbind (conv_set (fun x => raw_to_typed (Some x) t1) l) (fun vs => if distinct vs then COk (PSet vs) else CJson)
            | _ => CJson
            end
        | TTupOf t1 =>                                                           (* 426-445 *)
            match r with
            | PList l => cbind (conv_all (fun x => raw_to_typed (Some x) t1) l) (fun vs => COk (PTup vs))
            | _ => CJson
            end
        | TTup ts =>                                                             (* 446-462: a list comprehension *)
            match r with
            | PList l => if negb (length l =? length ts) then CJson else cbind (conv_zip raw_to_typed ts l) (fun vs => COk (PList vs))
            | _ => CJson
            end
        | TDict t1 =>                                                            (* 463-480 *)
            match r with
            | PDict d => cbind (conv_vals (fun x => raw_to_typed (Some x) t1) d) (fun vs => COk (PDict vs))
            | _ => CJson
            end
        | TRawDict => match r with PDict _ => COk r | _ => CJson end             (* 481-491 *)
        | TRawList => match r with PList _ => COk r | _ => CJson end
        | TPath => match r with PStr s => COk (PPath s) | PPath _ => COk r | _ => CJson end  (* 492-503 *)
        | TClassOf _ | TCallable | TCls _ => plain_or_inst r t                   (* 504-512 *)
        end
    end.
End Convert.

(** 1100-1131 *)
Fixpoint to_json_object (v : pv) : cres pv :=
  match v with
  | PNone | PBool _ | PInt _ | PFloat _ | PStr _ => COk v
  | PInst _ f | PDict f => cbind (conv_vals to_json_object f) (fun d => COk (PDict d))
  | PList l | PTup l => cbind (conv_all to_json_object l) (fun l' => COk (PList l'))
  | PSet _ | PPath _ | PObj _ => CErr RuntimeError
  end.

(** *** calling functions and classes *)
Inductive pkind := PosOrKw | KwOnly | VarKw | VarPos | PosOnly.
Record param := mkParam { p_name : string; p_kind : pkind; p_type : option ty; p_default : option pv }.

(** a class or function: is it a class, can it be called, the parameters (without self), what a call does *)
Record pyobj := mkObj {
  ob_class : bool; ob_callable : bool; ob_params : list param;
  ob_call : list pv -> list (string * pv) -> cres pv }.

Section Call.
  Variable accepts : string -> list (string * pv) -> bool.
  Variables (strict imports : bool).
  Variable inst : list (string * pv) -> ty -> cres pv.
  Notation conv := (raw_to_typed accepts strict imports inst).

  Definition annotation (p : param) : ty := match p_type p with Some t => t | None => TAny end.

  (** 549-582: the arguments given as a dict *)
  Fixpoint bind_dict (ps : list param) (unused kwargs : list (string * pv)) : cres (list (string * pv)) :=
    match ps with
    | [] => if strict && negb (length unused =? 0) then CErr ValueError else COk kwargs
    | p :: ps' =>
        match p_kind p with
        | PosOrKw | KwOnly =>
            match dget (p_name p) unused, p_default p with
            | None, None => CErr ValueError
            | None, Some v | Some v, _ =>
                cbind (conv (Some v) (annotation p)) (fun x =>
                bind_dict ps' (dpop (p_name p) unused) (dput (p_name p) x kwargs))
            end
        | VarKw =>
            cbind ((fix go (d kwargs : list (string * pv)) : cres (list (string * pv)) :=
                      match d with
                      | [] => COk kwargs
                      | (k, v) :: d' => cbind (conv (Some v) (annotation p)) (fun x => go d' (dput k x kwargs))
                      end) unused kwargs) (fun kwargs' =>
            bind_dict ps' [] kwargs')
        | VarPos => bind_dict ps' unused kwargs
        | PosOnly => CErr RuntimeError
        end
    end.

  (** 583-621: given as a list; [unused_args.pop()] takes the last one.  [rev_unused]: the unused arguments, last first *)
  Fixpoint bind_list (ps : list param) (rev_unused args : list pv) : cres (list pv) :=
    match ps with
    | [] => if strict && negb (length rev_unused =? 0) then CErr ValueError else COk args
    | p :: ps' =>
        match p_kind p with
        | PosOnly =>
            match rev_unused, p_default p with
            | [], None => CErr ValueError
            | [], Some _ => CErr IndexError                       (* unused_args.pop() of the empty list *)
            | v :: u, _ => cbind (conv (Some v) (annotation p)) (fun x => bind_list ps' u (args ++ [x]))
            end
        | PosOrKw =>
            match rev_unused, p_default p with
            | [], None => CErr ValueError
            | [], Some v => cbind (conv (Some v) (annotation p)) (fun x => bind_list ps' [] (args ++ [x]))
            | v :: u, _ => cbind (conv (Some v) (annotation p)) (fun x => bind_list ps' u (args ++ [x]))
            end
        | VarPos =>
            cbind ((fix go (l args : list pv) : cres (list pv) :=
                      match l with
                      | [] => COk args
                      | v :: l' => cbind (conv (Some v) (annotation p)) (fun x => go l' (args ++ [x]))
                      end) (rev rev_unused) args) (fun args' =>
            bind_list ps' [] args')
        | VarKw => bind_list ps' rev_unused args
        | KwOnly => CErr RuntimeError
        end
    end.

  (** 515-626 *)
  Definition safe_call_function (raw : pv) (fn : pyobj) : cres pv :=
    match raw with
    | PDict d => cbind (bind_dict (ob_params fn) d []) (fun kwargs => ob_call fn [] kwargs)
    | PList l => cbind (bind_list (ob_params fn) (rev l) []) (fun args => ob_call fn args [])
    | _ => CErr ValueError
    end.
End Call.

(** the classes that issubclass is asked about *)
Inductive cref := KList | KSet | KTuple | KDict | KType | KCallable | KUser (n : nat).

Section Instance.
  Variable accepts : string -> list (string * pv) -> bool.
  (** importlib.import_module and getattr: None if there is no such module; an object, or AttributeError *)
  Variable import : string -> option (string -> option pyobj).
  Variable value_of : pyobj -> pv.                       (* the object as a value *)
  Variable type_of : pv -> pyobj.                        (* type(value) *)
  Variable of_type : ty -> option pyobj.                 (* the expected type, as something that can be called *)
  Variable issub : pyobj -> cref -> bool.                (* issubclass *)
  Variable meta : nat -> bool.                           (* class n is a subclass of type *)
  Variable strict : bool.

  (** 43-58 _check_instance_type; where no branch returns, the result is None *)
  Fixpoint check_instance_type (x : pyobj) (t : ty) : bool :=
    match t with
    | TUnion ts => existsb (check_instance_type x) ts
    | TList _ => issub x KList
    | TSet _ => issub x KSet
    | TTupOf _ | TTup _ => issub x KTuple
    | TDict _ => issub x KDict
    | TClassOf _ => issub x KType
    | TCallable => issub x KCallable
    | TLit _ => false
    | TAny => true
    | TCls n => negb (meta n) || issub x (KUser n)       (* not issubclass(inst_type, type) or issubclass(cls, inst_type) *)
    | TStr | TInt | TFloat | TBool | TNone | TNamed _ _ | TData _ _ | TRawDict | TRawList | TPath => true
    end.

  (** 121-130 *)
  Definition find_object (m o : string) : cres pyobj :=
    match import m with
    | Some attrs => match attrs o with Some x => COk x | None => CErr OtherError end
    | None =>
        match import "megatron.energon" with
        | Some attrs => match attrs o with Some x => COk x | None => CErr OtherError end
        | None => CErr OtherError
        end
    end.
  (** module and object names are strings; anything else is taken as None *)
  Definition as_str (v : option pv) : option string := match v with Some (PStr s) => Some s | _ => None end.

  (** 156-161 *)
  Definition call_object (inst : list (string * pv) -> ty -> cres pv) (t : ty) (x : pyobj) (kw : list (string * pv)) : cres pv :=
    cbind (safe_call_function accepts strict true inst (PDict kw) x) (fun r =>
    if negb (ob_class x) || check_instance_type (type_of r) t then COk r else CErr AssertionError).
  (** 118-119: cls = inst_type *)
  Definition call_default inst (t : ty) (kw : list (string * pv)) : cres pv :=
    match of_type t with Some x => call_object inst t x kw | None => CErr ValueError end.

  (** 61-161.  [fuel]: Python's recursion limit *)
  Fixpoint raw_to_instance (fuel : nat) (kwargs0 : list (string * pv)) (t : ty) : cres pv :=
    match fuel with
    | 0 => CErr RuntimeError                                              (* RecursionError *)
    | S fuel' =>
        let module_name := as_str (dget "__module__" kwargs0) in
        let kwargs := dpop "__module__" kwargs0 in
        match t with
        | TClassOf n =>                                                   (* 88-98, 131-137 *)
            match module_name, as_str (dget "__class__" kwargs) with
            | Some m, Some o => cbind (find_object m o) (fun x =>
                if ob_class x && issub x (KUser n) then COk (value_of x) else CJson)
            | _, _ => CJson
            end
        | TCallable =>                                                    (* 99-108, 138-142 *)
            match module_name, as_str (dget "__function__" kwargs) with
            | Some m, Some o => cbind (find_object m o) (fun x => if ob_callable x then COk (value_of x) else CJson)
            | _, _ => CJson
            end
        | _ =>
            if has "__class__" kwargs then                                (* 110-113, 143-147 *)
              let kw := dpop "__class__" kwargs in
              match module_name, as_str (dget "__class__" kwargs) with
              | Some m, Some o => cbind (find_object m o) (fun x =>
                  if ob_class x && check_instance_type x t then call_object (raw_to_instance fuel') t x kw else CJson)
              | _, _ => call_default (raw_to_instance fuel') t kw
              end
            else if has "__function__" kwargs then                        (* 114-117, 148-153 *)
              let kw := dpop "__function__" kwargs in
              match module_name, as_str (dget "__function__" kwargs) with
              | Some m, Some o => cbind (find_object m o) (fun x =>
                  if ob_callable x then call_object (raw_to_instance fuel') t x kw else CJson)
              | _, _ => call_default (raw_to_instance fuel') t kw
              end
            else match module_name with
                 | None => call_default (raw_to_instance fuel') t kwargs
                 | Some _ => CErr OtherError                              (* object_name is not bound *)
                 end
        end
    end.

  (** dataset_config.py:20-51 load_config, on the dictionary read from the file *)
  Definition dict_update (d e : list (string * pv)) : list (string * pv) := fold_left (fun acc kv => dput (fst kv) (snd kv) acc) e d.
  Definition load_config (fuel : nat) (data : list (string * pv)) (default_type : ty) (default_kwargs : option (list (string * pv))) : cres pv :=
    let data := match default_kwargs with Some dk => dict_update dk data | None => data end in
    raw_to_instance fuel data default_type.
End Instance.

(** structs.py:10-21 *)
Definition info_type : ty := TData "WebdatasetInfo" [("shard_counts", TDict TInt, None)].
Definition splits_type : ty :=
  TData "WebdatasetSplits" [("split_parts", TDict (TList TStr), None); ("exclude", TList TStr, Some (PList []))].
(** prepare.py:217-219, 257 and metadata.py:40-47: what is written and read *)
Definition info_value (counts : list (string * Z)) : pv :=
  PInst "WebdatasetInfo" [("shard_counts", PDict (map (fun kc => (fst kc, PInt (snd kc))) counts))].
Definition splits_value (parts : list (string * list string)) (exclude : list string) : pv :=
  PInst "WebdatasetSplits" [("split_parts", PDict (map (fun kp => (fst kp, PList (map PStr (snd kp)))) parts));
                            ("exclude", PList (map PStr exclude))].
