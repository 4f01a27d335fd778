(** Model of typed_converter.py: override (681-1097), _split_dict_keys (632-649), _isinstance_deep (652-678): changing parts of a typed
    object by dotted names.

    Simplifications as in Typed.v.  Python's text functions are parameters: str.isnumeric, int(s), float(s), json.loads (None: ValueError),
    str.strip and the regular expression for floats.  [classes]: the type of the instances of a class (for type(value)).
    [fuel] is what is left of the recursion limit. *)
From Coq Require Import String Ascii QArith.
From Verif Require Import Base Typed.
Local Close Scope Q_scope.
Local Close Scope Z_scope.
Local Open Scope string_scope.
Local Open Scope list_scope.
Local Open Scope nat_scope.

Record text_fns := mkText {
  isnumeric : string -> bool;
  int_of : string -> option Z;
  float_of : string -> option Q;
  json_loads : string -> option pv;
  strip : string -> string;
  float_like : string -> bool }.

(** key.partition(".") if "." in key *)
Fixpoint partition_dot (s : string) : option (string * string) :=
  match s with
  | EmptyString => None
  | String c s' =>
      if Ascii.eqb c "." then Some (EmptyString, s')
      else match partition_dot s' with Some (a, b) => Some (String c a, b) | None => None end
  end.

(** 632-649 _split_dict_keys *)
Fixpoint split_loop (res d : list (string * pv)) : cres (list (string * pv)) :=
  match d with
  | [] => COk res
  | (k, v) :: d' =>
      match partition_dot k with
      | Some (outer, inner) =>
          match dget outer res with
          | Some (PDict sub) => split_loop (dput outer (PDict (dput inner v sub)) res) d'
          | Some _ => CErr ValueError
          | None => split_loop (dput outer (PDict [(inner, v)]) res) d'
          end
      | None => if has k res then CErr ValueError else split_loop (dput k v res) d'
      end
  end.
Definition split_dict_keys (d : list (string * pv)) : cres (list (string * pv)) := split_loop [] d.

Definition str_in (s : string) (l : list string) : bool := existsb (String.eqb s) l.

(** 652-678 _isinstance_deep.  typing.get_args(val) of a value is (): unpacking it fails.  isinstance(val, Set[..]) and isinstance(val, Type[..])
    fail; classes of other objects are not modelled (an error) *)
Definition isinstance_deep (v : pv) (t : ty) : cres bool :=
  match t with
  | TAny => COk true
  | TLit _ | TList _ | TDict _ => CErr ValueError
  | TTupOf _ | TTup _ => COk (match v with PTup [] => true | _ => false end)
  | TStr => COk (match v with PStr _ => true | _ => false end)
  | TInt => COk (match v with PInt _ | PBool _ => true | _ => false end)
  | TFloat => COk (match v with PFloat _ => true | _ => false end)
  | TBool => COk (match v with PBool _ => true | _ => false end)
  | TNone => COk (match v with PNone => true | _ => false end)
  | TNamed c _ | TData c _ => COk (match v with PInst c' _ => String.eqb c c' | _ => false end)
  | TRawDict => COk (match v with PDict _ => true | _ => false end)
  | TRawList => COk (match v with PList _ => true | _ => false end)
  | TPath => COk (match v with PPath _ => true | _ => false end)
  | TSet _ | TUnion _ | TClassOf _ | TCallable | TCls _ => CErr TypeError
  end.

Section Override.
  Variable T : text_fns.
  Variable accepts : string -> list (string * pv) -> bool.
  Variables (strict imports : bool).
  Variable inst : list (string * pv) -> ty -> cres pv.
  Variable classes : string -> option ty.

  Definition to_typed (j : pv) (t : ty) : cres pv := raw_to_typed accepts strict imports inst (Some j) t.
  (** raw_to_typed(json.loads(overrides), ...) *)
  Definition whole_text (s : string) (t : ty) : cres pv :=
    match json_loads T s with None => CErr ValueError | Some j => to_typed j t end.

  (** 726-745 *)
  Definition override_leaf (ov : pv) (t : ty) : cres pv :=
    match t, ov with
    | TNone, PStr s => if String.eqb s "None" then COk PNone else CJson
    | TBool, PStr s => if str_in s ["True"; "true"; "1"] then COk (PBool true)
                       else if str_in s ["False"; "false"; "0"] then COk (PBool false) else CJson
    | TInt, PStr s => match int_of T s with Some z => COk (PInt z) | None => CErr ValueError end
    | TFloat, PStr s => match float_of T s with Some q => COk (PFloat q) | None => CErr ValueError end
    | TStr, PStr _ => COk ov
    | TInt, (PInt _ | PBool _) => COk ov
    | TFloat, (PFloat _ | PInt _ | PBool _) => COk ov
    | TBool, PBool _ => COk ov
    | TNone, PNone => COk ov
    | _, _ => CJson
    end.

  (** 778-800: text for a Union, alternative by alternative ([subtype is None] is never true: it is type(None)) *)
  Fixpoint union_text (s : string) (ts : list ty) : option (cres pv) :=
    match ts with
    | [] => None
    | TBool :: ts' => if String.eqb s "True" then Some (COk (PBool true)) else if String.eqb s "False" then Some (COk (PBool false)) else union_text s ts'
    | TInt :: ts' =>
        if isnumeric T (strip T s) then Some (match int_of T s with Some z => COk (PInt z) | None => CErr ValueError end) else union_text s ts'
    | TStr :: _ => Some (COk (PStr s))
    | TFloat :: ts' => if float_like T s then Some (match float_of T s with Some q => COk (PFloat q) | None => CErr ValueError end) else union_text s ts'
    | _ :: ts' => union_text s ts'
    end.
  Definition opens_json (s : string) : bool :=
    match strip T s with String c _ => Ascii.eqb c "{" || Ascii.eqb c "[" | EmptyString => false end.

  Section Rec.
    (** override(value, overrides, strict, inst_type, ...) with one level of recursion less *)
    Variable rec : pv -> pv -> ty -> cres pv.

    (** 800-822: the first alternative the old value belongs to *)
    Fixpoint union_value (v ov : pv) (ts : list ty) : cres pv :=
      match ts with
      | [] => CJson
      | t :: ts' => cbind (isinstance_deep v t) (fun b => if b then rec v ov t else union_value v ov ts')
      end.

    (** 854-872, 910-926: the keyword arguments, and what is left of local_overrides *)
    Fixpoint fields (old local : list (string * pv)) (fs : list (string * ty * option pv)) : cres (list (string * pv) * list (string * pv)) :=
      match fs with
      | [] => COk ([], local)
      | (n, t, _) :: fs' =>
          match dget n old with
          | None => CErr OtherError                                  (* AttributeError *)
          | Some v =>
              match dget n local with
              | Some o => cbind (rec v o t) (fun v' => cbind (fields old (dpop n local) fs') (fun r => COk ((n, v') :: fst r, snd r)))
              | None => cbind (fields old local fs') (fun r => COk ((n, v) :: fst r, snd r))
              end
          end
      end.
    (** 823-946: NamedTuple and dataclass; __dash_keys__ defaults to the text "False", which counts as true *)
    Definition override_class (v ov : pv) (t : ty) (c : string) (fs : list (string * ty * option pv)) : cres pv :=
      match ov with
      | PStr s => whole_text s t
      | PDict d =>
          cbind (split_dict_keys d) (fun local0 =>
          let local := undash_keys local0 in
          match v with
          | PInst _ old =>
              cbind (fields old local fs) (fun r =>
              if strict && negb (length (snd r) =? 0) then CJson
              else if accepts c (fst r) then COk (PInst c (fst r)) else CJson)
          | _ => CErr OtherError
          end)
      | _ => CJson
      end.

    (** the indexes: {int(key): value for ...} *)
    Fixpoint int_keys (d : list (string * pv)) : cres (list (Z * pv)) :=
      match d with
      | [] => COk []
      | (k, v) :: d' =>
          match int_of T k with
          | None => CErr ValueError
          | Some z => cbind (int_keys d') (fun r => COk (if existsb (fun zv => Z.eqb z (fst zv)) r then r else (z, v) :: r))
          end
      end.
    Fixpoint zget (z : Z) (d : list (Z * pv)) : option pv :=
      match d with [] => None | (z', v) :: d' => if Z.eqb z z' then Some v else zget z d' end.
    (** cls(override(value[idx], ...) if idx in local_overrides_int else value[idx] for idx in range(...)) *)
    Fixpoint items (child : pv -> pv -> cres pv) (l : list pv) (d : list (Z * pv)) (idx : list nat) : cres (list pv) :=
      match idx with
      | [] => COk []
      | i :: idx' =>
          match nth_error l i with
          | None => CErr IndexError
          | Some v =>
              cbind (match zget (Z.of_nat i) d with Some o => child v o | None => COk v end) (fun v' =>
              cbind (items child l d idx') (fun r => COk (v' :: r)))
          end
      end.
    (** 947-1037 list and tuple: [bound] for Tuple[a, b], [whole] the type used for text *)
    Definition override_seq (mk : list pv -> pv) (child : pv -> pv -> cres pv) (bound : option nat) (whole : ty) (v ov : pv) : cres pv :=
      match ov with
      | PStr s => whole_text s whole
      | PDict d =>
          cbind (split_dict_keys d) (fun local =>
          if negb (forallb (fun kv => isnumeric T (fst kv)) local) then CJson
          else
            cbind (int_keys local) (fun ints =>
            match ints with
            | [] => CErr ValueError                                  (* max() of nothing *)
            | _ =>
                let new_max := Z.to_nat (fold_right Z.max 0%Z (map fst ints)) in
                match v with
                | PList l | PTup l =>
                    if match bound with Some b => b <=? new_max | None => false end then CJson
                    else if negb (forallb (fun i => existsb (fun zv => Z.eqb (Z.of_nat i) (fst zv)) ints) (seq (length l) (new_max - length l))) then CJson
                    else cbind (items child l ints (seq 0 (Nat.max (S new_max) (length l)))) (fun r => COk (mk r))
                | _ => CErr TypeError
                end
            end))
      | _ => CJson
      end.

    (** (key, subvalue) = value: of the values that can be unpacked only texts, lists and tuples are modelled *)
    Definition unpack2 (v : pv) : cres (string * pv) :=
      match v with
      | PStr (String a (String b EmptyString)) => COk (String a EmptyString, PStr (String b EmptyString))
      | PStr _ => CErr ValueError
      | PList [PStr k; x] | PTup [PStr k; x] => COk (k, x)
      | PList _ | PTup _ => CErr ValueError
      | _ => CErr TypeError
      end.
    (** 1066-1080: [for idx, (key, subvalue) in value.items()] takes the keys for idx and unpacks the values *)
    Fixpoint entries (t : ty) (old local res : list (string * pv)) : cres (list (string * pv) * list (string * pv)) :=
      match old with
      | [] => COk (res, local)
      | (_, v) :: old' =>
          cbind (unpack2 v) (fun ks =>
          match dget (fst ks) local with
          | Some o => cbind (rec (snd ks) o t) (fun v' => entries t old' (dpop (fst ks) local) (dput (fst ks) v' res))
          | None => entries t old' local (dput (fst ks) (snd ks) res)
          end)
      end.
    (** 1081-1096 *)
    Fixpoint new_entries (t : ty) (local res : list (string * pv)) : cres (list (string * pv)) :=
      match local with
      | [] => COk res
      | (k, PStr s) :: local' => cbind (whole_text s t) (fun v => new_entries t local' (dput k v res))
      | _ => CJson
      end.
    (** 1038-1095 *)
    Definition override_dict (v ov : pv) (whole : ty) (t : ty) : cres pv :=
      match ov with
      | PStr s => whole_text s whole
      | PDict d =>
          cbind (split_dict_keys d) (fun local0 =>
          match v with
          | PDict old => cbind (entries t old (undash_keys local0) []) (fun r => cbind (new_entries t (snd r) (fst r)) (fun res => COk (PDict res)))
          | _ => CErr OtherError
          end)
      | _ => CJson
      end.

    (** 723-724: inst_type None, so type(value) *)
    Definition by_value (v ov : pv) : cres pv :=
      match v with
      | PNone => rec v ov TNone
      | PBool _ => rec v ov TBool
      | PInt _ => rec v ov TInt
      | PFloat _ => rec v ov TFloat
      | PStr _ => rec v ov TStr
      | PList _ => rec v ov TRawList
      | PDict _ => rec v ov TRawDict
      | PTup _ => override_seq PTup (fun x o => rec x o TAny) None (TCls 0) v ov
      | PInst c _ => match classes c with Some t => rec v ov t | None => CErr OtherError end
      | _ => CErr RuntimeError
      end.

    Definition override_step (v ov : pv) (t : ty) : cres pv :=
      match t with
      | TStr | TInt | TFloat | TBool | TNone => override_leaf ov t
      | TAny =>                                                      (* 746-766; "False" gives True *)
          match ov with
          | PStr s =>
              if isnumeric T s then match int_of T s with Some z => COk (PInt z) | None => CErr ValueError end
              else if str_in s ["True"; "False"] then COk (PBool true)
              else COk ov
          | _ => match v with
                 | PDict _ | PList _ | PTup _ => by_value v ov
                 | PInst c _ => match classes c with Some (TNamed _ _) => by_value v ov | _ => CJson end
                 | _ => CJson
                 end
          end
      | TLit [x] => if pyeq x ov then COk x else CJson               (* 767-777 *)
      | TLit _ => CErr ValueError
      | TUnion ts =>                                                 (* 778-822 *)
          match ov with
          | PStr s =>
              match union_text s ts with
              | Some r => r
              | None => if opens_json s then whole_text s t else to_typed ov t
              end
          | _ => union_value v ov ts
          end
      | TNamed c fs | TData c fs => override_class v ov t c fs
      | TList t1 => override_seq PList (fun x o => rec x o t1) None t v ov
      | TRawList => override_seq PList (fun x o => rec x o TAny) None t v ov
      | TTupOf t1 => override_seq PTup (fun x o => rec x o t1) None t v ov
      | TTup ts => override_seq PTup by_value (Some (length ts)) t v ov
      | TDict t1 => override_dict v ov t t1
      | TRawDict => override_dict v ov t TAny
      | TSet _ | TPath | TClassOf _ | TCallable | TCls _ => CErr RuntimeError
      end.
  End Rec.

  Fixpoint override (fuel : nat) (v ov : pv) (t : ty) : cres pv :=
    match fuel with
    | O => CErr OtherError                                           (* RecursionError *)
    | S fuel' => override_step (override fuel') v ov t
    end.
End Override.
