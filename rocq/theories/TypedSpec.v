(** What it means for a value to have a type, to be plain data, and for data to be contained in other data. *)
From Coq Require Import String Ascii QArith.
From Verif Require Import Base Typed.
Local Close Scope Q_scope.
Local Close Scope Z_scope.
Local Open Scope string_scope.
Local Open Scope list_scope.
Local Open Scope nat_scope.

(** plain data: what YAML and JSON files contain (no key twice) *)
Fixpoint is_json (v : pv) : Prop :=
  match v with
  | PNone | PBool _ | PInt _ | PFloat _ | PStr _ => True
  | PList l => (fix go l := match l with [] => True | x :: l' => is_json x /\ go l' end) l
  | PDict d => NoDup (map fst d) /\ (fix go (d : list (string * pv)) := match d with [] => True | (_, x) :: d' => is_json x /\ go d' end) d
  | _ => False
  end.

(** [v] is a value of type [t]; [any v]: it is acceptable where everything is; [accepts]: the constructors' own checks.
    As usual in Python, a bool is an int and an int is a float; Literal compares with ==. *)
Section Type_.
  Variable accepts : string -> list (string * pv) -> bool.
  Variable any : pv -> Prop.
  Fixpoint inhab (v : pv) (t : ty) {struct t} : Prop :=
    match t with
    | TStr => exists s, v = PStr s
    | TInt => (exists z, v = PInt z) \/ (exists b, v = PBool b)
    | TFloat => (exists q, v = PFloat q) \/ (exists z, v = PInt z) \/ (exists b, v = PBool b)
    | TBool => exists b, v = PBool b
    | TNone => v = PNone
    | TAny => any v
    | TLit vs => exists x, In x vs /\ pyeq v x = true
    | TUnion ts => (fix go ts := match ts with [] => False | t1 :: ts' => inhab v t1 \/ go ts' end) ts
    | TNamed c fs | TData c fs =>
        exists f, v = PInst c f /\ accepts c f = true /\
          (fix go (fs : list (string * ty * option pv)) (f : list (string * pv)) :=
             match fs, f with
             | [], [] => True
             | (n, t1, _) :: fs', (m, x) :: f' => n = m /\ inhab x t1 /\ go fs' f'
             | _, _ => False
             end) fs f
    | TList t1 => exists l, v = PList l /\ Forall (fun x => inhab x t1) l
    | TSet t1 => exists l, v = PSet l /\ Forall (fun x => inhab x t1) l /\ ForallOrdPairs (fun x y => pyeq x y = false) l   (* nothing in it twice *)
    | TTupOf t1 => exists l, v = PTup l /\ Forall (fun x => inhab x t1) l
    | TTup ts => exists l, v = PTup l /\
        (fix go ts l := match ts, l with [], [] => True | t1 :: ts', x :: l' => inhab x t1 /\ go ts' l' | _, _ => False end) ts l
    | TDict t1 => exists d, v = PDict d /\ Forall (fun kx => inhab (snd kx) t1) d
    | TRawDict => exists d, v = PDict d /\ any v
    | TRawList => exists l, v = PList l /\ any v
    | TPath => exists s, v = PPath s
    | TClassOf _ | TCallable | TCls _ => exists n, v = PObj n       (* an object: certainly no plain data *)
    end.
End Type_.

(** types that are fully checked when data is read: no Tuple[a, b] and no other classes *)
Fixpoint checked (t : ty) : Prop :=
  match t with
  | TTup _ | TClassOf _ | TCallable | TCls _ => False
  | TUnion ts => (fix go ts := match ts with [] => True | t1 :: ts' => checked t1 /\ go ts' end) ts
  | TNamed _ fs | TData _ fs => (fix go (fs : list (string * ty * option pv)) := match fs with [] => True | (_, t1, _) :: fs' => checked t1 /\ go fs' end) fs
  | TList t1 | TSet t1 | TTupOf t1 | TDict t1 => checked t1
  | _ => True
  end.

(** the kinds of plain data a type can be read from *)
Inductive shape := HNull | HBool | HInt | HFloat | HStr | HList | HDict.
Definition shape_of (v : pv) : option shape :=
  match v with
  | PNone => Some HNull | PBool _ => Some HBool | PInt _ => Some HInt | PFloat _ => Some HFloat | PStr _ => Some HStr
  | PList _ => Some HList | PDict _ => Some HDict | _ => None
  end.
Fixpoint shapes (t : ty) : list shape :=
  match t with
  | TStr | TPath => [HStr]
  | TInt => [HInt; HBool]
  | TFloat => [HFloat; HInt; HBool]
  | TBool => [HBool]
  | TNone => [HNull]
  | TUnion ts => flat_map shapes ts
  | TNamed _ _ | TData _ _ | TDict _ | TRawDict => [HDict]
  | TList _ | TSet _ | TTupOf _ | TTup _ | TRawList => [HList]
  | _ => [HNull; HBool; HInt; HFloat; HStr; HList; HDict]
  end.
Definition scalar (t : ty) : Prop := match t with TStr | TInt | TFloat | TBool | TNone | TLit _ => True | _ => False end.
(** two alternatives of a Union that cannot be confused *)
Definition separate (t1 t2 : ty) : Prop := (forall h, In h (shapes t1) -> ~ In h (shapes t2)) \/ (scalar t1 /\ scalar t2).

(** types whose values can be written and read back: alternatives of Unions cannot be confused, field names
    are different (and are identifiers, without dashes), no sets, no Tuple[a, b], no paths, no other classes *)
Definition plain_value (v : pv) : Prop := match v with PNone | PBool _ | PInt _ | PFloat _ | PStr _ => True | _ => False end.
Fixpoint storable (t : ty) : Prop :=
  match t with
  | TSet _ | TTup _ | TPath | TClassOf _ | TCallable | TCls _ => False
  | TLit vs => Forall plain_value vs
  | TUnion ts => ForallOrdPairs separate ts /\ (fix go ts := match ts with [] => True | t1 :: ts' => storable t1 /\ go ts' end) ts
  | TNamed _ fs | TData _ fs =>
      NoDup (field_names fs) /\ Forall (fun n => undash n = n) (field_names fs) /\
      (fix go (fs : list (string * ty * option pv)) := match fs with [] => True | (_, t1, _) :: fs' => storable t1 /\ go fs' end) fs
  | TList t1 | TTupOf t1 | TDict t1 => storable t1
  | _ => True
  end.

(** a value written as plain data (in any case) *)
Fixpoint render (v : pv) : pv :=
  match v with
  | PInst _ f | PDict f => PDict (map (fun nx => (fst nx, render (snd nx))) f)
  | PList l | PTup l | PSet l => PList (map render l)
  | PPath s => PStr s
  | _ => v
  end.

(** everything in [r] is also in [s]; [s] may have more keys *)
Fixpoint covered (r s : pv) {struct r} : Prop :=
  match r, s with
  | PList l, PList m =>
      (fix go l m := match l, m with [], [] => True | x :: l', y :: m' => covered x y /\ go l' m' | _, _ => False end) l m
  | PDict d, PDict e =>
      (fix go (d : list (string * pv)) := match d with [] => True | (k, x) :: d' => (exists y, dget k e = Some y /\ covered x y) /\ go d' end) d
  | PList _, _ | PDict _, _ => False
  | _, _ => r = s
  end.

(** no key contains a dash *)
Fixpoint no_dashes (v : pv) : Prop :=
  match v with
  | PList l => (fix go l := match l with [] => True | x :: l' => no_dashes x /\ go l' end) l
  | PDict d => (fix go (d : list (string * pv)) := match d with [] => True | (k, x) :: d' => undash k = k /\ no_dashes x /\ go d' end) d
  | _ => True
  end.

(** no part of the type is a Set (whose elements must be hashable) *)
Fixpoint no_sets (t : ty) : Prop :=
  match t with
  | TSet _ => False
  | TUnion ts | TTup ts => (fix go ts := match ts with [] => True | t1 :: ts' => no_sets t1 /\ go ts' end) ts
  | TNamed _ fs | TData _ fs => (fix go (fs : list (string * ty * option pv)) := match fs with [] => True | (_, t1, _) :: fs' => no_sets t1 /\ go fs' end) fs
  | TList t1 | TTupOf t1 | TDict t1 => no_sets t1
  | _ => True
  end.
