(** What it means to change parts of a typed object by their names (property C56). *)
From Coq Require Import String Ascii QArith.
From Verif Require Import Base Typed Override.
Local Close Scope Q_scope.
Local Close Scope Z_scope.
Local Open Scope string_scope.
Local Open Scope list_scope.
Local Open Scope nat_scope.

(** the part of a value named by a path: fields of fields *)
Fixpoint part (v : pv) (p : list string) : option pv :=
  match p with
  | [] => Some v
  | n :: p' => match v with
               | PInst _ f => match dget n f with Some x => part x p' | None => None end
               | _ => None
               end
  end.
(** the declared type of that part *)
Fixpoint field_type (n : string) (fs : list (string * ty * option pv)) : option ty :=
  match fs with
  | [] => None
  | (m, t, _) :: fs' => if String.eqb n m then Some t else field_type n fs'
  end.
Fixpoint type_at (t : ty) (p : list string) : option ty :=
  match p with
  | [] => Some t
  | n :: p' => match t with
               | TNamed _ fs | TData _ fs => match field_type n fs with Some t' => type_at t' p' | None => None end
               | _ => None
               end
  end.

(** a.b.c *)
Fixpoint dotted (p : list string) : string :=
  match p with
  | [] => ""
  | [n] => n
  | n :: p' => n ++ "." ++ dotted p'
  end.
(** Python names have no dots and dashes *)
Fixpoint is_name (s : string) : Prop :=
  match s with
  | EmptyString => True
  | String c s' => c <> "."%char /\ c <> "-"%char /\ is_name s'
  end.

(** plain values, and text *)
Definition is_scalar (t : ty) : Prop := match t with TStr | TInt | TFloat | TBool | TNone => True | _ => False end.
Definition is_class (t : ty) : Prop := match t with TNamed _ _ | TData _ _ => True | _ => False end.
(** NamedTuples and dataclasses of such and of plain values *)
Fixpoint class_tree (t : ty) : Prop :=
  match t with
  | TStr | TInt | TFloat | TBool | TNone => True
  | TNamed _ fs | TData _ fs =>
      NoDup (map f_name fs) /\ Forall is_name (map f_name fs) /\
      (fix go (fs : list (string * ty * option pv)) := match fs with [] => True | (_, t1, _) :: fs' => class_tree t1 /\ go fs' end) fs
  | _ => False
  end.
(** nesting depth *)
Fixpoint depth (t : ty) : nat :=
  match t with
  | TNamed _ fs | TData _ fs => S ((fix go (fs : list (string * ty * option pv)) := match fs with [] => 0 | (_, t1, _) :: fs' => Nat.max (depth t1) (go fs') end) fs)
  | _ => 1
  end.

(** what a text or a value stands for, where a plain value is declared *)
Definition stands_for (T : text_fns) (t : ty) (x y : pv) : Prop :=
  match t with
  | TStr => y = x /\ exists s, x = PStr s
  | TInt => (exists s z, x = PStr s /\ int_of T s = Some z /\ y = PInt z) \/ (y = x /\ ((exists z, x = PInt z) \/ exists b, x = PBool b))
  | TFloat => (exists s q, x = PStr s /\ float_of T s = Some q /\ y = PFloat q) \/
              (y = x /\ ((exists q, x = PFloat q) \/ (exists z, x = PInt z) \/ exists b, x = PBool b))
  | TBool => (y = PBool true /\ In x [PStr "True"; PStr "true"; PStr "1"]) \/ (y = PBool false /\ In x [PStr "False"; PStr "false"; PStr "0"]) \/
             (y = x /\ exists b, x = PBool b)
  | TNone => y = PNone /\ (x = PStr "None" \/ x = PNone)
  | _ => False
  end.

(** one path begins with the other *)
Definition begins (p q : list string) : Prop := exists r, (p ++ r = q)%list.
Definition comparable (p q : list string) : Prop := begins p q \/ begins q p.

(** a list of changes: every path once, none inside another, values given as text or plain values *)
Definition text_or_scalar (x : pv) : Prop := match x with PNone | PBool _ | PInt _ | PFloat _ | PStr _ => True | _ => False end.
Definition changes_ok (l : list (list string * pv)) : Prop :=
  (forall p x, In (p, x) l -> p <> [] /\ Forall is_name p /\ text_or_scalar x) /\
  ForallOrdPairs (fun a b => ~ comparable (fst a) (fst b)) l.
(** the dictionary {"a.b": x, ...} *)
Definition as_dict (l : list (list string * pv)) : pv := PDict (map (fun c => (dotted (fst c), snd c)) l).
