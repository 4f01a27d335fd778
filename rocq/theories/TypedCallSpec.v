(** What the arguments of a call should be. *)
From Coq Require Import String Ascii QArith.
From Verif Require Import Base Typed.
Local Close Scope Q_scope.
Local Close Scope Z_scope.
Local Open Scope string_scope.
Local Open Scope list_scope.
Local Open Scope nat_scope.

Definition is_named (p : param) : bool := match p_kind p with PosOrKw | KwOnly => true | _ => false end.
Definition named_params (ps : list param) : list param := filter is_named ps.
Definition var_kw (ps : list param) : option param := find (fun p => match p_kind p with VarKw => true | _ => false end) ps.

(** a Python signature that can be called with keyword arguments: double-star parameter last, different names, no positional-only parameters *)
Fixpoint kwargs_last (ps : list param) : Prop :=
  match ps with
  | [] => True
  | p :: ps' => (p_kind p = VarKw -> ps' = []) /\ p_kind p <> PosOnly /\ kwargs_last ps'
  end.
Definition signature_ok (ps : list param) : Prop := kwargs_last ps /\ NoDup (map p_name (named_params ps)).

(** the call receives: for each named parameter the given value, or else its default; the other given
    values if there is a double-star parameter.  All converted to the annotated types by [conv]. *)
Record receives (conv : pv -> ty -> cres pv) (strict : bool) (ps : list param) (given kw : list (string * pv)) : Prop := mkReceives {
  rc_named : forall p, In p (named_params ps) -> exists raw x,
    (dget (p_name p) given = Some raw \/ (dget (p_name p) given = None /\ p_default p = Some raw)) /\
    conv raw (annotation p) = COk x /\ dget (p_name p) kw = Some x;
  rc_other : forall k, ~ In k (map p_name (named_params ps)) ->
    match dget k given, var_kw ps with
    | Some raw, Some p => exists x, conv raw (annotation p) = COk x /\ dget k kw = Some x
    | _, _ => dget k kw = None
    end;
  rc_strict : strict = true -> var_kw ps = None -> forall k raw, dget k given = Some raw -> In k (map p_name (named_params ps)) }.

(** the value of [k] in the file, or else in the defaults *)
Definition file_or_default (data dk : list (string * pv)) (k : string) : option pv :=
  match dget k data with Some v => Some v | None => dget k dk end.
