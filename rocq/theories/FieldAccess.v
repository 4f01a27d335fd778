(** Model of flavors/webdataset/field_access.py (whole file).

    Simplifications: a Python dict is an association list (first entry for a key counts); int() of a
    text accepts an optional sign followed by decimal digits (Python also accepts surrounding blanks
    and underscores); field descriptions contain no newline.  FieldAccessError is a subclass of
    SampleException, hence of ValueError (errors.py:64). *)
From Coq Require Import String Ascii ZArith.
From Verif Require Import Base.
Local Open Scope string_scope.
Local Open Scope list_scope.
Local Open Scope nat_scope.

Inductive value :=
| VDict (m : list (string * value))
| VList (l : list value)
| VLit (n : nat).               (* any literal: str, int, bool, None *)

(** exceptions raised by an access *)
Inductive fexn := FieldAccessError | IntError | OutOfRange | NoAlternative.

Fixpoint lookup (k : string) (m : list (string * value)) : option value :=
  match m with [] => None | (k', v) :: m' => if String.eqb k k' then Some v else lookup k m' end.

(** int(s) *)
Definition digit (c : ascii) : option nat :=
  let n := nat_of_ascii c in if (48 <=? n) && (n <=? 57) then Some (n - 48) else None.
Fixpoint digits (acc : nat) (s : string) : option nat :=
  match s with
  | EmptyString => Some acc
  | String c s' => match digit c with Some d => digits (10 * acc + d) s' | None => None end
  end.
Definition nat_of_text (s : string) : option nat := match s with EmptyString => None | _ => digits 0 s end.
Definition int_of_text (s : string) : option Z :=
  match s with
  | String "-" s' => option_map (fun n => Z.opp (Z.of_nat n)) (nat_of_text s')
  | String "+" s' => option_map Z.of_nat (nat_of_text s')
  | _ => option_map Z.of_nat (nat_of_text s)
  end.

(** value[i] for a list *)
Definition list_index (l : list value) (i : Z) : option value :=
  if Z.leb 0 i then nth_error l (Z.to_nat i)
  else if Z.leb 0 (i + Z.of_nat (length l)) then nth_error l (Z.to_nat (i + Z.of_nat (length l))) else None.

Inductive fres := FOk (v : value) | FErr (e : fexn).

(** field_access.py:42-66 _field_access *)
Fixpoint access1 (v : value) (field : list string) : fres :=
  match field with
  | [] => FOk v
  | f :: rest =>
      match v with
      | VDict m => match lookup f m with Some v' => access1 v' rest | None => FErr FieldAccessError end
      | VList l =>
          match int_of_text f with
          | None => FErr IntError
          | Some i => match list_index l i with Some v' => access1 v' rest | None => FErr OutOfRange end
          end
      | VLit _ => FErr FieldAccessError
      end
  end.

(** field_access.py:82-86: the exceptions swallowed between alternatives are (KeyError, ValueError,
    IndexError) *)
Definition swallowed (e : fexn) : bool :=
  match e with FieldAccessError | IntError | OutOfRange => true | NoAlternative => false end.
Fixpoint access (v : value) (field : list (list string)) : fres :=
  match field with
  | [] => FErr NoAlternative                     (* field[-1]: IndexError *)
  | [f] => access1 v f
  | f :: rest => match access1 v f with FOk r => FOk r | FErr e => if swallowed e then access v rest else FErr e end
  end.

(** ** split_field_access (lines 13-36) *)
(** s.split(c) *)
Fixpoint split_on (c : ascii) (s : string) : list string :=
  match s with
  | EmptyString => [""]
  | String d s' =>
      if Ascii.eqb d c then "" :: split_on c s'
      else match split_on c s' with x :: r => String d x :: r | [] => [String d ""] end
  end.

(** s.split("][") *)
Definition cons_first (d : ascii) (l : list string) : list string :=
  match l with x :: r => String d x :: r | [] => [String d ""] end.
Fixpoint split_close_open (s : string) : list string :=
  match s with
  | EmptyString => [""]
  | String d s' =>
      match s' with
      | String e s'' =>
          if Ascii.eqb d "]" && Ascii.eqb e "[" then "" :: split_close_open s'' else cons_first d (split_close_open s')
      | EmptyString => cons_first d (split_close_open s')
      end
  end.

Definition is_bracket (c : ascii) : bool := Ascii.eqb c "[" || Ascii.eqb c "]".

(** the regular expression, line 9: state machine over the text; [name]: characters read since the
    start or since the last opening bracket *)
Inductive rstate := InName (nonempty : bool) | InAccess (nonempty : bool) | Closed.
Fixpoint matches_from (st : rstate) (s : string) : bool :=
  match s with
  | EmptyString => match st with InName b => b | InAccess _ => false | Closed => true end
  | String c s' =>
      match st with
      | InName b =>
          if Ascii.eqb c "[" then b && matches_from (InAccess false) s'
          else if Ascii.eqb c "]" then false else matches_from (InName true) s'
      | InAccess b =>
          if Ascii.eqb c "]" then b && matches_from Closed s'
          else if Ascii.eqb c "[" then false else matches_from (InAccess true) s'
      | Closed => if Ascii.eqb c "[" then matches_from (InAccess false) s' else false
      end
  end.
Definition field_re_matches (s : string) : bool := matches_from (InName false) s.

(** the groups field_name and access of a match *)
Fixpoint name_and_access (s : string) : string * string :=
  match s with
  | EmptyString => ("", "")
  | String c s' => if is_bracket c then ("", s) else let (n, a) := name_and_access s' in (String c n, a)
  end.

Fixpoint lstrip_open (s : string) : string :=
  match s with String c s' => if Ascii.eqb c "[" then lstrip_open s' else s | EmptyString => "" end.
Fixpoint rstrip_close (s : string) : string :=
  match s with
  | EmptyString => ""
  | String c s' => match rstrip_close s' with EmptyString => if Ascii.eqb c "]" then "" else String c "" | t => String c t end
  end.

Definition split_option (field_desc option : string) : list string :=
  if field_re_matches option then
    let (name, acc) := name_and_access option in
    name :: map (fun a => rstrip_close (lstrip_open a)) (filter (fun a => negb (String.eqb a "")) (split_close_open acc))
  else [field_desc].

Definition split_field_access (field_desc : string) : list (list string) :=
  map (split_option field_desc) (split_on "," field_desc).
