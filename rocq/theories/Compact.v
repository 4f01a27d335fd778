(** Model of errors.py:8-54 compact_str, used for the messages of SampleException.from_sample (errors.py:66-68) and
    FieldAccessError (field_access.py:60-68).

    Simplifications: depth, max_items and max_str_len are natural numbers (a negative depth is treated like 0 by the code,
    negative limits are not modelled).  repr() of a string is an arbitrary function [srepr]; a value that is neither a
    dictionary, a list nor a string (number, None, bytes, tensor, tuple ...) is its repr(); a key that is not a string is
    the pair of its str() and its repr(). *)
From Coq Require Import String Ascii.
From Verif Require Import Base.
Local Open Scope string_scope.
Local Open Scope list_scope.
Local Open Scope nat_scope.

Inductive pkey := KStr (s : string) | KOther (str repr : string).
Inductive pyval :=
| PDict (m : list (pkey * pyval))
| PList (l : list pyval)
| PStr (s : string)
| POther (repr : string).

(** ", ".join(l) *)
Fixpoint commas (l : list string) : string :=
  match l with
  | [] => ""
  | [x] => x
  | x :: l' => (x ++ ", " ++ commas l')%string
  end.

(** f"{k}" *)
Definition key_text (k : pkey) : string := match k with KStr s => s | KOther s _ => s end.

(** isinstance(k, str) and k.startswith("__") *)
Definition dunder (k : pkey) : bool := match k with KStr s => String.prefix "__" s | KOther _ _ => false end.

Section Repr.
  Variable srepr : string -> string.

  (** repr(v), as used by {v!r} *)
  Fixpoint vrepr (v : pyval) : string :=
    match v with
    | PDict m => ("{" ++ commas (map (fun kv => (match fst kv with KStr s => srepr s | KOther _ r => r end) ++ ": " ++ vrepr (snd kv))%string m) ++ "}")%string
    | PList l => ("[" ++ commas (map vrepr l) ++ "]")%string
    | PStr s => srepr s
    | POther r => r
    end.

  (** errors.py:8-54 *)
  Fixpoint compact (max_items max_str_len : nat) (v : pyval) (depth : nat) : string :=
    match v with
    | PDict m =>
        match depth with
        | O => "{...}"
        | S d => ("{" ++ commas (firstn max_items (map (fun kv =>
                    if dunder (fst kv) then (key_text (fst kv) ++ ": " ++ vrepr (snd kv))%string
                    else (key_text (fst kv) ++ ": " ++ compact max_items max_str_len (snd kv) d)%string) m)) ++ "}")%string
        end
    | PList l =>
        match depth with
        | O => "[...]"
        | S d => ("[" ++ commas (firstn max_items (map (fun x => compact max_items max_str_len x d) l)) ++ "]")%string
        end
    | PStr s => if max_str_len <? String.length s then srepr (String.substring 0 max_str_len s ++ "...")%string else srepr s
    | POther r => r
    end.

  (** errors.py:66-68: the message of SampleException.from_sample, with the default limits *)
  Definition sample_failed (v : pyval) : string := ("Sample " ++ compact 10 50 v 3 ++ " failed")%string.
End Repr.
