(** Model of tools/preview.py: `energon preview`.  Lines 22-84 (to_str), 87-92 (pprint), 106-140 (the loop over the split parts).
    Simplifications: torch floats are rational numbers; the area interpolation to the size of the terminal (45-55) is an arbitrary
    function of the gray image; what is printed is kept as a tree (the text of scalars is left out).  An image is a list of rows. *)
From Coq Require Import String QArith Qround.
From Verif Require Import Base.
Local Open Scope list_scope.
Local Close Scope Q_scope.
Local Open Scope nat_scope.

Definition gray := list (list Q).

(** what a field of a sample can hold *)
Inductive pval :=
| PGray (img : gray)                       (* a tensor with two dimensions *)
| PChannels (cs : list gray)               (* a tensor with three dimensions; the first one is the channel *)
| PTensor                                  (* a tensor with one, or more than three dimensions *)
| PText                                    (* str, int, float, bool, None, bytes, dict, any other object: its repr *)
| PSeq (l : list pval)                     (* a list or plain tuple *)
| PNamed (l : list pval).                  (* a namedtuple *)

(** what is printed *)
Inductive shown := STxt | SImg (rows : list (list nat)) (* indices into " .:-=+*#%@@" *) | SSeq (l : list shown).

Definition pixels (g : gray) : list Q := concat g.
Definition qmax (l : list Q) : Q := match l with [] => 0%Q | x :: l' => fold_left (fun a b => if Qle_bool a b then b else a) l' x end.
Definition qmin (l : list Q) : Q := match l with [] => 0%Q | x :: l' => fold_left (fun a b => if Qle_bool a b then a else b) l' x end.

(** the mean of three channels, pixel by pixel *)
Definition zip3 (a b c : gray) : gray :=
  map (fun r => map (fun p => (fst (fst p) + snd (fst p) + snd p) / (3 # 1))%Q (combine (combine (fst (fst r)) (snd (fst r))) (snd r)))
      (combine (combine a b) c).

(** preview.py:25-34: the gray image of a tensor with three dimensions, if it is taken for an image *)
Definition to_gray (cs : list gray) : option gray :=
  match cs with
  | [a] => Some a
  | [a; b; c] => Some (zip3 a b c)
  | [a; b; c; _] => Some (zip3 a b c)
  | _ => None
  end.

Section Preview.
  (** preview.py:37-53: torch.nn.functional.interpolate(mode="area") to the size of the terminal *)
  Variable resize : gray -> gray.

  (** preview.py:55, 60: (v - min) / (max - min), then int(v * 10); all pixels equal: 0/0 is nan, and int(nan) raises *)
  Definition glyph (mn mx v : Q) : nat := Z.to_nat (Qfloor ((v - mn) / (mx - mn) * (10 # 1))%Q).
  Definition draw (g : gray) : result (list (list nat)) :=
    let img := resize g in
    let mn := qmin (pixels img) in
    let mx := qmax (pixels img) in
    if Qeq_bool mn mx then match pixels img with [] => Err RuntimeError | _ => Err ValueError end
    else Ok (map (map (glyph mn mx)) img).

  (** preview.py:22-84 to_str *)
  Fixpoint to_str (v : pval) : result shown :=
    match v with
    | PGray g => bind (draw g) (fun r => Ok (SImg r))
    | PChannels cs => match to_gray cs with Some g => bind (draw g) (fun r => Ok (SImg r)) | None => Ok STxt end
    | PTensor | PText => Ok STxt
    | PSeq l => bind (sequence (map to_str l)) (fun r => Ok (SSeq r))
    | PNamed l => match l with [] => Ok (SSeq []) | _ :: _ => Err OtherError end    (* field.name: AttributeError, a str has no name *)
    end.

  (** preview.py:87-92 pprint: the fields that are printed *)
  Definition pprint (fields : list pval) : result (list shown) := sequence (map to_str fields).
End Preview.

(** preview.py:106-140: what happens for each split part.  [load] = None: EmptyDatasetError; otherwise the samples, each printed
    successfully or not; [answers]: whether the user wants to continue (one answer per printed sample; no more answers: yes) *)
Inductive pevent := EvSkip (part : nat) | EvSample (part idx : nat) | EvExit (part : nat) | EvFail (part : nat).

Fixpoint show_part (part idx : nat) (ok : list bool) (answers : list bool) : list pevent * list bool * bool :=
  match ok with
  | [] => ([], answers, true)
  | false :: _ => ([EvFail part], answers, false)
  | true :: ok' =>
      match answers with
      | false :: ans' => ([EvSample part idx; EvExit part], ans', true)              (* click.Abort is caught; the loop goes on *)
      | true :: ans' => let '(evs, a, go) := show_part part (S idx) ok' ans' in (EvSample part idx :: evs, a, go)
      | [] => let '(evs, a, go) := show_part part (S idx) ok' [] in (EvSample part idx :: evs, a, go)
      end
  end.
Fixpoint preview (part : nat) (parts : list (option (list bool))) (answers : list bool) : list pevent :=
  match parts with
  | [] => []
  | None :: ps => EvSkip part :: preview (S part) ps answers
  | Some ok :: ps =>
      let '(evs, ans', go) := show_part part 0 ok answers in
      evs ++ (if go then preview (S part) ps ans' else [])
  end.
