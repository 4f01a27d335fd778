(** What the samples of a tar archive are, independently of index and reader: drop the members that
    are no sample parts, then cut the rest into maximal runs of equal base name. *)
From Coq Require Import String.
From Verif Require Import Base Tar.

Section Spec.
  Context {Dat : Type}.

  (** maximal runs of members with the same base name *)
  Fixpoint runs (l : list (ent Dat)) : list (list (ent Dat)) :=
    match l with
    | [] => []
    | e :: l' =>
        match runs l' with
        | (e' :: g) :: r => if seqb (en_base e) (en_base e') then (e :: e' :: g) :: r else [e] :: (e' :: g) :: r
        | r => [e] :: r
        end
    end.

  (** the sample parts of an archive, in file order *)
  Definition entries (l : list (nat * member Dat)) : list (ent Dat) :=
    flat_map (fun om => match part_of (snd om) with
                        | Some (b, x) => [mkE (fst om) b x (m_data (snd om))]
                        | None => [] end) l.

  (** the parts of one sample as a dict; [pfilter] selects extensions *)
  Definition parts_of (pfilter : string -> bool) (g : list (ent Dat)) : list (string * Dat) :=
    fold_left (fun d e => if pfilter (en_ext e) then dict_set (en_ext e) (en_dat e) d else d) g [].

  Definition base_of (g : list (ent Dat)) : string := match g with e :: _ => en_base e | [] => EmptyString end.

  (** the samples of the archive: base name and parts *)
  Definition archive_samples (ms : list (member Dat)) : list (list (ent Dat)) := runs (entries (locate 0 ms)).

  (** what the reader of shard [name] must return for sample number [i] of the archive *)
  Definition expected (name : string) (pfilter : string -> bool) (i : nat) (g : list (ent Dat)) : rsample Dat :=
    mkRSam (name ++ "/" ++ base_of g)%string (name, i) (parts_of pfilter g).

  Fixpoint number {A B} (f : nat -> A -> B) (i : nat) (l : list A) : list B :=
    match l with [] => [] | x :: l' => f i x :: number f (S i) l' end.
End Spec.
