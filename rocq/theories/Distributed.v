(** Model of savable_loader.py:933-1012 SavableDataLoader.save_state / restore_state across ranks.

    torch.distributed (not part of the repository) as documented: all_gather_object gives every rank
    the list of all ranks' objects in rank order; gather_object gives it to dst only;
    scatter_object_list hands element i of the source's list to rank i. A collective completes only
    when every rank of the group calls it; a rank that calls one the others never call is blocked. *)
From Verif Require Import Base.
Local Open Scope nat_scope.

Section Dist.
  Context {S : Type}.      (* SavableDataLoaderState *)

  (** a Python value passed as [state]: None, a single state, or a list *)
  Inductive pyst := PNone | POne (s : S) | PList (l : list (option S)).
  Definition of_opt (o : option S) : pyst := match o with None => PNone | Some s => POne s end.

  (** savable_loader.py:933-970 save_state; [ms]: what save_state_rank returned on each rank; result
      on rank [r]. [dist]: torch.distributed is initialised *)
  Definition save_global (dist : bool) (dst : option nat) (ms : list (option S)) (r : nat) : pyst :=
    if dist then
      match dst with
      | None => PList ms
      | Some d => if r =? d then PList ms else PNone
      end
    else of_opt (nth r ms None).

  (** savable_loader.py:972-1012 restore_state up to the collective: what rank [r] does *)
  Inductive act := Direct (st : pyst) | Scatter (l : list (option S)) | Raises (e : exn).
  Definition restore_act (dist : bool) (src : option nat) (r : nat) (st : pyst) : act :=
    match st with
    | PList l =>
        if dist then
          match src with
          | None => match nth_error l r with Some o => Direct (of_opt o) | None => Raises IndexError end
          | Some s => if r =? s then Scatter l else Raises AssertionError   (* assert state is None *)
          end
        else Direct st
    | _ => Direct st
    end.

  (** the value handed to restore_state_rank on each rank *)
  Inductive outcome := Restored (o : option S) | Fails (e : exn) | Blocked.

  Definition is_scatter (a : act) : bool := match a with Scatter _ => true | _ => false end.
  (** [acts]: what all ranks do *)
  Definition finish (acts : list act) (src : option nat) (r : nat) : outcome :=
    match nth r acts (Raises AssertionError) with
    | Direct PNone => Restored None
    | Direct (POne s) => Restored (Some s)
    | Direct (PList _) => Fails AssertionError         (* 925: assert isinstance(state, ...) *)
    | Raises e => Fails e
    | Scatter _ =>
        if forallb is_scatter acts then
          match src with
          | Some s => match nth s acts (Raises AssertionError) with
                      | Scatter l => match nth_error l r with Some o => Restored o | None => Fails ValueError end
                      | _ => Blocked
                      end
          | None => Blocked
          end
        else Blocked
    end.

  (** all ranks call restore_state; [sts]: the argument on each rank *)
  Definition restore_global (dist : bool) (src : option nat) (sts : list pyst) (r : nat) : outcome :=
    finish (map (fun p => restore_act dist src (fst p) (snd p)) (combine (seq 0 (length sts)) sts)) src r.
End Dist.
