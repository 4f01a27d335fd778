(** Vocabulary for the wrapper properties (C23-C36): how a consumer's view of a wrapper relates to
    the stream of the inner dataset, epoch by epoch. *)
From Verif Require Import Base Dataset.

(** a freshly constructed dataset that is iterated for the first time *)
Definition fresh {P} (D : dataset P) : st D := (ds_init D, ds_iter D).

(** no exception escapes *)
Definition clean {P} (l : list (event (sample P))) : Prop :=
  Forall (fun e => match e with Yield _ | Done => True | _ => False end) l.

(** [xs] then the end of the epoch *)
Definition epoch {P} (xs : list (sample P)) : list (event (sample P)) := map Yield xs ++ [Done].

(** [ins] and [outs] consist of complete epochs, related one by one by [Full] *)
Inductive per_epoch {P Q} (Full : list (sample P) -> list (sample Q) -> Prop) :
    list (event (sample P)) -> list (event (sample Q)) -> Prop :=
| pe_nil : per_epoch Full [] []
| pe_snoc i o xs ys : per_epoch Full i o -> Full xs ys ->
    per_epoch Full (i ++ epoch xs) (o ++ epoch ys).

(** complete epochs related by [Full], followed by an epoch in progress related by [Part]; the inner
    epoch may already have ended *)
Definition epochwise {P Q} (Full Part : list (sample P) -> list (sample Q) -> Prop)
    (ins : list (event (sample P))) (outs : list (event (sample Q))) : Prop :=
  exists i o xs ys e, ins = i ++ map Yield xs ++ e /\ (e = [] \/ e = [Done]) /\
    outs = o ++ map Yield ys /\ per_epoch Full i o /\ Part xs ys.

(** *** two simple datasets used in examples and refutations *)
Section Sources.
  Context {P : Type}.

  Definition src_key (i : nat) : rkey := [AInt i].

  (** position of worker [w]: as restored (one entry per worker), or where it got to since *)
  Definition src_obj : Type := (nat * option (list (option nat)))%type.
  Definition src_pos (w : nat) (o : src_obj) : nat :=
    match snd o with
    | Some sts => match nth w sts None with Some n => n | None => 0 end
    | None => fst o
    end.
  Definition src_restore (m : option (list (option nat))) : src_obj := (0, m).

  (** a finite list of samples; iterating again after the end starts over *)
  Definition list_ds (xs : list P) : dataset P :=
    {| ds_obj := src_obj; ds_gen := unit; ds_wst := nat; ds_mst := list (option nat);
       ds_init := (0, None);
       ds_iter := tt;
       ds_step := fun w o g =>
         match nth_error xs (src_pos w o) with
         | Some x => ((S (src_pos w o), None), tt, Yield (mkS x (src_key (src_pos w o))))
         | None => ((0, None), tt, Done)
         end;
       ds_save := src_pos;
       ds_merge := fun sts => sts;
       ds_restore := fun m o => src_restore m;
       ds_restore_sample := fun _ key =>
         match key with
         | [AInt i] => match nth_error xs i with Some x => Ok (mkS x (src_key i)) | None => Err IndexError end
         | _ => Err ValueError
         end |}.

  (** the infinite stream f 0, f 1, ... *)
  Definition stream_ds (f : nat -> P) : dataset P :=
    {| ds_obj := src_obj; ds_gen := unit; ds_wst := nat; ds_mst := list (option nat);
       ds_init := (0, None);
       ds_iter := tt;
       ds_step := fun w o g =>
         ((S (src_pos w o), None), tt, Yield (mkS (f (src_pos w o)) (src_key (src_pos w o))));
       ds_save := src_pos;
       ds_merge := fun sts => sts;
       ds_restore := fun m o => src_restore m;
       ds_restore_sample := fun _ key =>
         match key with
         | [AInt i] => Ok (mkS (f i) (src_key i))
         | _ => Err ValueError
         end |}.
End Sources.

(** *** saving right before the end of an epoch
    [resumable], except that if the saved iterator was about to report the end of its epoch, the
    restored one does not report that end (again) but starts with the next epoch. *)
Definition resumes_modulo_end {P} (D : dataset P) (rst : bool) (nw : nat) : Prop :=
  forall w (s : st D) sts, w < nw -> reach w rst nw s -> length sts = nw ->
    nth_error sts w = Some (Some (ds_save D w (fst s))) ->
    let restored := (ds_restore D (Some (ds_merge D sts)) (ds_init D), ds_iter D) in
    (forall s', next w s Done s' -> same_stream w (fst s', ds_iter D) restored) /\
    ((forall s', ~ next w s Done s') -> same_stream w s restored).

(** [outs] are consecutive epochs of exactly [L] samples each, and possibly an unfinished one, made
    of the samples [ys] in order *)
Definition epochs_of {P} (L : nat) (ys : list (sample P)) (outs : list (event (sample P))) : Prop :=
  exists full part, outs = concat (map epoch full) ++ map Yield part /\
    Forall (fun e => length e = L) full /\ length part <= L /\ ys = concat full ++ part.

(** the samples in an event list *)
Fixpoint samples {P} (l : list (event (sample P))) : list (sample P) :=
  match l with [] => [] | Yield a :: l' => a :: samples l' | _ :: l' => samples l' end.

(** number of epoch ends in an event list *)
Fixpoint n_done {P} (l : list (event (sample P))) : nat :=
  match l with [] => 0 | Done :: l' => S (n_done l') | _ :: l' => n_done l' end.

(** number of samples in an event list *)
Fixpoint n_yields {P} (l : list (event (sample P))) : nat :=
  match l with [] => 0 | Yield _ :: l' => S (n_yields l') | _ :: l' => n_yields l' end.
