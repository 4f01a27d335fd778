(** Restoring a saved state into a dataset that has already been used, and restoring the same state object more than once: what
    SavableDataLoader.restore_state allows without worker processes (savable_loader.py:84-107, "Restart iterator after restore";
    the assertion of 919 and 985 only forbids it while worker processes run).

    The framework's [ds_restore D (Some m) o] takes the object [o] as it is when restore_state is called (Wrap.v keeps what the code
    keeps), so restoring into a used object needs no new model.  For the second question the state object itself matters:
    restore_state stores the *lists inside the state* in the datasets, and the datasets then update these lists in place.

    [al m o]: what the merged state object [m] reads like after it has been restored into an object that has since become [o].
    Simplification: valid as long as the object was not restored or reset again (restore_state binds new lists). *)
From Verif Require Import Base Dataset Wrap Rng Buffer ShuffleBuffer Wrappers MapModel WrapSpec.

Definition aliasing {P} (D : dataset P) : Type := ds_mst D -> ds_obj D -> ds_mst D.

(** the lists are copied (or never updated): sample_loader.py:705-750 (apart from three counters that are not used again),
    blend_dataset.py:116-129, concat_dataset.py:85-93 and their rng states (rng.py:114-119) *)
Definition copied {P} (D : dataset P) : aliasing D := fun m _ => m.

(** wrappers/base.py:96-103: the wrapper's own part and the part of the inner dataset, which is the same object *)
Definition al_wrap {A B} (T : trans A B) (D : dataset A) (own : t_mst T -> t_obj T -> t_mst T) (inner : aliasing D) : aliasing (wrap T D) :=
  fun m o => (own (fst m) (w_loc o), inner (snd m) (w_in o)).

(** base.py:196-201 [self._sample_index = state] (map, filter, batch), epochize_dataset.py:131 [self._offset = state.offset],
    repeat_dataset.py:109, limit_dataset.py:136: the state's list is the dataset's list from then on *)
Definition al_counts (m o : list nat) : list nat := o.

(** buffer.py:142 [self._restore_keys = state.buffer]: so is the list of the buffered samples' keys; the rng states are not updated *)
Definition al_shuffle {A} (R : rng_ops) (m : list (option (rng_t R)) * list (list rkey)) (o : @sb_obj A R)
    : list (option (rng_t R)) * list (list rkey) := (fst m, b_keys (sb_buf o)).

(** ** Specification
    [rewinds D al]: a state saved by worker [w] in state [s] and restored (into a new object) continues like [s], and after it has
    been used up to any point [s'], restoring the same state object again (into a new object) still continues like [s]. *)
Inductive goes_on {P} (D : dataset P) (w : nat) : st D -> st D -> Prop :=
| go_here s : goes_on w s s
| go_yield s s' a s'' : goes_on w s s' -> next w s' (Yield a) s'' -> goes_on w s s''
| go_done s s' s'' : goes_on w s s' -> next w s' Done s'' -> goes_on w s (fst s'', ds_iter D).

Definition reusable {P} (D : dataset P) (al : aliasing D) (rst : bool) (nw : nat) : Prop :=
  forall w (s s' : st D) sts, w < nw -> reach w rst nw s -> length sts = nw ->
    nth_error sts w = Some (Some (ds_save D w (fst s))) ->
    let m := ds_merge D sts in
    goes_on w (ds_restore D (Some m) (ds_init D), ds_iter D) s' ->
    same_stream w s (ds_restore D (Some (al m (fst s'))) (ds_init D), ds_iter D).

(** the same with a used object: [x] is any object that worker [w] can have come to *)
Definition rewindable {P} (D : dataset P) (rst : bool) (nw : nat) : Prop :=
  forall w (s x : st D) sts, w < nw -> reach w rst nw s -> reach w rst nw x -> length sts = nw ->
    nth_error sts w = Some (Some (ds_save D w (fst s))) ->
    same_stream w s (ds_restore D (Some (ds_merge D sts)) (fst x), ds_iter D).

(** A source whose __iter__ reads the position once and then counts in a local variable (as WebdatasetSampleLoaderDataset's
    _slice_iter does with its shard iterators, sample_loader.py:286-508: for i in itertools.count(self._pos): self._pos = i + 1; yield f(i)).
    A generator that is still running is not affected by restore_state.  Used for EpochizeDataset, the one wrapper that keeps its
    inner iterator across restore_state (epochize_dataset.py:57, 91-95, 122-131). *)
Definition counting_ds {P} (f : nat -> P) : dataset P :=
  {| ds_obj := src_obj; ds_gen := option nat; ds_wst := nat; ds_mst := list (option nat);
     ds_init := (0, None);
     ds_iter := None;
     ds_step := fun w o g =>
       let i := match g with Some i => i | None => src_pos w o end in
       ((S i, None), Some (S i), Yield (mkS (f i) (src_key i)));
     ds_save := src_pos;
     ds_merge := fun sts => sts;
     ds_restore := fun m o => src_restore m;
     ds_restore_sample := fun _ key => match key with [AInt i] => Ok (mkS (f i) (src_key i)) | _ => Err ValueError end |}.
