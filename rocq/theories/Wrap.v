(** Wrappers around a single inner dataset (wrappers/base.py:72-118, BaseSingleWrapperDataset).

    A wrapper's own code is a [trans]: its object state, the locals of its [__iter__] generator, and
    [t_act]: what the generator does next.  It either does something local ([Local]), asks the inner
    iterator for the next sample ([Pull]: [next(it)] / the head of a [for sample in self.dataset]
    loop; the continuation gets [Some sample] or [None] for StopIteration), or calls
    [self.dataset.restore_state(None)] ([Reset]).  An exception escaping from the inner iterator
    propagates through the wrapper (no wrapper in the repository catches it).

    [wrap T D] is the resulting dataset.  The inner iterator is created on the first [Pull] after
    the previous one ended; it is dropped when the wrapper's generator ends, unless [t_keep]
    (EpochizeDataset, which stores it on the object as [_active_iter]). *)
From Verif Require Import Base Dataset.

Inductive action (O G A B : Type) : Type :=
| Local (o : O) (g : G) (e : event (sample B))
| Pull (k : option (sample A) -> O * G * event (sample B))
| Reset (o : O) (g : G).
Arguments Local {O G A B} o g e.
Arguments Pull {O G A B} k.
Arguments Reset {O G A B} o g.

Record trans (A B : Type) := mkTrans {
  t_obj : Type;
  t_gen : Type;
  t_wst : Type;
  t_mst : Type;
  t_keep : bool;
  t_init : t_obj;
  t_iter : t_gen;
  (* first argument: restore_sample of the inner dataset *)
  t_act : (rkey -> result (sample A)) -> nat -> t_obj -> t_gen -> action t_obj t_gen A B;
  t_save : nat -> t_obj -> t_wst;
  t_merge : list (option t_wst) -> t_mst;
  t_restore : option t_mst -> t_obj -> t_obj;
  t_restore_sample : (rkey -> result (sample A)) -> nat -> rkey -> result (sample B)
}.
Arguments t_init {A B} t.
Arguments t_iter {A B} t.
Arguments t_keep {A B} t.
Arguments t_act {A B} t.
Arguments t_save {A B} t.
Arguments t_merge {A B} t.
Arguments t_restore {A B} t.
Arguments t_restore_sample {A B} t.

Section Wrap.
  Context {A B : Type} (T : trans A B) (D : dataset A).

  Record wobj := mkW { w_loc : t_obj T; w_in : ds_obj D; w_it : option (ds_gen D) }.

  (** the iterator to pull from: the running one, or a new [iter(self.dataset)] *)
  Definition cur_it (it : option (ds_gen D)) : ds_gen D :=
    match it with Some g => g | None => ds_iter D end.

  (** when the wrapper's generator ends, its inner iterator is dropped unless kept on the object *)
  Definition drop_it (e : event (sample B)) (it : option (ds_gen D)) : option (ds_gen D) :=
    match e with
    | Done | Raise _ => if t_keep T then it else None
    | _ => it
    end.

  Definition wrap_step (w : nat) (x : wobj) (g : t_gen T) : wobj * t_gen T * event (sample B) :=
    match t_act T (ds_restore_sample D w) w (w_loc x) g with
    | Local o g' e => (mkW o (w_in x) (drop_it e (w_it x)), g', e)
    | Reset o g' => (mkW o (ds_restore D None (w_in x)) None, g', Tau)
    | Pull k =>
        match ds_step D w (w_in x) (cur_it (w_it x)) with
        | (io, ig, Yield a) =>
            let '(o, g', e) := k (Some a) in (mkW o io (drop_it e (Some ig)), g', e)
        | (io, ig, Tau) => (mkW (w_loc x) io (Some ig), g, Tau)
        | (io, ig, Done) =>
            let '(o, g', e) := k None in (mkW o io (drop_it e None), g', e)
        | (io, ig, Raise e) => (mkW (w_loc x) io None, g, Raise e)
        end
    end.

  (** base.py:81-103 *)
  Definition wrap : dataset B :=
    {| ds_obj := wobj;
       ds_gen := t_gen T;
       ds_wst := t_wst T * ds_wst D;
       ds_mst := t_mst T * ds_mst D;
       ds_init := mkW (t_init T) (ds_init D) None;
       ds_iter := t_iter T;
       ds_step := wrap_step;
       ds_save := fun w x => (t_save T w (w_loc x), ds_save D w (w_in x));
       ds_merge := fun sts => (t_merge T (map (option_map fst) sts),
                               ds_merge D (map (option_map snd) sts));
       ds_restore := fun m x =>
         mkW (t_restore T (option_map fst m) (w_loc x))
             (ds_restore D (option_map snd m) (w_in x))
             (if t_keep T then w_it x else None);
       ds_restore_sample := fun w key => t_restore_sample T (ds_restore_sample D w) w key |}.
End Wrap.
