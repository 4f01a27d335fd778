(** Model of user functions that draw from the global random generators (torch, numpy, random), inside a worker of a
    SavableDataLoader: savable_loader.py:37-50 (_init_worker: the process is seeded with seed_per_worker[worker_id]), 353-376
    (__iter__ restores the generators before iterating the dataset), 459-513 (_save_state, _merge_states, _restore_state: the
    states of the three generators are part of every checkpoint).

    The three generators are one state of type [G].  A user function is a deterministic function of that state (and of worker,
    sample index and content) that also returns the state it leaves behind.  The datasets below the functions do not touch the
    global generators (the loader's own shuffling uses WorkerRng, rng.py:49-117). *)
From Coq Require Import String.
From Verif Require Import Base Dataset Wrap Wrappers MapModel Batch.

Section RandomFns.
  Context {V G : Type}.

  (** a MapDataset (map_dataset.py:139-168, function that is not a generator function) or a FilterDataset (filter_dataset.py:58-65) *)
  Inductive rstage :=
  | RMap (f : G -> nat -> nat -> V -> ures V * G)
  | RFilter (p : G -> nat -> nat -> V -> result bool * G).

  (** one sample passes through the stages; every stage has its own sample index *)
  Fixpoint run_stages (fs : list rstage) (w : nat) (idx : list nat) (g : G) (a : sample V)
      : event (sample V) * list nat * G :=
    match fs, idx with
    | RMap f :: fs', i :: idx' =>
        let '(r, g1) := f g w i (pl a) in
        match r with
        | UOk b => let '(e, idx2, g2) := run_stages fs' w idx' g1 (mkS b (map_key i (rk a))) in (e, S i :: idx2, g2)
        | USkip | UErr => (Tau, S i :: idx', g1)
        | UFatal => (Raise OtherError, S i :: idx', g1)
        end
    | RFilter p :: fs', i :: idx' =>
        let '(r, g1) := p g w i (pl a) in
        match r with
        | Ok true => let '(e, idx2, g2) := run_stages fs' w idx' g1 a in (e, S i :: idx2, g2)
        | Ok false => (Tau, S i :: idx', g1)
        | Err x => (Raise x, S i :: idx', g1)
        end
    | _, _ => (Yield a, idx, g)
    end.

  (** a BatchDataset (batch_dataset.py:129-205) with a plain batcher *)
  Record rbatch := mkRbatch { rb_size : nat; rb_drop : bool; rb_fn : G -> nat -> nat -> list V -> ures V * G }.

  (** encode_sample and other functions per sample; batching (if any); encode_batch and other functions per batch *)
  Record rpipe := mkRpipe { rp_pre : list rstage; rp_batch : option rbatch; rp_post : list rstage }.

  Variables (nw : nat) (seed : nat -> G) (P : rpipe).

  (** the sample indices of all these datasets, for one worker (base.py:126-201) *)
  Record ridx := mkRidx { ri_pre : list nat; ri_batch : nat; ri_post : list nat }.
  Definition ridx0 : ridx := mkRidx (repeat 0 (length (rp_pre P))) 0 (repeat 0 (length (rp_post P))).

  (** per worker: the indices and the state of the process' global generators (None: as seeded when the process started) *)
  Record rc_obj := mkRc { rc_idx : list ridx; rc_rng : list (option G) }.

  Definition rc_gen (w : nat) (o : rc_obj) : G :=
    match nth w (rc_rng o) None with Some g => g | None => seed w end.

  (** BatchDataset's local variables [batch] and [sample_restore_keys]; after the flush of the last, incomplete batch *)
  Inductive rc_pt := RLoop (batch : list (sample V)) (keys : list rkey) | REnd.

  Definition rc_out : Type := event (sample V) * ridx * G * rc_pt.

  (** the functions after the batching *)
  Definition run_post (w : nat) (i : ridx) (g : G) (pt : rc_pt) (a : sample V) : rc_out :=
    let '(e, idx, g') := run_stages (rp_post P) w (ri_post i) g a in (e, mkRidx (ri_pre i) (ri_batch i) idx, g', pt).

  (** flush(), batch_dataset.py:163-194 *)
  Definition run_flush (b : rbatch) (w : nat) (i : ridx) (g : G) (batch : list (sample V)) (keys : list rkey)
      (nxt : list rkey -> rc_pt) : rc_out :=
    let n := ri_batch i in
    let i' := mkRidx (ri_pre i) (S n) (ri_post i) in
    let '(r, g') := rb_fn b g w n (map pl batch) in
    match r with
    | UOk y => run_post w i' g' (nxt []) (mkS y (batch_key n keys))
    | USkip | UErr => (Tau, i', g', nxt keys)
    | UFatal => (Raise OtherError, i', g', nxt keys)
    end.

  (** the inner dataset has returned a sample, or has ended *)
  Definition run_pull (w : nat) (i : ridx) (g : G) (batch : list (sample V)) (keys : list rkey) (r : option (sample V)) : rc_out :=
    match r with
    | Some a =>
        let '(e, idx, g') := run_stages (rp_pre P) w (ri_pre i) g a in
        let i' := mkRidx idx (ri_batch i) (ri_post i) in
        match e with
        | Yield a' =>
            match rp_batch P with
            | None => run_post w i' g' (RLoop [] []) a'
            | Some b =>
                if length (batch ++ [a']) =? rb_size b
                then run_flush b w i' g' (batch ++ [a']) (keys ++ [rk a']) (fun k => RLoop [] k)
                else (Tau, i', g', RLoop (batch ++ [a']) (keys ++ [rk a']))
            end
        | e => (e, i', g', RLoop batch keys)
        end
    | None =>
        match rp_batch P with
        | Some b =>
            if (0 <? length batch) && negb (rb_drop b) then run_flush b w i g batch keys (fun _ => REnd)
            else (Done, i, g, REnd)
        | None => (Done, i, g, REnd)
        end
    end.

  Definition rc_store (w : nat) (o : rc_obj) (r : rc_out) : rc_obj * rc_pt * event (sample V) :=
    let '(e, i, g, pt) := r in (mkRc (upd (rc_idx o) w i) (upd (rc_rng o) w (Some g)), pt, e).

  (** The chain of datasets, together with the generators that the loader saves and restores with it.
      Simplification: the generators are saved and restored by SavableDatasetWrapper, the indices by the datasets themselves;
      both happen at the same moments (_store_checkpoint 424-457; restore_state before the workers start, then __iter__).
      restore_state(None) on the datasets does not touch the generators. *)
  Definition random_ds : trans V V :=
    {| t_obj := rc_obj; t_gen := rc_pt; t_wst := ridx * G; t_mst := list ridx * list (option G); t_keep := false;
       t_init := mkRc (repeat ridx0 nw) (repeat None nw);
       t_iter := RLoop [] [];
       t_act := fun rs w o pt =>
         match pt with
         | REnd => Local o REnd Done
         | RLoop batch keys =>
             Pull (fun r => rc_store w o (run_pull w (nth w (rc_idx o) ridx0) (rc_gen w o) batch keys r))
         end;
       t_save := fun w o => (nth w (rc_idx o) ridx0, rc_gen w o);                         (* 459-475 *)
       t_merge := fun sts => (map (fun s => match s with None => ridx0 | Some (i, _) => i end) sts,
                              map (option_map snd) sts);                                  (* 477-485 *)
       t_restore := fun m o =>
         match m with
         | None => mkRc (repeat ridx0 nw) (rc_rng o)
         | Some (is_, gs) => mkRc is_ gs                                                  (* 487-513 *)
         end;
       (* assert_can_restore: the functions are not stateless *)
       t_restore_sample := fun rs w key => Err AssertionError |}.

  (** Without workers (num_workers = 0) the dataset is wrapped in SimpleSavableDatasetWrapper, which saves only the
      state of the dataset, not the generators (savable_loader.py:63-141). *)
  Definition random_simple_ds : trans V V :=
    {| t_obj := rc_obj; t_gen := rc_pt; t_wst := ridx; t_mst := list ridx; t_keep := false;
       t_init := t_init random_ds;
       t_iter := t_iter random_ds;
       t_act := t_act random_ds;
       t_save := fun w o => nth w (rc_idx o) ridx0;
       t_merge := fun sts => map (fun s => match s with None => ridx0 | Some i => i end) sts;
       t_restore := fun m o => mkRc (match m with None => repeat ridx0 nw | Some is_ => is_ end) (rc_rng o);
       t_restore_sample := t_restore_sample random_ds |}.
End RandomFns.
Arguments rstage : clear implicits.
Arguments rbatch : clear implicits.
Arguments rpipe : clear implicits.
Arguments rc_obj : clear implicits.
Arguments rc_pt : clear implicits.

(** MapDataset with a generator function that draws from the global generators (map_dataset.py:109-168): the j-th sample it
    yields for the inner sample is a function of the state of the generators at that moment.  On resuming, the generator
    function is called again from its beginning and the samples already delivered are computed again and dropped.
    Simplification: the function yields exactly [len] samples and never fails. *)
Section RandomGen.
  Context {V G : Type} (nw : nat) (seed : nat -> G) (len : nat) (f : G -> nat -> nat -> V -> nat -> V * G).

  Record rg_obj := mkRg { rg_idx : list nat; rg_key : list (option rkey); rg_off : list (option nat); rg_rng : list (option G) }.
  Definition rg_cur (w : nat) (o : rg_obj) : G := match nth w (rg_rng o) None with Some g => g | None => seed w end.

  Inductive rg_pt := RgStart | RgResume (a : sample V) (i j target : nat) | RgLoop | RgGen (a : sample V) (i j : nat).

  Definition rg_draw (w : nat) (g : G) (o : rg_obj) : rg_obj := mkRg (rg_idx o) (rg_key o) (rg_off o) (upd (rg_rng o) w (Some g)).
  Definition rg_set_off (w : nat) (j : option nat) (o : rg_obj) : rg_obj := mkRg (rg_idx o) (rg_key o) (upd (rg_off o) w j) (rg_rng o).
  Definition rg_clear (w : nat) (o : rg_obj) : rg_obj :=
    mkRg (rg_idx o) (upd (rg_key o) w None) (upd (rg_off o) w None) (rg_rng o).

  Definition randomgen_ds : trans V V :=
    {| t_obj := rg_obj; t_gen := rg_pt; t_wst := nat * option rkey * option nat * G;
       t_mst := list nat * list (option rkey) * list (option nat) * list (option G); t_keep := false;
       t_init := mkRg (repeat 0 nw) (repeat None nw) (repeat None nw) (repeat None nw);
       t_iter := RgStart;
       t_act := fun rs w o pt =>
         match pt with
         | RgStart =>                                             (* 111-121 *)
             match nth w (rg_key o) None, nth w (rg_off o) None with
             | None, _ => Local o RgLoop Tau
             | Some _, None => Local o pt (Raise AssertionError)
             | Some key, Some t =>
                 match rs key with
                 | Err e => Local o pt (Raise e)
                 | Ok a => Local (rg_set_off w (Some 0) o) (RgResume a (nth w (rg_idx o) 0) 0 t) Tau
                 end
             end
         | RgResume a i j t =>                                    (* 122-137 *)
             if j <? len then
               let '(y, g) := f (rg_cur w o) w i (pl a) j in
               if t <=? j then Local (rg_draw w g (rg_set_off w (Some (S j)) o)) (RgResume a i (S j) t) (Yield (mkS y (mapgen_key i j (rk a))))
               else Local (rg_draw w g o) (RgResume a i (S j) t) Tau
             else Local (rg_clear w o) RgLoop Tau
         | RgLoop =>                                              (* 139-147 *)
             Pull (fun r =>
               match r with
               | None => (o, RgLoop, Done)
               | Some a => let i := nth w (rg_idx o) 0 in
                   (mkRg (upd (rg_idx o) w (S i)) (upd (rg_key o) w (Some (rk a))) (upd (rg_off o) w (Some 0)) (rg_rng o), RgGen a i 0, Tau)
               end)
         | RgGen a i j =>                                         (* 148-168 *)
             if j <? len then
               let '(y, g) := f (rg_cur w o) w i (pl a) j in
               Local (rg_draw w g (rg_set_off w (Some (S j)) o)) (RgGen a i (S j)) (Yield (mkS y (mapgen_key i j (rk a))))
             else Local (rg_clear w o) RgLoop Tau
         end;
       t_save := fun w o => (nth w (rg_idx o) 0, nth w (rg_key o) None, nth w (rg_off o) None, rg_cur w o);   (* 175-188 *)
       t_merge := fun sts =>                                      (* 190-209 *)
         (map (fun s => match s with None => 0 | Some (i, _, _, _) => i end) sts,
          map (fun s => match s with None => None | Some (_, k, _, _) => k end) sts,
          map (fun s => match s with None => None | Some (_, _, j, _) => j end) sts,
          map (fun s => match s with None => None | Some (_, _, _, g) => Some g end) sts);
       t_restore := fun m o =>                                    (* 211-226 *)
         match m with
         | None => mkRg (repeat 0 nw) (repeat None nw) (repeat None nw) (rg_rng o)
         | Some (is_, ks, js, gs) => mkRg is_ ks js gs
         end;
       t_restore_sample := fun rs w key => Err AssertionError |}.
End RandomGen.
Arguments rg_obj : clear implicits.
Arguments rg_pt : clear implicits.
