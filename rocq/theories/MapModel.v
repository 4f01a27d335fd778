(** Model of wrappers/map_dataset.py (lines 57-280).

    The user function is deterministic in (worker, sample index, sample content) -- the repository
    calls this "stateless" -- and it keeps the input sample's restore key on its result. *)
From Coq Require Import String.
From Verif Require Import Base Dataset Wrap Wrappers.

Definition map_name : atom := AStr "MapDataset".

Section Map.
  Context {A B : Type} (nw : nat).

  (** *** plain functions *)
  Variable f : nat -> nat -> A -> ures B.

  (** add_sample_restore_key(mapped_sample, sample_idx, src=self): base_dataset.py:386-404 *)
  Definition map_key (i : nat) (inner : rkey) : rkey := map_name :: AInt i :: inner.

  (** map_dataset.py:109-168 for a map_fn that is not a generator function *)
  Definition map_ds : trans A B :=
    idx_ds nw (fun w i a => match f w i (pl a) with
                            | UOk b => Yield (mkS b (map_key i (rk a)))
                            | USkip | UErr => Tau
                            | UFatal => Raise OtherError
                            end)
           (* 227-252 restore_sample *)
           (fun rs w key =>
              match key with
              | AStr n :: AInt i :: inner =>
                  if String.eqb n "MapDataset" then
                    bind (rs inner) (fun a =>
                      match f w i (pl a) with
                      | UOk b => Ok (mkS b (map_key i (rk a)))
                      | _ => Err OtherError
                      end)
                  else Err AssertionError
              | _ => Err ValueError
              end).
End Map.

Section MapGen.
  Context {A B : Type} (nw : nat).

  (** *** generator functions: the samples yielded, and how the generator ends *)
  Inductive gend := GEnd | GSkip | GErr | GFatal.
  Variable f : nat -> nat -> A -> list B * gend.

  Definition mapgen_key (i j : nat) (inner : rkey) : rkey := map_name :: AInt i :: AInt j :: inner.

  (** SampleIndex, _generator_sample_keys, _generator_offsets *)
  Record mg_obj := mkMg { mg_idx : list nat; mg_key : list (option rkey); mg_off : list (option nat) }.

  (** program points: start of __iter__; resuming a generator (input sample, its sample index, next
      sub-index, target offset); head of the main loop; inside a generator (input sample, index,
      next sub-index) *)
  Inductive mg_gen :=
  | MgStart
  | MgResume (a : sample A) (i j target : nat)
  | MgLoop
  | MgGen (a : sample A) (i j : nat).

  Definition mg_clear (w : nat) (o : mg_obj) : mg_obj :=
    mkMg (mg_idx o) (upd (mg_key o) w None) (upd (mg_off o) w None).
  Definition mg_set_off (w j : nat) (o : mg_obj) : mg_obj :=
    mkMg (mg_idx o) (mg_key o) (upd (mg_off o) w (Some j)).

  Definition mapgen_ds : trans A B :=
    {| t_obj := mg_obj; t_gen := mg_gen; t_wst := nat * option (option rkey * nat);
       t_mst := list nat * list (option rkey) * list (option nat); t_keep := false;
       t_init := mkMg (repeat 0 nw) (repeat None nw) (repeat None nw);
       t_iter := MgStart;
       t_act := fun rs w o g =>
         match g with
         | MgStart =>                                             (* 111-121 *)
             match nth w (mg_key o) None with
             | None => Local o MgLoop Tau
             | Some key =>
                 match nth w (mg_off o) None with
                 | None => Local o g (Raise AssertionError)
                 | Some t =>
                     match rs key with
                     | Err e => Local o g (Raise e)
                     (* "use previous index": but current_idx is already the next one *)
                     | Ok a => Local (mg_set_off w 0 o) (MgResume a (nth w (mg_idx o) 0) 0 t) Tau
                     end
                 end
             end
         | MgResume a i j t =>                                    (* 122-137 *)
             let '(ys, e) := f w i (pl a) in
             match nth_error ys j with
             | Some y =>
                 if t <=? j then Local (mg_set_off w (S j) o) (MgResume a i (S j) t) (Yield (mkS y (mapgen_key i j (rk a))))
                 else Local o (MgResume a i (S j) t) Tau
             | None =>
                 match e with
                 | GEnd => Local (mg_clear w o) MgLoop Tau
                 | _ => Local o g (Raise OtherError)              (* not inside the try block *)
                 end
             end
         | MgLoop =>                                              (* 139-147 *)
             Pull (fun r =>
               match r with
               | None => (o, MgLoop, Done)
               | Some a =>
                   let i := nth w (mg_idx o) 0 in
                   (mkMg (upd (mg_idx o) w (S i)) (upd (mg_key o) w (Some (rk a))) (upd (mg_off o) w (Some 0)),
                    MgGen a i 0, Tau)
               end)
         | MgGen a i j =>                                         (* 148-168 *)
             let '(ys, e) := f w i (pl a) in
             match nth_error ys j with
             | Some y => Local (mg_set_off w (S j) o) (MgGen a i (S j)) (Yield (mkS y (mapgen_key i j (rk a))))
             | None =>
                 match e with
                 | GEnd => Local (mg_clear w o) MgLoop Tau
                 | GSkip | GErr => Local o MgLoop Tau             (* key and offset stay set *)
                 | GFatal => Local o g (Raise OtherError)
                 end
             end
         end;
       (* 170-183 *)
       t_save := fun w o =>
         (nth w (mg_idx o) 0,
          match nth w (mg_off o) None with
          | None => None
          | Some j => Some (nth w (mg_key o) None, j)
          end);
       (* 185-206 *)
       t_merge := fun sts =>
         (merge_nat (map (option_map fst) sts),
          map (fun s => match s with Some (_, Some (k, _)) => k | _ => None end) sts,
          map (fun s => match s with Some (_, Some (_, j)) => Some j | _ => None end) sts);
       (* 208-225 *)
       t_restore := fun m o =>
         match m with
         | None => mkMg (repeat 0 nw) (repeat None nw) (repeat None nw)
         | Some (is, ks, js) => mkMg is ks js
         end;
       (* 235-280 *)
       t_restore_sample := fun rs w key =>
         match key with
         | AStr n :: AInt i :: AInt j :: inner =>
             if String.eqb n "MapDataset" then
               bind (rs inner) (fun a =>
                 match nth_error (fst (f w i (pl a))) j with
                 | Some y => Ok (mkS y (mapgen_key i j (rk a)))
                 | None => match snd (f w i (pl a)) with GEnd => Err AssertionError | _ => Err OtherError end
                 end)
             else Err AssertionError
         | _ => Err ValueError
         end |}.
End MapGen.
