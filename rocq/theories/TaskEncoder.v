(** Model of task_encoder/base.py 362-601 (TaskEncoder.build_batch, build_cook_crude_sample, build_encode_sample,
    build_train_datasets, build_val_datasets) and task_encoder/cooking.py.

    Simplifications: all stages work on one type [V] of Python objects.  User functions get the worker id and
    the sample index and are deterministic in these and their argument.  [gen_fn]: generator functions.
    should_log(level) is a boolean parameter. *)
From Coq Require Import String QArith.
From Verif Require Import Base Dataset Wrap WrapSpec Rng Sharder Wrappers MapModel Batch GroupBatch Packing ShuffleBuffer Blend Concat.
Local Close Scope Q_scope.
Local Close Scope Z_scope.
Local Open Scope list_scope.
Local Open Scope nat_scope.

(** a user function: returning, or a generator *)
Inductive ufn (A B : Type) :=
| Fn (f : nat -> nat -> A -> ures B)
| GenFn (f : nat -> nat -> A -> list B * gend).

(** a bound method of the encoder: get_stateless (base.py 214-216), and whether it is the one defined in class
    TaskEncoder ("getattr(self.m, '__func__', None) is TaskEncoder.m") *)
Record method (F : Type) := mkMethod { m_fn : F; m_stateless : bool; m_base : bool }.

Section TaskEncoder.
  Context {V K : Type} (keq : K -> K -> bool).

  (** isinstance(sample, CrudeSample), and its "__subflavor__" and "__subflavors__" entries *)
  Variable crude : V -> option (string * list (string * string)).

  (** *** cooking.py 13-50 *)
  Record cooker := mkCooker {
    ck_cook : nat -> nat -> V -> ures V;
    ck_is_subflavor : option string;
    ck_has_subflavors : option (list (string * string));
    ck_condition : option (V -> bool) }.

  Fixpoint dict_get (k : string) (d : list (string * string)) : option string :=
    match d with
    | [] => None
    | (k', v) :: d' => if String.eqb k k' then Some v else dict_get k d'
    end.

  (** the loop over self.has_subflavors.items(): 37-45 *)
  Fixpoint has_all (want have : list (string * string)) : bool :=
    match want with
    | [] => true
    | (k, v) :: want' =>
        match dict_get k have with
        | None => false
        | Some v' => if String.eqb v' v then has_all want' have else false
        end
    end.

  (** is_match: 32-50 *)
  Definition is_match (c : cooker) (x : V) (sub : string) (subs : list (string * string)) : bool :=
    if match ck_is_subflavor c with Some s => negb (String.eqb sub s) | None => false end then false
    else if match ck_has_subflavors c with Some want => negb (has_all want subs) | None => false end then false
    else if match ck_condition c with Some p => negb (p x) | None => false end then false
    else true.

  (** *** the encoder *)
  Record encoder := mkEnc {
    te_cookers : list cooker;
    te_encode : method (ufn V V);
    te_batch : method (ufn (list V) V);
    te_encode_batch : method (ufn V V);
    te_group : option (nat -> nat -> V -> ures (K * option nat));   (* None: not overridden *)
    te_select : option (nat -> nat -> list (sample V) -> ures (list (list (sample V))));
    te_pack : option (ufn (list V) V * bool) }.                     (* with get_stateless *)

  (** cook_crude_sample: 239-251 *)
  Fixpoint cook_with (cs : list cooker) (w i : nat) (x : V) sub subs : ures V :=
    match cs with
    | [] => UErr                                                    (* NotImplementedError *)
    | c :: cs' => if is_match c x sub subs then ck_cook c w i x else cook_with cs' w i x sub subs
    end.
  Definition cook_crude_sample (cs : list cooker) (w i : nat) (x : V) : ures V :=
    match crude x with
    | Some (sub, subs) => cook_with cs w i x sub subs
    | None => UOk x
    end.

  (** *** datasets with their can_restore_sample() *)
  Record built := mkBuilt { b_ds : dataset V; b_can : bool }.
  Variable nw : nat.

  (** MapDataset(dataset, m, stateless_map_fn=get_stateless(m)): map_dataset.py 70-107, 228-229 *)
  Definition map_of (f : ufn V V) (stateless : bool) (b : built) : built :=
    mkBuilt (match f with Fn f => wrap (map_ds nw f) (b_ds b) | GenFn f => wrap (mapgen_ds nw f) (b_ds b) end)
            (stateless && b_can b).

  (** build_cook_crude_sample: 437-466 (cook_crude_sample is marked stateless: 239) *)
  Definition build_cook (e : encoder) (b : built) : built :=
    match te_cookers e with
    | [] => b
    | cs => map_of (Fn (cook_crude_sample cs)) true b
    end.

  (** build_encode_sample: 468-482 *)
  Definition build_encode (e : encoder) (b : built) : built :=
    if m_base (te_encode e) then b else map_of (m_fn (te_encode e)) (m_stateless (te_encode e)) b.

  (** build_batch, the packing part: 372-393 *)
  Definition build_packing (e : encoder) (packing : option nat) (b : built) : result built :=
    match packing with
    | None => Ok b
    | Some size =>
        match te_select e, te_pack e with
        | Some pre, Some (f, st) =>
            Ok (mkBuilt (match f with
                         | Fn f => wrap (pack_ds nw size pre f) (b_ds b)
                         | GenFn f => wrap (packgen_ds nw size pre f) (b_ds b)
                         end)
                        (st && b_can b))                            (* packing_dataset.py 323-326 *)
        | _, _ => Err AssertionError
        end
    end.

  (** build_batch, the batching part: 395-435 *)
  Definition build_batching (e : encoder) (batch_size : option nat) (drop_last : bool) (b : built) : result built :=
    match te_group e with
    | Some kf =>
        match m_fn (te_batch e) with
        | Fn f =>                                                   (* batcher_stateless is not passed: False *)
            Ok (mkBuilt (wrap (groupbatch_ds keq nw batch_size drop_last false kf f) (b_ds b)) (false && b_can b))
        | GenFn _ => Err AssertionError                             (* group_batch_dataset.py 137-139 *)
        end
    | None =>
        match batch_size with
        | Some size =>
            let batched :=
              mkBuilt (match m_fn (te_batch e) with
                       | Fn f => wrap (batch_ds nw size drop_last f) (b_ds b)
                       | GenFn f => wrap (batchgen_ds nw size drop_last f) (b_ds b)
                       end)
                      (m_stateless (te_batch e) && b_can b) in      (* batch_dataset.py 260-263 *)
            if m_base (te_encode_batch e) then Ok batched
            else Ok (map_of (m_fn (te_encode_batch e)) (m_stateless (te_encode_batch e)) batched)
        | None =>
            if m_base (te_encode_batch e) && m_base (te_batch e) then Ok b else Err AssertionError
        end
    end.

  Definition build_batch (e : encoder) (batch_size : option nat) (drop_last : bool) (packing : option nat) (b : built) : result built :=
    bind (build_packing e packing b) (build_batching e batch_size drop_last).

  (** a dataset factory, as given to build_*_datasets: isinstance(_, CrudeWebdataset), len(_), _.build(offset), the
      weight, and worker_has_samples() of the built dataset *)
  Record source := mkSource {
    s_crude : bool; s_len : Z; s_build : Z -> built; s_weight : Q; s_has : nat -> bool }.

  Definition nothing : built := mkBuilt (list_ds []) true.  (* never used: list index out of range *)
  Definition nth_built (l : list built) (i : nat) : dataset V := b_ds (nth i l nothing).

  (** "assert self.cookers" *)
  Definition check_crude (e : encoder) (srcs : list source) : bool :=
    forallb (fun s => negb (s_crude s) || match te_cookers e with [] => false | _ => true end) srcs.

  Definition add_log (log : bool) (b : built) : built :=
    if log then mkBuilt (wrap (log_ds nw) (b_ds b)) (b_can b) else b.

  (** build_val_datasets: 557-601 *)
  Definition build_val (e : encoder) (srcs : list source) (batch_size : option nat) (drop_last : bool)
      (packing limit : option nat) (log : bool) : result built :=
    if negb (check_crude e srcs) then Err AssertionError else
    bind (match srcs with
          | [] => Err ValueError
          | [s] => Ok (s_build s 0%Z)
          | _ => let bs := map (fun s => s_build s 0%Z) srcs in
                 Ok (mkBuilt (concat_ds (length bs) (nth_built bs)) (forallb b_can bs))   (* concat_dataset.py 92-93 *)
          end) (fun b =>
    bind (build_batch e batch_size drop_last packing (build_encode e (build_cook e b))) (fun b =>
    let b := match limit with
             | Some n => if 0 <? n then mkBuilt (wrap (limit_ds nw n) (b_ds b)) (b_can b) else b
             | None => b
             end in
    Ok (add_log log b))).

  (** build_train_datasets: 484-555; [world]: worker_config.world_size; [RB], [RS]: the random generators of the
      BlendDataset and the ShuffleBufferDataset *)
  Definition build_train (e : encoder) (RB RS : rng_ops) (world : nat) (srcs : list source) (batch_size : option nat) (drop_last : bool)
      (packing : option nat) (virtual_epoch_length : nat) (shuffle : option nat) (log : bool) : result built :=
    if negb (check_crude e srcs) then Err AssertionError else
    bind (match srcs with
          | [] => Err ValueError
          | [s] => Ok (s_build s 0%Z)
          | _ => let offsets := worker_offsets 0 (map s_len srcs) (Z.of_nat (nw * world)) in
                 let bs := map (fun so => s_build (fst so) (snd so)) (combine srcs offsets) in
                 Ok (mkBuilt (blend_ds RB (length bs) (nth_built bs)
                                (fun i => nth i (map s_weight srcs) 0%Q)
                                (fun i w => match nth_error srcs i with Some s => s_has s w | None => false end))
                             (forallb b_can bs))                                          (* blend_dataset.py 131-132 *)
          end) (fun b =>
    let b := match shuffle with
             | Some n => if 1 <? n then mkBuilt (wrap (shuffle_buffer RS nw n) (b_ds b)) (b_can b) else b
             | None => b
             end in
    bind (build_batch e batch_size drop_last packing (build_encode e (build_cook e b))) (fun b =>
    let b := if 0 <? virtual_epoch_length then mkBuilt (wrap (epochize_ds nw virtual_epoch_length) (b_ds b)) (b_can b) else b in
    Ok (add_log log b))).
End TaskEncoder.
