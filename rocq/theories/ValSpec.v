(** What a task encoder's validation pipeline delivers with packing, grouping and generator functions, on contents
    only (extends TaskEncoderSpec). *)
From Coq Require Import String.
From Verif Require Import Base Dataset WrapSpec Wrappers MapModel BatchSpec GroupBatchSpec TaskEncoder TaskEncoderSpec.
Local Open Scope string_scope.
Local Open Scope list_scope.
Local Open Scope nat_scope.

(** select_samples_to_pack looks at the contents of the samples only: [pre0] is what it does on contents *)
Definition selects_contents {V} (pre : nat -> nat -> list (sample V) -> ures (list (list (sample V)))) (pre0 : nat -> nat -> list V -> ures (list (list V))) : Prop :=
  forall w i l, pre0 w i (map pl l) =
    match pre w i l with UOk gs => UOk (map (map pl) gs) | USkip => USkip | UErr => UErr | UFatal => UFatal end.

(** the groups picked from a buffer: none if it fails or is skipped *)
Definition picked {V} (pre0 : nat -> nat -> list V -> ures (list (list V))) (w i : nat) (l : list V) : list (list V) :=
  match pre0 w i l with UOk gs => gs | _ => [] end.

(** PackingDataset gives up after ten full buffers in a row without a pick, when there is another full one; [bufs]: the
    buffers of each epoch, numbered through all epochs *)
Definition never_dry {V} (pre0 : nat -> nat -> list V -> ures (list (list V))) (w size : nat) (bufs : list (list (list V))) : Prop :=
  forall before epoch after k, bufs = before ++ epoch :: after ->
    k + 10 < length epoch -> length (nth (k + 10) epoch []) = size ->
    exists n, n < 10 /\ picked pre0 w (length (concat before) + k + n) (nth (k + n) epoch []) <> [].

(** packing: each epoch is cut into buffers, the groups picked from each buffer are packed *)
Definition packed_epochs {V} (pre0 : nat -> nat -> list V -> ures (list (list V))) (pack : ufn (list V) V) (w size : nat) (ins outs : list (list V)) : Prop :=
  exists bufs, Forall2 (groups size false) ins bufs /\ outs = each_epoch (outputs pack w) 0 (each_epoch (picked pre0 w) 0 bufs).

(** batching of consecutive samples, then encode_batch *)
Definition batched_then_encoded {V K} (e : @encoder V K) (size : nat) (drop : bool) (w : nat) (ins outs : list (list V)) : Prop :=
  exists gss, Forall2 (groups size drop) ins gss /\
    let batched := each_epoch (outputs (m_fn (te_batch e)) w) 0 gss in
    outs = if m_base (te_encode_batch e) then batched else each_epoch (outputs (m_fn (te_encode_batch e)) w) 0 batched.

(** grouping: [cls i x] the group of the sample number [i]; for every group key, the samples with this key are cut into
    groups of consecutive ones; the groups come out in the order in which they are completed, the incomplete ones at the
    end in the order of the first sample of their key ([in_order], GroupBatchSpec.v) *)
Section Grouping.
  Context {V K : Type} (keq : K -> K -> bool) (cls : nat -> V -> option K) (size : K -> nat) (drop : bool).
  Fixpoint sorted_out (i : nat) (xs : list V) : list (K * V) :=
    match xs with
    | [] => []
    | x :: xs' => match cls i x with Some k => [(k, x)] | None => [] end ++ sorted_out (S i) xs'
    end.
  Fixpoint grouped_epochs (i : nat) (ins : list (list V)) (kgss : list (list (K * list V))) : Prop :=
    match ins, kgss with
    | [], [] => True
    | xs :: ins', kgs :: kgss' =>
        (forall k, groups (size k) drop (of_key keq k (sorted_out i xs)) (of_key keq k kgs)) /\
        kgs = in_order keq size drop (sorted_out i xs) /\
        grouped_epochs (i + length xs) ins' kgss'
    | _, _ => False
    end.
End Grouping.

(** cooking and encoding *)
Definition cooked_then_encoded {V K} crude (e : @encoder V K) (w : nat) (ins : list (list V)) : list (list V) :=
  let cooked := match te_cookers e with [] => ins | cs => each_epoch (outputs (Fn (cook_crude_sample crude cs)) w) 0 ins end in
  if m_base (te_encode e) then cooked else each_epoch (outputs (m_fn (te_encode e)) w) 0 cooked.

(** the functions do not fail for good; generators run to their end *)
Definition enc_sound {V K} (e : @encoder V K) : Prop :=
  (forall c w i x, In c (te_cookers e) -> ck_cook c w i x <> UFatal) /\
  no_failure (m_fn (te_encode e)) /\ no_failure (m_fn (te_batch e)) /\ no_failure (m_fn (te_encode_batch e)) /\
  (forall pre w i l, te_select e = Some pre -> pre w i l <> UFatal) /\
  (forall f st, te_pack e = Some (f, st) -> no_failure f).

(** all stages up to batching *)
Definition packing_stage {V K} (e : @encoder V K) pre0 (packing : option nat) (w : nat) (ins outs : list (list V)) : Prop :=
  match packing with
  | None => outs = ins
  | Some size => exists f st, te_pack e = Some (f, st) /\ packed_epochs pre0 f w size ins outs
  end.

(** the whole pipeline without grouping: cook, encode, pack, batch, encode batch *)
Definition val_pipeline {V K} crude (e : @encoder V K) pre0 (batch_size : option nat) (drop : bool) (packing : option nat) (w : nat) (ins outs : list (list V)) : Prop :=
  exists packed, packing_stage e pre0 packing w (cooked_then_encoded crude e w ins) packed /\
    match batch_size with
    | None => outs = packed
    | Some size => batched_then_encoded e size drop w packed outs
    end.

(** ... with grouping: cook, encode, pack, group and batch (encode_batch is not called) *)
Definition val_grouped {V K} crude (keq : K -> K -> bool) (e : @encoder V K) pre0 (packing : option nat) cls size (drop : bool) (w : nat) (ins outs : list (list V)) : Prop :=
  exists packed kgss, packing_stage e pre0 packing w (cooked_then_encoded crude e w ins) packed /\
    grouped_epochs keq cls size drop 0 packed kgss /\
    outs = each_epoch (outputs (m_fn (te_batch e)) w) 0 (map (map snd) kgss).

(** no long run of fruitless buffers *)
Definition packing_goes_on {V K} crude (e : @encoder V K) pre0 (packing : option nat) (w : nat) (ins : list (list V)) : Prop :=
  forall size bufs, packing = Some size -> Forall2 (groups size false) (cooked_then_encoded crude e w ins) bufs -> never_dry pre0 w size bufs.
