(** C51: batching samples keeps every sample's data, aligned, padded with zeros only. *)
From Coq Require Import String.
From Verif Require Import Base Tensor TensorSpec TensorProofs.
Local Open Scope string_scope.
Local Open Scope list_scope.
Local Open Scope nat_scope.

Section C51.
  Context {T A : Type} (cast : T -> A -> A) (zero : T -> A).
  Notation tensor := (tensor T A).
  Notation pyval := (pyval T A).

  (** stacking: exactly when there is a tensor and all have the same number of dimensions; the result is their stack,
      padded with zeros to the smallest common shape *)
  Theorem C51_pad_stack (batch : list tensor) :
    ((exists t, batch_pad_stack cast zero batch = Ok t) <-> same_ndim batch) /\
    forall t, batch_pad_stack cast zero batch = Ok t -> stacked cast zero batch t.
  Proof.
    destruct (pad_stack_ok cast zero batch) as [H1 H2]. split; [|exact H2]. rewrite H1. split.
    - intros (b0 & I & HL). exists (length (shape b0)). split; [intros ->; destruct I|exact HL].
    - intros (n & NE & HL). destruct batch as [|b0 rest]; [congruence|]. exists b0. split; [left; reflexivity|]. intros b Ib. rewrite (HL b Ib). symmetry. apply HL. left. reflexivity.
  Qed.

  (** concatenating along the first dimension *)
  Theorem C51_concat_pad (batch : list tensor) :
    ((exists t, concat_pad cast zero batch = Ok t) <-> same_ndim batch /\ forall t, In t batch -> shape t <> []) /\
    forall t, concat_pad cast zero batch = Ok t -> concatenated cast zero batch t.
  Proof.
    destruct (concat_pad_ok cast zero batch) as [H1 H2]. split; [|exact H2]. rewrite H1. split.
    - intros (b0 & I & NE & HL). split; [exists (length (shape b0)); split; [intros ->; destruct I|exact HL]|].
      intros t It Q. specialize (HL t It). rewrite Q in HL. destruct (shape b0); [congruence|discriminate].
    - intros [(n & NE & HL) HS]. destruct batch as [|b0 rest]; [congruence|]. exists b0. split; [left; reflexivity|]. split; [apply HS; left; reflexivity|].
      intros b Ib. rewrite (HL b Ib). symmetry. apply HL. left. reflexivity.
  Qed.

  Lemma merged_node_weaken (P Q : list tensor -> tensor -> Prop) (y0 : pyval) ys y : (forall ts t, P ts t -> Q ts t) -> merged_node P y0 ys y -> merged_node Q y0 ys y.
  Proof. intros H. destruct y0; cbn; auto. intros (ts & t' & E & HP & Ey). exists ts, t'. auto. Qed.

  Lemma generic_of_spec leaf (ok : list tensor -> Prop) (P : list tensor -> tensor -> Prop) (vs : list pyval) :
    (forall ts, (exists t, leaf ts = Ok t) <-> ok ts) -> (forall ts t, leaf ts = Ok t -> P ts t) ->
    (forall r, generic_of leaf vs = Ok r -> merged P vs r /\ mergeable ok vs) /\
    ((forall v0, nth_error vs 0 = Some v0 -> wellformed v0) -> mergeable ok vs -> exists r, generic_of leaf vs = Ok r).
  Proof.
    intros HO HP. split.
    - intros r H. destruct vs as [|v0 rest]; [discriminate|]. cbn [generic_of] in H. split; exists v0, rest; (split; [reflexivity|]); intros p y0 V; destruct (generic_merged H V) as (ys & y & F & V2 & N).
      + exists ys, y. split; [exact F|]. split; [exact V2|]. eapply merged_node_weaken; [|exact N]. exact HP.
      + exists ys. split; [exact F|]. destruct y0; auto. cbn in N. destruct N as (ts & t' & E & L & _). exists ts. split; [exact E|]. apply HO. eauto.
    - intros W (v0 & rest & -> & H). cbn [generic_of]. apply generic_makes; [apply W; reflexivity|]. intros p y0 V. destruct (H p y0 V) as (ys & F & N). exists ys. split; [exact F|].
      destruct y0; auto. destruct N as (ts & E & O). exists ts. split; [exact E|]. apply HO. exact O.
  Qed.

  (** generic_batch: batching succeeds exactly when every value the first sample has is in all samples, tensors opposite
      tensors of the same number of dimensions; the batch then has, at every path of the first sample, the stacked tensors
      or the list of the values, in the order of the samples *)
  Theorem C51_generic_batch (vs : list pyval) :
    (forall r, generic_batch cast zero vs = Ok r -> merged (stacked cast zero) vs r /\ mergeable same_ndim vs) /\
    ((forall v0, nth_error vs 0 = Some v0 -> wellformed v0) -> mergeable same_ndim vs -> exists r, generic_batch cast zero vs = Ok r).
  Proof. apply generic_of_spec; intros; apply C51_pad_stack; assumption. Qed.

  (** MixBatchDataset's default: the batches are concatenated *)
  Theorem C51_concat_mix (vs : list pyval) :
    (forall r, homogeneous_concat_mix cast zero vs = Ok r -> merged (concatenated cast zero) vs r /\ mergeable (fun ts => same_ndim ts /\ forall t, In t ts -> shape t <> []) vs).
  Proof.
    intros r H. destruct vs as [|v0 rest]; [discriminate|]. unfold homogeneous_concat_mix in H. destruct (forallb _ _); [|discriminate].
    revert H. apply (@generic_of_spec (concat_pad cast zero)); intros; apply C51_concat_pad; assumption.
  Qed.

  (** it mixes only batches of one kind, and of one class; with the others it fails *)
  Theorem C51_mix_same_class (vs : list pyval) :
    let kin (v w : pyval) := match v, w with
      | PRec c _, PRec d _ => c = d
      | PTensor _, PTensor _ | PDict _, PDict _ | PList _, PList _ => True
      | POther _, POther _ => True
      | _, _ => False
      end in
    (forall r, homogeneous_concat_mix cast zero vs = Ok r -> forall v w, In v vs -> In w vs -> kin v w) /\
    (forall v w, In v vs -> In w vs -> ~ kin v w -> homogeneous_concat_mix cast zero vs = Err AssertionError).
  Proof.
    intros kin.
    assert (K : forall v w, same_type v w = true <-> kin v w).
    { intros [] []; cbn; try rewrite String.eqb_eq; intuition congruence. }
    assert (KT : forall u v w, kin u v -> kin u w -> kin v w).
    { intros [] [] []; cbn; intuition congruence. }
    split.
    - intros r H v w Iv Iw. destruct vs as [|v0 rest]; [destruct Iv|]. unfold homogeneous_concat_mix in H.
      destruct (forallb _ _) eqn:E; [|discriminate]. rewrite forallb_forall in E. apply (KT v0); apply K; auto.
    - intros v w Iv Iw N. destruct vs as [|v0 rest]; [destruct Iv|]. unfold homogeneous_concat_mix.
      destruct (forallb _ _) eqn:E; [|reflexivity]. rewrite forallb_forall in E. destruct N. apply (KT v0); apply K; auto.
  Qed.

  (** TaskEncoder._batch: the batch has the names of the first sample, and at each of them what the field's action makes of
      the values of all samples, in their order *)
  Theorem C51_batch_fields actions (vs : list pyval) ms : batch_fields cast zero actions vs = Ok ms ->
    exists v0 rest m, vs = v0 :: rest /\ (v0 = PDict m \/ exists c, v0 = PRec c m) /\ map fst ms = map fst m /\
      forall k, In k (map fst m) -> exists xs y, Forall2 (fun v x => exists st, (st = Key k \/ st = Attr k) /\ value_at v [st] x) vs xs /\ get k ms = Some y /\
        match action_for k actions with Some f => f xs = Ok y | None => generic_batch cast zero xs = Ok y end.
  Proof.
    unfold batch_fields. destruct (fields_of vs) as [fs|] eqn:EF; [|discriminate]. cbn [bind]. intros H.
    assert (G : forall (gt : string -> pyval -> result pyval) (m : list (string * pyval)),
      sequence (map (fun kv => bind (sequence (map (gt (fst kv)) vs)) (fun xs => Ok (fst kv, xs))) m) = Ok fs ->
      map fst fs = map fst m /\ forall k xs, In (k, xs) fs -> sequence (map (gt k) vs) = Ok xs).
    { intros gt m. clear EF H. revert fs. induction m as [|[k x] m IH]; intros fs H; cbn [map] in H; apply sequence_ok in H.
      - destruct fs; [|discriminate]. split; [reflexivity|]. intros ? ? [].
      - destruct fs as [|[k' xs] fs]; [discriminate|]. cbn [map fst] in H. injection H as H1 H2. destruct (IH fs) as [I1 I2]; [apply sequence_ok; exact H2|].
        destruct (sequence (map (gt k) vs)) as [xs'|] eqn:E; [|discriminate]. cbn in H1. injection H1 as <- <-. split; [cbn; congruence|].
        intros k' ys [[= <- <-]|I]; [exact E|auto]. }
    assert (M : forall ks, map fst fs = ks -> map fst ms = ks /\ forall k, In k ks -> exists xs y, In (k, xs) fs /\ get k ms = Some y /\
      match action_for k actions with Some f => f xs = Ok y | None => generic_batch cast zero xs = Ok y end).
    { clear EF G. revert ms H. induction fs as [|[k xs] fs IH]; intros ms H ks EK; cbn [map] in H; apply sequence_ok in H.
      - destruct ms; [|discriminate]. subst ks. split; [reflexivity|]. intros ? [].
      - destruct ms as [|[k' y] ms]; [discriminate|]. cbn [map fst snd] in H. injection H as H1 H2. destruct (IH ms (proj2 (sequence_ok _ _) H2) (map fst fs) eq_refl) as [I1 I2].
        subst ks. assert (Y : k' = k /\ match action_for k actions with Some f => f xs = Ok y | None => generic_batch cast zero xs = Ok y end).
        { destruct (action_for k actions) as [f|]; [destruct (f xs)|destruct (generic_batch cast zero xs)]; cbn in H1; try discriminate; injection H1 as -> ->; auto. }
        destruct Y as [-> Y]. split; [cbn; congruence|]. intros k' Ik. cbn [get]. destruct (String.eqb k' k) eqn:EK.
        + apply String.eqb_eq in EK. subst k'. exists xs, y. split; [left; reflexivity|]. auto.
        + destruct Ik as [Ek|Ik]; [cbn in Ek; subst k'; rewrite String.eqb_refl in EK; discriminate|]. destruct (I2 k' Ik) as (xs' & y' & J1 & J2 & J3). exists xs', y'. split; [right; exact J1|]. auto. }
    destruct vs as [|v0 rest] eqn:EV; [discriminate|]. rewrite <- EV in *. unfold fields_of in EF. rewrite EV in EF. rewrite <- EV in EF.
    destruct v0 as [t|m|c m|l|n]; try discriminate; eexists; exists rest, m; (split; [exact EV|]).
    - apply G in EF. destruct EF as [E1 E2]. destruct (M _ E1) as [M1 M2]. split; [left; reflexivity|]. split; [exact M1|]. intros k Ik.
      destruct (M2 k Ik) as (xs & y & J1 & J2 & J3). exists xs, y. split; [|auto]. eapply Forall2_weaken; [|exact (items_at (E2 _ _ J1))].
      intros v x (m1 & -> & Gx). exists (Key k). split; [left; reflexivity|]. econstructor; [exact Gx|constructor].
    - apply G in EF. destruct EF as [E1 E2]. destruct (M _ E1) as [M1 M2]. split; [right; eauto|]. split; [exact M1|]. intros k Ik.
      destruct (M2 k Ik) as (xs & y & J1 & J2 & J3). exists xs, y. split; [|auto]. eapply Forall2_weaken; [|exact (attrs_at (E2 _ _ J1))].
      intros v x (c1 & m1 & -> & Gx). exists (Attr k). split; [right; reflexivity|]. econstructor; [exact Gx|constructor].
  Qed.

  (** DefaultTaskEncoder.batch keeps the subflavours of every sample, whatever they are *)
  Theorem C51_default_batch_keeps_subflavors (vs : list pyval) ms k : default_batch cast zero vs = Ok ms -> k = "__subflavor__" \/ k = "__subflavors__" ->
    In k (map fst ms) -> exists xs, Forall2 (fun v x => exists st, (st = Key k \/ st = Attr k) /\ value_at v [st] x) vs xs /\ get k ms = Some (PList xs).
  Proof.
    intros H HK I. destruct (C51_batch_fields H) as (v0 & rest & m & E & _ & EM & G). rewrite EM in I. destruct (G k I) as (xs & y & F & Gy & Y). exists xs. split; [exact F|]. rewrite Gy.
    f_equal. destruct HK as [-> | ->]; cbn in Y; unfold keep in Y; injection Y as <-; reflexivity.
  Qed.
End C51.

(** * Examples.  dtype: true = int64, false = float; elements count halves, conversion to int truncates. *)
Definition ex_cast (dt : bool) (x : nat) : nat := if dt then 2 * (x / 2) else x.
Definition ex_zero (dt : bool) : nat := 0.
Definition ex_t (dt : bool) (sh : list nat) (base : nat) : tensor bool nat := mkT dt sh (fun idx => base + fold_left (fun a i => 10 * a + i) idx 0).
Definition elems (t : tensor bool nat) : list (list nat) :=
  match shape t with [n; m] => map (fun i => map (fun j => elt t [i; j]) (seq 0 m)) (seq 0 n) | _ => [] end.

(** two vectors of different lengths: the shorter one is padded *)
Example ex_pad_stack : exists t, batch_pad_stack ex_cast ex_zero [ex_t false [3] 11; ex_t false [2] 51] = Ok t /\ shape t = [2; 3] /\ elems t = [[11; 12; 13]; [51; 52; 0]].
Proof. eexists. split; [vm_compute; reflexivity|]. split; vm_compute; reflexivity. Qed.
Example ex_pad_stack_hyp : same_ndim [ex_t false [3] 11; ex_t false [2] 51].
Proof. exists 1. split; [discriminate|]. intros t [<-|[<-|[]]]; reflexivity. Qed.
Example ex_concat : exists t, concat_pad ex_cast ex_zero [ex_t false [1; 2] 1; ex_t false [2; 3] 50] = Ok t /\ shape t = [3; 3] /\ elems t = [[1; 2; 0]; [50; 51; 52]; [60; 61; 62]].
Proof. eexists. split; [vm_compute; reflexivity|]. split; vm_compute; reflexivity. Qed.

Definition ex_sample (key : nat) (len : nat) (sub : list (string * pyval bool nat)) : pyval bool nat :=
  PRec "Sample" [("__key__", POther key); ("image", PTensor (ex_t false [len] (10 * key))); ("__subflavors__", PDict sub)].
Example ex_generic : exists t, generic_batch ex_cast ex_zero [ex_sample 1 2 []; ex_sample 2 3 []] =
  Ok (PRec "Sample" [("__key__", PList [POther 1; POther 2]); ("image", PTensor t); ("__subflavors__", PDict [])]) /\ elems t = [[10; 11; 0]; [20; 21; 22]].
Proof. eexists. split; vm_compute; reflexivity. Qed.
Example ex_generic_wf : wellformed (ex_sample 1 2 []).
Proof. constructor; [repeat constructor; cbn; intuition discriminate|]. repeat constructor. Qed.
Example ex_default : exists ms, default_batch ex_cast ex_zero [ex_sample 1 2 [("lang", POther 1)]; ex_sample 2 3 []] = Ok ms /\
  get "__subflavors__" ms = Some (PList [PDict [("lang", POther 1)]; PDict []]).
Proof. eexists. split; vm_compute; reflexivity. Qed.

(** * What is not guaranteed *)

(** a sample whose subflavors lack a name the first sample's have cannot be batched by TaskEncoder.batch (KeyError), and
    in the other order the name is silently dropped *)
Theorem C51_subflavors_break_batching :
  te_batch ex_cast ex_zero [ex_sample 1 2 [("lang", POther 1)]; ex_sample 2 3 []] = Err KeyError /\
  exists ms, te_batch ex_cast ex_zero [ex_sample 2 3 []; ex_sample 1 2 [("lang", POther 1)]] = Ok ms /\ get "__subflavors__" ms = Some (PDict []).
Proof. split; [vm_compute; reflexivity|]. eexists. split; vm_compute; reflexivity. Qed.

(** the dtype of the batch is the first sample's: an int sample first truncates the others *)
Theorem C51_dtype_refuted : ~ (forall (batch : list (tensor bool nat)) t i b idx, batch_pad_stack ex_cast ex_zero batch = Ok t -> nth_error batch i = Some b -> inside idx (shape b) -> elt t (i :: idx) = elt b idx).
Proof.
  intros H. set (l := [ex_t true [1] 2; ex_t false [1] 3]). destruct (batch_pad_stack ex_cast ex_zero l) as [t|] eqn:E; [|vm_compute in E; discriminate].
  specialize (H l t 1 (ex_t false [1] 3) [0] E eq_refl). assert (I : inside [0] (shape (ex_t false [1] 3))) by (repeat constructor).
  specialize (H I). vm_compute in E. injection E as <-. vm_compute in H. discriminate.
Qed.

(** mixing batches: tensors are concatenated along the batch dimension, but lists are nested one level deeper, so the
    rows of a mixed batch no longer line up with its keys *)
Theorem C51_mix_misaligned_refuted : ~ (forall (vs : list (pyval bool nat)) r t ks, (forall v, In v vs -> exists tv kv, value_at v [Attr "image"] (PTensor tv) /\ value_at v [Attr "__key__"] (PList kv) /\ hd 0 (shape tv) = length kv) ->
  homogeneous_concat_mix ex_cast ex_zero vs = Ok r -> value_at r [Attr "image"] (PTensor t) -> value_at r [Attr "__key__"] (PList ks) -> hd 0 (shape t) = length ks).
Proof.
  intros H. set (b := fun k => PRec "B" [("__key__", PList [POther k; POther (S k)]); ("image", PTensor (ex_t false [2; 1] k))] : pyval bool nat).
  set (vs := [b 1; b 3]).
  assert (E : exists t, homogeneous_concat_mix ex_cast ex_zero vs = Ok (PRec "B" [("__key__", PList [PList [POther 1; POther 2]; PList [POther 3; POther 4]]); ("image", PTensor t)]) /\ shape t = [4; 1])
    by (eexists; split; vm_compute; reflexivity).
  destruct E as (t & E & Sh).
  assert (Q : hd 0 (shape t) = 2); [|rewrite Sh in Q; discriminate Q].
  refine (H vs _ t [PList [POther 1; POther 2]; PList [POther 3; POther 4]] _ E _ _).
  - intros v [<-|[<-|[]]]; eexists; eexists; (split; [econstructor; [reflexivity|constructor]|]); (split; [econstructor; [reflexivity|constructor]|reflexivity]).
  - econstructor; [reflexivity|constructor].
  - econstructor; [reflexivity|constructor].
Qed.

Print Assumptions C51_pad_stack.
Print Assumptions C51_concat_pad.
Print Assumptions C51_generic_batch.
Print Assumptions C51_concat_mix.
Print Assumptions C51_mix_same_class.
Print Assumptions C51_batch_fields.
Print Assumptions C51_default_batch_keeps_subflavors.
Print Assumptions C51_subflavors_break_batching.
Print Assumptions C51_dtype_refuted.
Print Assumptions C51_mix_misaligned_refuted.
