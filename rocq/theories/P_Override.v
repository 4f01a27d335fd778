(** Property C56: overriding a typed object by dotted names changes exactly what is named. *)
From Coq Require Import String Ascii QArith.
From Verif Require Import Base Typed TypedSpec TypedProofs TypedCallProofs Override OverrideSpec OverrideProofs OverrideMain.
Local Close Scope Q_scope.
Local Close Scope Z_scope.
Local Open Scope string_scope.
Local Open Scope list_scope.
Local Open Scope nat_scope.

(** for NamedTuples and dataclasses of such and of plain values: every part named gets what is given for it (a plain value what the
    text stands for, an object what is read from the text), everything that is not inside or around a named part stays, the type
    stays, and if strict every name exists *)
Theorem C56_changes_exactly : forall T accepts strict imports inst classes fuel t v l v',
  is_class t -> class_tree t -> inhab accepts (fun _ => True) v t -> changes_ok l ->
  override T accepts strict imports inst classes fuel v (as_dict l) t = COk v' ->
  (forall p x t', In (p, x) l -> type_at t p = Some t' -> exists y, part v' p = Some y /\
     (is_scalar t' -> stands_for T t' x y) /\
     (is_class t' -> exists s j, x = PStr s /\ json_loads T s = Some j /\ raw_to_typed accepts strict imports inst (Some j) t' = COk y)) /\
  (forall q, (forall p x, In (p, x) l -> ~ comparable p q) -> part v' q = part v q) /\
  inhab accepts (fun _ => True) v' t /\
  (strict = true -> forall p x, In (p, x) l -> type_at t p <> None).
Proof.
  intros T accepts strict imports inst classes fuel t v l v' C W V O E. destruct (override_changes C W V O E) as (H1 & H2 & H3 & H4).
  split; [exact H1|]. split; [exact H2|]. split; [exact H4|exact H3].
Qed.
Print Assumptions C56_changes_exactly.

(** and there is no error if every name is that of a plain value, every text stands for one, and the constructors accept *)
Theorem C56_works : forall T accepts strict imports inst classes fuel t v l, (forall c kw, accepts c kw = true) -> depth t <= fuel ->
  is_class t -> class_tree t -> inhab accepts (fun _ => True) v t -> changes_ok l ->
  (forall p x, In (p, x) l -> exists t' y, type_at t p = Some t' /\ is_scalar t' /\ stands_for T t' x y) ->
  exists v', override T accepts strict imports inst classes fuel v (as_dict l) t = COk v'.
Proof. intros. apply override_works; assumption. Qed.
Print Assumptions C56_works.

(** the example of the documentation *)
Definition my_tuple : ty := TNamed "MyNamedTuple" [("x", TInt, None); ("y", TStr, None)].
Definition my_nested : ty := TNamed "MyNested" [("nested", my_tuple, None)].
Definition my_value (x : Z) (y : string) : pv := PInst "MyNested" [("nested", PInst "MyNamedTuple" [("x", PInt x); ("y", PStr y)])].
Definition numerals (s : string) : option Z := if String.eqb s "5" then Some 5%Z else if String.eqb s "0" then Some 0%Z else if String.eqb s "1" then Some 1%Z else None.
Definition texts : text_fns := mkText (fun s => if numerals s then true else false) numerals (fun _ => None)
  (fun s => if String.eqb s "{...}" then Some (PDict [("x", PInt 5); ("y", PStr "bar")]) else None) (fun s => s) (fun _ => false).
Definition ov_ex strict v ov t : cres pv := override texts (fun _ _ => true) strict false (fun _ _ => CJson) (fun _ => None) 10 v ov t.
Example C56_nonvacuous :
  is_class my_nested /\ class_tree my_nested /\ inhab (fun _ _ => true) (fun _ => True) (my_value 42 "foo") my_nested /\
  changes_ok [(["nested"; "x"], PStr "5")] /\ as_dict [(["nested"; "x"], PStr "5")] = PDict [("nested.x", PStr "5")] /\
  ov_ex true (my_value 42 "foo") (PDict [("nested.x", PStr "5")]) my_nested = COk (my_value 5 "foo") /\
  ov_ex true (my_value 42 "foo") (PDict [("nested", PStr "{...}")]) my_nested = COk (my_value 5 "bar").
Proof.
  split; [exact I|]. split; [cbn; repeat split; repeat constructor; cbn; try (intros [|[]]; discriminate); try discriminate; tauto|].
  split; [cbn; eexists; split; [reflexivity|]; repeat split; eexists; split; [reflexivity|]; repeat split; eauto|].
  split; [|repeat split]. split; [|repeat constructor]. intros p x [E|[]]. injection E as <- <-. split; [discriminate|]. split; [|exact I]. repeat constructor; discriminate.
Qed.

(** *** lists: by index *)
Lemma Forall2_len {X Y} (R : X -> Y -> Prop) l1 l2 : Forall2 R l1 l2 -> length l1 = length l2.
Proof. induction 1; cbn; congruence. Qed.
Lemma split_plain d : forall res, NoDup (map fst (res ++ d)) -> Forall (fun kv => partition_dot (fst kv) = None) d -> split_loop res d = COk (res ++ d).
Proof.
  induction d as [|[k v] d IH]; intros res N F; [rewrite app_nil_r; reflexivity|]. cbn [split_loop]. assert (P := Forall_inv F). cbn [fst] in P. rewrite P.
  assert (K : ~ In k (map fst res)). { rewrite map_app in N. apply NoDup_remove_2 in N. intros H. apply N. apply in_or_app. auto. }
  unfold has. destruct (dget k res) as [w|] eqn:E; [exfalso; apply K; apply dget_in in E; apply in_map_iff; exists (k, w); auto|].
  rewrite (dput_fresh v K). rewrite IH; [|rewrite <- app_assoc; exact N|exact (Forall_inv_tail F)]. rewrite <- app_assoc. reflexivity.
Qed.
Section List_.
  Variable T : text_fns.
  Variable digits : nat -> string.
  Hypothesis digits_ok : forall i, partition_dot (digits i) = None /\ isnumeric T (digits i) = true /\ int_of T (digits i) = Some (Z.of_nat i).
  Lemma digits_inj i j : digits i = digits j -> i = j.
  Proof. intros E. destruct (digits_ok i) as (_ & _ & H1). destruct (digits_ok j) as (_ & _ & H2). rewrite E in H1. assert (Z.of_nat i = Z.of_nat j) by congruence. lia. Qed.
  Definition index_dict (ch : list (nat * pv)) : list (string * pv) := map (fun c => (digits (fst c), snd c)) ch.
  Definition zints (ch : list (nat * pv)) : list (Z * pv) := map (fun c => (Z.of_nat (fst c), snd c)) ch.
  Lemma index_keys ch : NoDup (map fst ch) -> NoDup (map fst (index_dict ch)).
  Proof.
    unfold index_dict. rewrite map_map. cbn. induction ch as [|[i x] ch IH]; cbn; [constructor|]. intros N. apply NoDup_cons_iff in N as [N1 N2]. constructor; [|exact (IH N2)].
    intros H. apply in_map_iff in H as ([j y] & E & H). apply N1. cbn in E. apply digits_inj in E. subst j. apply in_map_iff. exists (i, y). auto.
  Qed.
  Lemma int_keys_index ch : NoDup (map fst ch) -> int_keys T (index_dict ch) = COk (zints ch).
  Proof.
    induction ch as [|[i x] ch IH]; cbn [index_dict zints map int_keys fst snd]; [reflexivity|]. intros N. apply NoDup_cons_iff in N as [N1 N2]. destruct (digits_ok i) as (_ & _ & ->).
    fold (index_dict ch). rewrite (IH N2). cbn [cbind]. destruct (existsb _ (zints ch)) eqn:E; [|reflexivity]. exfalso. apply existsb_exists in E as ([z y] & H1 & H2).
    apply in_map_iff in H1 as ([j w] & E1 & H1). injection E1 as <- <-. cbn in H2. apply Z.eqb_eq in H2. apply N1. apply in_map_iff. exists (j, w). cbn. split; [lia|exact H1].
  Qed.
  Lemma zget_zints ch i : NoDup (map fst ch) -> (forall x, In (i, x) ch -> zget (Z.of_nat i) (zints ch) = Some x) /\ (~ In i (map fst ch) -> zget (Z.of_nat i) (zints ch) = None).
  Proof.
    induction ch as [|[j y] ch IH]; cbn [map fst zints zget snd]; [split; [intros x []|reflexivity]|]. intros N. apply NoDup_cons_iff in N as [N1 N2]. destruct (IH N2) as [H1 H2].
    destruct (Z.eqb_spec (Z.of_nat i) (Z.of_nat j)) as [E|E].
    - assert (i = j) by lia. subst j. split; [|intros H; exfalso; apply H; left; reflexivity]. intros x [Hx|Hx]; [congruence|]. exfalso. apply N1. apply in_map_iff. exists (i, x). auto.
    - split; [intros x [Hx|Hx]; [congruence|exact (H1 x Hx)]|]. intros H. apply H2. intros C. apply H. right. exact C.
  Qed.
  Lemma items_ok child l d idx r : items child l d idx = COk r ->
    Forall2 (fun i y => exists v, nth_error l i = Some v /\ match zget (Z.of_nat i) d with Some o => child v o = COk y | None => y = v end) idx r.
  Proof.
    revert r. induction idx as [|i idx IH]; intros r E; cbn [items] in E; [injection E as <-; constructor|]. destruct (nth_error l i) as [v|] eqn:EV; [|discriminate].
    destruct (match zget (Z.of_nat i) d with Some o => child v o | None => COk v end) as [y| |] eqn:EY; cbn [cbind] in E; try discriminate.
    destruct (items child l d idx) as [r'| |]; cbn [cbind] in E; try discriminate. injection E as <-. constructor; [|exact (IH _ eq_refl)]. exists v. split; [exact EV|].
    destruct (zget (Z.of_nat i) d); congruence.
  Qed.
  Lemma items_build child l d idx r :
    Forall2 (fun i y => exists v, nth_error l i = Some v /\ match zget (Z.of_nat i) d with Some o => child v o = COk y | None => y = v end) idx r -> items child l d idx = COk r.
  Proof.
    induction 1 as [|i y idx r (v & E1 & E2) F IH]; cbn [items]; [reflexivity|]. rewrite E1. destruct (zget (Z.of_nat i) d); rewrite ?E2; cbn [cbind]; rewrite IH; reflexivity.
  Qed.
  Lemma seq_index (P : nat -> pv -> Prop) r : forall s, Forall2 P (seq s (length r)) r -> forall i y, nth_error r i = Some y -> P (s + i) y.
  Proof.
    induction r as [|y r IH]; intros s F [|i] z E; try discriminate; cbn in F; inversion F as [|? ? ? ? F1 F2]; subst.
    - injection E as <-. rewrite Nat.add_0_r. exact F1.
    - rewrite <- plus_n_Sm. exact (IH _ F2 _ _ E).
  Qed.
  Lemma max_le ch n : (forall i x, In (i, x) ch -> i < n) -> 0 < n -> Z.to_nat (fold_right Z.max 0%Z (map fst (zints ch))) < n.
  Proof.
    intros H N. assert ((fold_right Z.max 0 (map fst (zints ch)) < Z.of_nat n)%Z) as B; [|lia]. induction ch as [|[i x] ch IH]; cbn; [lia|].
    specialize (IH (fun j y Hj => H j y (or_intror Hj))). specialize (H i x (or_introl eq_refl)). fold (zints ch). lia.
  Qed.

  Definition seq_of (v : pv) (l : list pv) : Prop := v = PList l \/ v = PTup l.
  Lemma seq_by_index accepts strict imports inst mk child bound whole v l ch l' : (forall a b : list pv, mk a = mk b -> a = b) -> seq_of v l ->
    match bound with Some b => length l <= b | None => True end ->
    NoDup (map fst ch) -> ch <> [] -> (forall i x, In (i, x) ch -> i < length l) ->
    override_seq T accepts strict imports inst mk child bound whole v (PDict (index_dict ch)) = COk (mk l') <->
    length l' = length l /\ forall i v y, nth_error l i = Some v -> nth_error l' i = Some y ->
      (forall x, In (i, x) ch -> child v x = COk y) /\ (~ In i (map fst ch) -> y = v).
  Proof.
    intros MK V BD N NE B. unfold override_seq, split_dict_keys.
    rewrite split_plain; [|cbn [app]; apply index_keys; exact N|].
    2: { unfold index_dict. rewrite Forall_map. apply Forall_forall. intros [i x] _. cbn. apply digits_ok. }
    cbn [app cbind]. replace (forallb (fun kv => isnumeric T (fst kv)) (index_dict ch)) with true.
    2: { symmetry. apply forallb_forall. intros [k x] H. apply in_map_iff in H as ([i y] & E & _). injection E as <- <-. cbn. apply digits_ok. }
    cbn [negb]. rewrite (int_keys_index N). cbn [cbind]. destruct (zints ch) as [|z0 zs] eqn:EZ; [destruct ch; [contradiction|discriminate EZ]|]. rewrite <- EZ. clear EZ z0 zs.
    assert (L0 : 0 < length l). { destruct ch as [|[i x] ch]; [contradiction|]. specialize (B i x (or_introl eq_refl)). lia. }
    assert (M := max_le B L0). remember (Z.to_nat (fold_right Z.max 0%Z (map fst (zints ch)))) as mx eqn:EM.
    assert (BB : match bound with Some b => b <=? mx | None => false end = false) by (destruct bound; [apply Nat.leb_gt; lia|reflexivity]).
    transitivity (cbind (items child l (zints ch) (seq 0 (length l))) (fun r => COk (mk r)) = COk (mk l')).
    { destruct V as [-> | ->]; rewrite BB; replace (mx - length l) with 0 by lia; cbn [seq forallb negb]; replace (Nat.max (S mx) (length l)) with (length l) by lia; reflexivity. }
    clear V v.
    split.
    - intros E. destruct (items child l (zints ch) (seq 0 (length l))) as [r| |] eqn:ER; cbn [cbind] in E; try discriminate. assert (r = l') by (apply MK; congruence). subst r. clear E.
      apply items_ok in ER. assert (LR := Forall2_len ER). rewrite seq_length in LR. split; [congruence|]. rewrite LR in ER. intros i v y H1 H2. apply (seq_index ER) in H2. destruct H2 as (v' & H3 & H4).
      cbn [Nat.add] in H3, H4. assert (v' = v) by congruence. subst v'. destruct (zget_zints i N) as [Z1 Z2]. split; [intros x Hx; rewrite (Z1 x Hx) in H4; exact H4|]. intros Hn. rewrite (Z2 Hn) in H4. exact H4.
    - intros [LL H]. erewrite items_build; [reflexivity|]. rewrite <- LL.
      assert (G : forall r s, (forall i y, nth_error r i = Some y -> exists v, nth_error l (s + i) = Some v /\ match zget (Z.of_nat (s + i)) (zints ch) with Some o => child v o = COk y | None => y = v end) ->
                  Forall2 (fun i y => exists v, nth_error l i = Some v /\ match zget (Z.of_nat i) (zints ch) with Some o => child v o = COk y | None => y = v end) (seq s (length r)) r).
      { induction r as [|y r IH]; intros s G; cbn; constructor; [specialize (G 0 y eq_refl); rewrite Nat.add_0_r in G; exact G|]. apply IH. intros i z Hz. specialize (G (S i) z Hz). rewrite <- plus_n_Sm in G. exact G. }
      apply G. intros i y Hy. cbn [Nat.add]. destruct (nth_error l i) as [v|] eqn:EV.
      2: { exfalso. apply nth_error_None in EV. assert (i < length l') by (apply nth_error_Some; congruence). lia. }
      exists v. split; [reflexivity|]. destruct (H i v y EV Hy) as [H1 H2]. destruct (zget_zints i N) as [Z1 Z2]. destruct (in_dec Nat.eq_dec i (map fst ch)) as [Hi|Hi]; [|rewrite (Z2 Hi); exact (H2 Hi)].
      apply in_map_iff in Hi as ([j x] & Ej & Hi). cbn in Ej. subst j. rewrite (Z1 x Hi). exact (H1 x Hi).
  Qed.

  (** with indexes of existing items: the items named are overridden, the others stay; no error but one of an item *)
  Theorem C56_list : forall accepts strict imports inst classes fuel t l ch l', NoDup (map fst ch) -> ch <> [] -> (forall i x, In (i, x) ch -> i < length l) ->
    override T accepts strict imports inst classes (S fuel) (PList l) (PDict (index_dict ch)) (TList t) = COk (PList l') <->
    length l' = length l /\ forall i v y, nth_error l i = Some v -> nth_error l' i = Some y ->
      (forall x, In (i, x) ch -> override T accepts strict imports inst classes fuel v x t = COk y) /\ (~ In i (map fst ch) -> y = v).
  Proof.
    intros accepts strict imports inst classes fuel t l ch l' N NE B. cbn [override override_step].
    apply seq_by_index; [congruence|left; reflexivity|exact I|exact N|exact NE|exact B].
  Qed.

  (** Tuple[t, ...] likewise *)
  Theorem C56_tuple : forall accepts strict imports inst classes fuel t l ch l', NoDup (map fst ch) -> ch <> [] -> (forall i x, In (i, x) ch -> i < length l) ->
    override T accepts strict imports inst classes (S fuel) (PTup l) (PDict (index_dict ch)) (TTupOf t) = COk (PTup l') <->
    length l' = length l /\ forall i v y, nth_error l i = Some v -> nth_error l' i = Some y ->
      (forall x, In (i, x) ch -> override T accepts strict imports inst classes fuel v x t = COk y) /\ (~ In i (map fst ch) -> y = v).
  Proof.
    intros accepts strict imports inst classes fuel t l ch l' N NE B. cbn [override override_step].
    apply seq_by_index; [congruence|right; reflexivity|exact I|exact N|exact NE|exact B].
  Qed.

  (** Tuple[a, b, ...]: an item is overridden as its old value's own type says, whatever the annotation *)
  Definition own_type (v : pv) : option ty :=
    match v with PNone => Some TNone | PBool _ => Some TBool | PInt _ => Some TInt | PFloat _ => Some TFloat | PStr _ => Some TStr | _ => None end.
  Theorem C56_fixed_tuple : forall accepts strict imports inst classes fuel ts l ch l', length l = length ts -> (forall v, In v l -> own_type v <> None) ->
    NoDup (map fst ch) -> ch <> [] -> (forall i x, In (i, x) ch -> i < length l) ->
    override T accepts strict imports inst classes (S fuel) (PTup l) (PDict (index_dict ch)) (TTup ts) = COk (PTup l') <->
    length l' = length l /\ forall i v y, nth_error l i = Some v -> nth_error l' i = Some y ->
      (forall x t, In (i, x) ch -> own_type v = Some t -> override T accepts strict imports inst classes fuel v x t = COk y) /\ (~ In i (map fst ch) -> y = v).
  Proof.
    intros accepts strict imports inst classes fuel ts l ch l' LL OW N NE B. cbn [override override_step].
    transitivity (length l' = length l /\ forall i v y, nth_error l i = Some v -> nth_error l' i = Some y ->
      (forall x, In (i, x) ch -> by_value T accepts strict imports inst classes (override T accepts strict imports inst classes fuel) v x = COk y) /\ (~ In i (map fst ch) -> y = v)).
    { apply seq_by_index; [congruence|right; reflexivity|lia|exact N|exact NE|exact B]. }
    split; intros (H1 & H2); (split; [exact H1|]); intros i v y E1 E2; destruct (H2 i v y E1 E2) as [H3 H4]; (split; [|exact H4]).
    - intros x t Hx Ht. specialize (H3 x Hx). destruct v; inversion Ht; subst; exact H3.
    - intros x Hx. pose proof (OW v (nth_error_In _ _ E1)) as O. destruct (own_type v) as [t|] eqn:EO; [|congruence]. specialize (H3 x t Hx eq_refl). destruct v; inversion EO; subst; exact H3.
  Qed.
End List_.
Print Assumptions C56_list.
Print Assumptions C56_tuple.
Print Assumptions C56_fixed_tuple.
(** such numerals exist (here: in unary), and there is a list to change *)
Fixpoint unary (i : nat) : string := match i with O => EmptyString | S i' => String "1" (unary i') end.
Definition unary_texts : text_fns := mkText (fun _ => true) (fun s => Some (Z.of_nat (String.length s))) (fun _ => None) (fun _ => None) (fun s => s) (fun _ => false).
Example C56_list_nonvacuous : (forall i, partition_dot (unary i) = None /\ isnumeric unary_texts (unary i) = true /\ int_of unary_texts (unary i) = Some (Z.of_nat i)) /\
  override unary_texts (fun _ _ => true) true false (fun _ _ => CJson) (fun _ => None) 5 (PList [PInt 7; PInt 8; PInt 9]) (PDict (index_dict unary [(2, PInt 4); (0, PStr "111")])) (TList TInt)
    = COk (PList [PInt 3; PInt 8; PInt 4]).
Proof.
  split; [|reflexivity]. intros i. split; [induction i as [|i IH]; cbn; [reflexivity|rewrite IH; reflexivity]|]. split; [reflexivity|]. cbn. f_equal. f_equal. induction i as [|i IH]; cbn; congruence.
Qed.

Example C56_tuple_nonvacuous :
  override unary_texts (fun _ _ => true) true false (fun _ _ => CJson) (fun _ => None) 5 (PTup [PInt 7; PBool true]) (PDict (index_dict unary [(1, PStr "False"); (0, PStr "111")])) (TTup [TInt; TBool])
    = COk (PTup [PInt 3; PBool false]) /\ (forall v, In v [PInt 7; PBool true] -> own_type v <> None).
Proof. split; [reflexivity|]. intros v [<-|[<-|[]]]; discriminate. Qed.

(** *** unions *)
(** the values of simple types *)
Definition simple (t : ty) : Prop :=
  match t with TStr | TInt | TFloat | TBool | TNone | TAny | TNamed _ _ | TData _ _ | TRawDict | TRawList | TPath => True | _ => False end.
Definition belongs (v : pv) (t : ty) : Prop :=
  match t, v with
  | TAny, _ | TStr, PStr _ | TInt, PInt _ | TInt, PBool _ | TFloat, PFloat _ | TBool, PBool _ | TNone, PNone
  | TRawDict, PDict _ | TRawList, PList _ | TPath, PPath _ => True
  | (TNamed c _ | TData c _), PInst c' _ => c = c'
  | _, _ => False
  end.
Lemma isinstance_simple v t : simple t -> exists b, isinstance_deep v t = COk b /\ (b = true <-> belongs v t).
Proof.
  destruct t; try contradiction; intros _; cbn [isinstance_deep belongs]; eexists; (split; [reflexivity|]); destruct v; try tauto; try (split; [discriminate|contradiction]).
  - rewrite String.eqb_eq. reflexivity.
  - rewrite String.eqb_eq. reflexivity.
Qed.
Definition is_text (v : pv) : Prop := match v with PStr _ => True | _ => False end.

(** a union overridden by something that is no text: as the first alternative that the old value belongs to *)
Theorem C56_union_value : forall T accepts strict imports inst classes fuel v ov before t after, ~ is_text ov ->
  Forall simple (before ++ [t]) -> Forall (fun t' => ~ belongs v t') before -> belongs v t ->
  override T accepts strict imports inst classes (S fuel) v ov (TUnion (before ++ t :: after)) = override T accepts strict imports inst classes fuel v ov t.
Proof.
  intros T accepts strict imports inst classes fuel v ov before t after NT SI NB B.
  transitivity (union_value (override T accepts strict imports inst classes fuel) v ov (before ++ t :: after)).
  { cbn [override override_step]. destruct ov; try reflexivity. exfalso. apply NT. exact I. }
  induction before as [|u before IH]; cbn [app union_value].
  - destruct (isinstance_simple v (Forall_inv SI)) as (b & -> & HB). cbn [cbind]. rewrite (proj2 HB B). reflexivity.
  - destruct (isinstance_simple v (Forall_inv SI)) as (b & -> & HB). cbn [cbind]. destruct b; [exfalso; exact (Forall_inv NB (proj1 HB eq_refl))|].
    apply IH; [exact (Forall_inv_tail SI)|exact (Forall_inv_tail NB)].
Qed.
Print Assumptions C56_union_value.

(** by a text: as the first alternative that the text fits *)
Definition fits (T : text_fns) (s : string) (t : ty) : Prop :=
  match t with
  | TBool => s = "True" \/ s = "False"
  | TInt => isnumeric T (strip T s) = true
  | TFloat => float_like T s = true
  | TStr => True
  | _ => False
  end.
Definition meant (T : text_fns) (s : string) (t : ty) (r : cres pv) : Prop :=
  match t with
  | TBool => (s = "True" -> r = COk (PBool true)) /\ (s = "False" -> r = COk (PBool false))
  | TInt => match int_of T s with Some z => r = COk (PInt z) | None => r = CErr ValueError end
  | TFloat => match float_of T s with Some q => r = COk (PFloat q) | None => r = CErr ValueError end
  | _ => r = COk (PStr s)
  end.
Lemma union_text_skip T s t ts : ~ fits T s t -> union_text T s (t :: ts) = union_text T s ts.
Proof.
  intros H. destruct t; cbn [union_text fits] in *; try reflexivity; [exfalso; auto| | |].
  - destruct (isnumeric T (strip T s)); [exfalso; auto|reflexivity].
  - destruct (float_like T s); [exfalso; auto|reflexivity].
  - destruct (String.eqb_spec s "True"); [exfalso; auto|]. destruct (String.eqb_spec s "False"); [exfalso; auto|reflexivity].
Qed.
Theorem C56_union_text : forall T accepts strict imports inst classes fuel v s before t after,
  Forall (fun t' => ~ fits T s t') before -> fits T s t ->
  meant T s t (override T accepts strict imports inst classes (S fuel) v (PStr s) (TUnion (before ++ t :: after))).
Proof.
  intros T accepts strict imports inst classes fuel v s before t after NF F. cbn [override override_step].
  assert (E : union_text T s (before ++ t :: after) = union_text T s (t :: after)).
  { induction before as [|u before IH]; [reflexivity|]. cbn [app]. rewrite union_text_skip by exact (Forall_inv NF). apply IH. exact (Forall_inv_tail NF). }
  rewrite E. destruct t; try contradiction; cbn [union_text fits meant] in *.
  - reflexivity.
  - rewrite F. destruct (int_of T s); reflexivity.
  - rewrite F. destruct (float_of T s); reflexivity.
  - destruct F as [-> | ->]; cbn; (split; [intros H|intros H]); first [reflexivity|discriminate].
Qed.
Print Assumptions C56_union_text.
(** a text that fits none and begins like a JSON list or object is read as JSON, another one as a text *)
Theorem C56_union_json : forall T accepts strict imports inst classes fuel v s ts, Forall (fun t => ~ fits T s t) ts ->
  ((exists r, strip T s = String "{" r \/ strip T s = String "[" r) ->
     (forall j, json_loads T s = Some j ->
        override T accepts strict imports inst classes (S fuel) v (PStr s) (TUnion ts) = raw_to_typed accepts strict imports inst (Some j) (TUnion ts)) /\
     (json_loads T s = None -> override T accepts strict imports inst classes (S fuel) v (PStr s) (TUnion ts) = CErr ValueError)) /\
  ((forall r, strip T s <> String "{" r /\ strip T s <> String "[" r) ->
     override T accepts strict imports inst classes (S fuel) v (PStr s) (TUnion ts) = raw_to_typed accepts strict imports inst (Some (PStr s)) (TUnion ts)).
Proof.
  intros T accepts strict imports inst classes fuel v s ts NF. cbn [override override_step].
  assert (E : union_text T s ts = None).
  { induction ts as [|u ts IH]; [reflexivity|]. rewrite union_text_skip by exact (Forall_inv NF). apply IH. exact (Forall_inv_tail NF). }
  rewrite E. unfold opens_json, whole_text, to_typed. split.
  - intros (r & [-> | ->]); cbn [Ascii.eqb orb Bool.eqb]; (split; [intros j -> |intros ->]); reflexivity.
  - intros H. destruct (strip T s) as [|c r]; [reflexivity|]. destruct (H r) as [H1 H2].
    destruct (Ascii.eqb_spec c "{"); [congruence|]. destruct (Ascii.eqb_spec c "["); [congruence|]. reflexivity.
Qed.
Print Assumptions C56_union_json.
Example C56_union_nonvacuous :
  ov_ex true (my_value 42 "foo") (PDict [("nested.x", PStr "5")]) (TUnion [TNone; TStr; my_tuple; my_nested]) = COk (my_value 5 "foo") /\
  Forall simple [TNone; TStr; my_tuple; my_nested] /\ Forall (fun t => ~ belongs (my_value 42 "foo") t) [TNone; TStr; my_tuple] /\ belongs (my_value 42 "foo") my_nested /\
  ov_ex true (PInt 3) (PStr "False") (TUnion [TInt; TBool]) = COk (PBool false) /\ ~ fits texts "False" TInt /\ fits texts "False" TBool /\
  ov_ex true PNone (PStr "{...}") (TUnion [TNone; my_tuple]) = COk (PInst "MyNamedTuple" [("x", PInt 5); ("y", PStr "bar")]).
Proof.
  split; [reflexivity|]. split; [repeat (apply Forall_cons || apply Forall_nil); exact I|].
  split; [repeat (apply Forall_cons || apply Forall_nil); cbn; intuition discriminate|]. split; [reflexivity|].
  split; [reflexivity|]. split; [cbn; discriminate|]. split; [right; reflexivity|reflexivity].
Qed.

(** *** what goes wrong *)
(** text "False" for a value of any type sets it to True *)
Theorem C56_any_false_refuted : forall strict v, ov_ex strict v (PStr "False") TAny = COk (PBool true).
Proof. reflexivity. Qed.
(** a dictionary with entries cannot be overridden: its values are unpacked (a missing enumerate); where that works the keys are lost *)
Theorem C56_dict_refuted : forall strict, ov_ex strict (PDict [("a", PInt 1)]) (PDict [("a", PInt 5)]) (TDict TInt) = CErr TypeError /\
  ov_ex strict (PDict [("a", PInt 1)]) (PDict []) (TDict TInt) = CErr TypeError /\
  ov_ex strict (PDict [("name", PStr "xy")]) (PDict []) (TDict TStr) = COk (PDict [("x", PStr "y")]).
Proof. repeat split. Qed.
(** a list cannot be made longer although the code provides for it *)
Theorem C56_append_refuted : forall strict, ov_ex strict (PList [PInt 7]) (PDict [("1", PStr "5")]) (TList TInt) = CErr IndexError.
Proof. reflexivity. Qed.
(** no overrides at all are an error for a list, but not for a class *)
Theorem C56_empty_refuted : forall strict l, ov_ex strict (PList l) (PDict []) (TList TInt) = CErr ValueError.
Proof. reflexivity. Qed.
(** an optional value cannot be set to None, neither by text nor by None *)
Theorem C56_optional_refuted : forall strict z, ov_ex strict (PInt z) (PStr "None") (TUnion [TInt; TNone]) = CJson /\
  ov_ex strict (PInt z) PNone (TUnion [TInt; TNone]) = CJson.
Proof. split; reflexivity. Qed.
(** Literal with several values raises ValueError even for the value it has *)
Theorem C56_literal_refuted : forall strict a b, ov_ex strict (PStr a) (PStr a) (TLit [PStr a; PStr b]) = CErr ValueError.
Proof. reflexivity. Qed.
(** the order of the overrides matters: {"a": {..}, "a.y": ..} is accepted, {"a.y": .., "a": {..}} is not *)
Theorem C56_order_refuted : forall strict, let v := my_value 42 "foo" in
  ov_ex strict v (PDict [("nested", PDict [("x", PInt 5)]); ("nested.y", PStr "bar")]) my_nested = COk (my_value 5 "bar") /\
  ov_ex strict v (PDict [("nested.y", PStr "bar"); ("nested", PDict [("x", PInt 5)])]) my_nested = CErr ValueError.
Proof. intros []; split; reflexivity. Qed.
Print Assumptions C56_any_false_refuted.
Print Assumptions C56_dict_refuted.
Print Assumptions C56_append_refuted.
Print Assumptions C56_empty_refuted.
Print Assumptions C56_optional_refuted.
Print Assumptions C56_literal_refuted.
Print Assumptions C56_order_refuted.

(** FINDING: an item of Tuple[float, ...fixed] that happens to be an int can only be overridden by ints: "0.5" is refused *)
Theorem C56_tuple_item_type_refuted : forall strict T q, float_of T "0.5" = Some q -> int_of T "0.5" = None -> isnumeric T "0" = true -> int_of T "0" = Some 0%Z ->
  override T (fun _ _ => true) strict false (fun _ _ => CJson) (fun _ => None) 10 (PTup [PInt 1]) (PDict [("0", PStr "0.5")]) (TTup [TFloat]) = CErr ValueError /\
  override T (fun _ _ => true) strict false (fun _ _ => CJson) (fun _ => None) 10 (PTup [PFloat 1]) (PDict [("0", PStr "0.5")]) (TTup [TFloat]) = COk (PTup [PFloat q]).
Proof. intros strict T q H1 H2 H3 H4. split; cbn; rewrite H3; cbn; rewrite H4; cbn; rewrite ?H1, ?H2; reflexivity. Qed.
Print Assumptions C56_tuple_item_type_refuted.
