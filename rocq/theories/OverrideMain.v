(** Overriding changes exactly what is named. *)
From Coq Require Import String Ascii QArith.
From Verif Require Import Base Typed TypedSpec TypedProofs TypedCallProofs Override OverrideSpec OverrideProofs.
Local Close Scope Q_scope.
Local Close Scope Z_scope.
Local Open Scope string_scope.
Local Open Scope list_scope.
Local Open Scope nat_scope.

(** *** fields by name *)
Lemma field_type_in n fs t : field_type n fs = Some t -> exists d, In (n, t, d) fs.
Proof. induction fs as [|[[m t1] d] fs IH]; cbn; [discriminate|]. destruct (String.eqb_spec n m) as [->|N]; [intros [= ->]; eauto|]. intros H. destruct (IH H) as (d' & H'). eauto. Qed.
Lemma field_type_none n fs : field_type n fs = None <-> ~ In n (map f_name fs).
Proof.
  induction fs as [|[[m t1] d] fs IH]; cbn; [tauto|]. destruct (String.eqb_spec n m) as [->|N]; [split; [discriminate|intros H; exfalso; apply H; left; reflexivity]|].
  rewrite IH. unfold f_name at 2. cbn. split; [intros H [E|H']; [congruence|auto]|tauto].
Qed.
Lemma field_type_NoDup fs f : NoDup (map f_name fs) -> In f fs -> field_type (f_name f) fs = Some (f_type f).
Proof.
  induction fs as [|[[m t1] d] fs IH]; cbn; intros N H; [destruct H|]. apply NoDup_cons_iff in N as [N1 N2]. destruct H as [<-|H]; [cbn; rewrite String.eqb_refl; reflexivity|].
  destruct (String.eqb_spec (f_name f) m) as [E|_]; [|exact (IH N2 H)]. exfalso. apply N1. unfold f_name at 1. cbn. rewrite <- E. apply in_map. exact H.
Qed.
Section Named.
  Variable P : string * ty * option pv -> string * pv -> Prop.
  Hypothesis name : forall f nv, P f nv -> fst nv = f_name f.
  Lemma aligned_keys fs kw : Forall2 P fs kw -> map fst kw = map f_name fs.
  Proof. induction 1 as [|f nv fs kw H F IH]; cbn; [reflexivity|]. rewrite IH, (name H). reflexivity. Qed.
  Lemma aligned_get fs kw n t : Forall2 P fs kw -> field_type n fs = Some t -> exists d y, In (n, t, d) fs /\ dget n kw = Some y /\ P (n, t, d) (n, y).
  Proof.
    induction 1 as [|[[m t1] d] [k y] fs kw H F IH]; cbn; [discriminate|]. assert (E := name H). cbn in E. subst k. destruct (String.eqb_spec n m) as [->|N].
    - intros [= ->]. exists d, y. auto.
    - intros E. destruct (IH E) as (d' & y' & H1 & H2 & H3). exists d', y'. auto.
  Qed.
  Lemma aligned_none fs kw n : Forall2 P fs kw -> field_type n fs = None -> dget n kw = None.
  Proof. intros F H. apply dget_none. rewrite (aligned_keys F). apply field_type_none. exact H. Qed.
End Named.

Lemma aligned_all (Q : string * ty * option pv -> pv -> Prop) fs kw : NoDup (map fst kw) -> Forall2 (fun f nv => fst nv = f_name f) fs kw ->
  Forall (fun f => forall y, dget (f_name f) kw = Some y -> Q f y) fs -> Forall2 (fun fd nx => f_name fd = fst nx /\ Q fd (snd nx)) fs kw.
Proof.
  intros N F G. assert (H : forall z, In z kw -> dget (fst z) kw = Some (snd z)) by (intros [k v] Hz; apply dget_NoDup; assumption).
  assert (X : forall fs0 kw0, incl kw0 kw -> Forall2 (fun f nv => fst nv = f_name f) fs0 kw0 -> Forall (fun f => forall y, dget (f_name f) kw = Some y -> Q f y) fs0 ->
                Forall2 (fun fd nx => f_name fd = fst nx /\ Q fd (snd nx)) fs0 kw0).
  { intros fs0 kw0 I F0. induction F0 as [|f nv fs' kw' F1 F' IH]; intros G0; constructor.
    - split; [congruence|]. apply (Forall_inv G0). rewrite <- F1. apply H, I. left. reflexivity.
    - apply IH; [|exact (Forall_inv_tail G0)]. intros z Hz. apply I. right. exact Hz. }
  apply X; [intros z Hz; exact Hz|exact F|exact G].
Qed.
(** *** classes *)
Inductive class_of : ty -> string -> list (string * ty * option pv) -> Prop :=
| co_named c fs : class_of (TNamed c fs) c fs
| co_data c fs : class_of (TData c fs) c fs.
Lemma is_class_of t : is_class t -> exists c fs, class_of t c fs.
Proof. destruct t; cbn; intros []; eauto using class_of. Qed.
Lemma class_of_tree t c fs : class_of t c fs -> class_tree t -> NoDup (map f_name fs) /\ Forall is_name (map f_name fs) /\ Forall (fun f => class_tree (f_type f)) fs.
Proof. intros [ | ]; cbn [class_tree]; rewrite fields_all; auto. Qed.
Lemma class_of_inhab acc any t c fs v : class_of t c fs -> inhab acc any v t <->
  exists f, v = PInst c f /\ acc c f = true /\ Forall2 (fun fd nx => f_name fd = fst nx /\ inhab acc any (snd nx) (f_type fd)) fs f.
Proof.
  intros [c0 fs0|c0 fs0]; cbn [inhab]; split; intros (f & E & A & F); exists f; (split; [exact E|]; split; [exact A|]); apply fields_inhab; exact F.
Qed.
Lemma class_of_type t c fs n p : class_of t c fs -> type_at t (n :: p) = match field_type n fs with Some t' => type_at t' p | None => None end.
Proof. intros [ | ]; reflexivity. Qed.
Lemma class_of_scalar t : class_tree t -> is_scalar t \/ is_class t.
Proof. destruct t; cbn; tauto. Qed.
Lemma class_tree_checked : forall t, class_tree t -> checked t.
Proof.
  fix IH 1. intros [ | | | | | |vs|ts|c fs|c fs|t|t|t|ts|t| | | |n| |n]; cbn; try tauto; intros (_ & _ & H); revert H.
  - induction fs as [|[[n t] d] fs IHf]; [auto|]. intros [H1 H2]. split; [exact (IH t H1)|exact (IHf H2)].
  - induction fs as [|[[n t] d] fs IHf]; [auto|]. intros [H1 H2]. split; [exact (IH t H1)|exact (IHf H2)].
Qed.
Lemma class_of_depth t c fs n t1 d : class_of t c fs -> In (n, t1, d) fs -> S (depth t1) <= depth t.
Proof.
  intros H Hi. enough (depth t1 <= (fix go (fs : list (string * ty * option pv)) := match fs with [] => 0 | (_, t1, _) :: fs' => Nat.max (depth t1) (go fs') end) fs) by (destruct H; cbn [depth]; lia).
  clear H. induction fs as [|[[m t2] d2] fs IH]; [destruct Hi|]. destruct Hi as [E|Hi]; [injection E as -> -> ->; lia|]. specialize (IH Hi). lia.
Qed.

Section Main.
  Variable T : text_fns.
  Variable accepts : string -> list (string * pv) -> bool.
  Variables (strict imports : bool).
  Variable inst : list (string * pv) -> ty -> cres pv.
  Variable classes : string -> option ty.
  Notation ovr := (override T accepts strict imports inst classes).
  Notation has_type := (inhab accepts (fun _ => True)).

  Lemma ovr_class fuel v ov t c fs : class_of t c fs -> ovr (S fuel) v ov t = override_class T accepts strict imports inst (ovr fuel) v ov t c fs.
  Proof. intros [ | ]; reflexivity. Qed.
  Lemma ovr_scalar fuel v ov t y : is_scalar t -> ovr fuel v ov t = COk y -> text_or_scalar ov /\ stands_for T t ov y.
  Proof.
    destruct fuel; [discriminate|]. intros S E. cbn [override override_step] in E. destruct t; try destruct S; cbn [override_step] in E; unfold override_leaf in E; destruct ov; try discriminate;
      (split; [exact I|]); cbn [stands_for]; try (injection E as <-); try solve [eauto 10].
    - destruct (int_of T s) eqn:EI; [|discriminate]. injection E as <-. left. eauto.
    - destruct (float_of T s) eqn:EI; [|discriminate]. injection E as <-. left. eauto.
    - cbn [str_in existsb] in E. destruct (String.eqb_spec s "True"); [injection E as <-; subst; cbn; auto 12|]. destruct (String.eqb_spec s "true"); [injection E as <-; subst; cbn; auto 12|].
      destruct (String.eqb_spec s "1"); [injection E as <-; subst; cbn; auto 12|]. cbn in E. destruct (String.eqb_spec s "False"); [injection E as <-; subst; cbn; auto 12|].
      destruct (String.eqb_spec s "false"); [injection E as <-; subst; cbn; auto 12|]. destruct (String.eqb_spec s "0"); [injection E as <-; subst; cbn; auto 12|]. discriminate.
    - destruct (String.eqb_spec s "None"); [|discriminate]. injection E as <-. subst. auto.
  Qed.
  Lemma scalar_build fuel v ov t y : 0 < fuel -> is_scalar t -> stands_for T t ov y -> ovr fuel v ov t = COk y.
  Proof.
    destruct fuel; [lia|]. intros _ S E. cbn [override]. destruct t; try destruct S; cbn [override_step stands_for] in *; unfold override_leaf.
    - destruct E as (-> & s & ->). reflexivity.
    - destruct E as [(s & z & -> & E & ->)|(-> & [(z & ->)|(b & ->)])]; [rewrite E|..]; reflexivity.
    - destruct E as [(s & z & -> & E & ->)|(-> & [(z & ->)|[(z & ->)|(b & ->)]])]; [rewrite E|..]; reflexivity.
    - destruct E as [(-> & [<-|[<-|[<-|[]]]])|[(-> & [<-|[<-|[<-|[]]]])|(-> & b & ->)]]; reflexivity.
    - destruct E as (-> & [-> | ->]); reflexivity.
  Qed.
  Lemma stands_for_type t x y : is_scalar t -> stands_for T t x y -> has_type y t.
  Proof.
    destruct t; intros []; cbn; intros E.
    - destruct E as (-> & s & ->). eauto.
    - destruct E as [(s & z & _ & _ & ->)|(-> & H)]; eauto.
    - destruct E as [(s & z & _ & _ & ->)|(-> & H)]; eauto.
    - destruct E as [(-> & _)|[(-> & _)|(-> & H)]]; eauto.
    - destruct E as (-> & _). reflexivity.
  Qed.
  (** a whole object given as text *)
  Definition read_from_text (t : ty) (x y : pv) : Prop :=
    exists s j, x = PStr s /\ json_loads T s = Some j /\ raw_to_typed accepts strict imports inst (Some j) t = COk y.
  Lemma ovr_text fuel v x t y : is_class t -> text_or_scalar x -> ovr fuel v x t = COk y -> read_from_text t x y.
  Proof.
    destruct fuel; [discriminate|]. intros C X. destruct (is_class_of C) as (c & fs & H). rewrite (ovr_class _ _ _ H). unfold override_class.
    destruct x; try discriminate; try destruct X. unfold whole_text, to_typed. destruct (json_loads T s) as [j|] eqn:E; [|discriminate]. intros E2. exists s, j. auto.
  Qed.

  Definition field_after (fuel : nat) (old : list (string * pv)) (l : list change) (f : string * ty * option pv) (nv : string * pv) : Prop :=
    fst nv = f_name f /\ exists x, dget (f_name f) old = Some x /\
      match rep (below (f_name f) l) with Some o => ovr fuel x o (f_type f) = COk (snd nv) | None => snd nv = x end.
  Lemma class_result fuel old l t c fs v' : class_of t c fs -> class_tree t -> changes_ok l -> ovr (S fuel) (PInst c old) (as_dict l) t = COk v' ->
    exists kw, v' = PInst c kw /\ accepts c kw = true /\ Forall2 (field_after fuel old l) fs kw /\ (strict = true -> forall n p x, In (n :: p, x) l -> In n (map f_name fs)).
  Proof.
    intros C W O E. rewrite (ovr_class _ _ _ C) in E. destruct (class_of_tree C W) as (W1 & W2 & _). unfold override_class, as_dict in E.
    destruct (split_changes O) as (local & E1 & E2 & R1 & R2 & R3). rewrite E1 in E. cbn [cbind] in E. rewrite E2 in E.
    destruct (fields (ovr fuel) old local fs) as [[kw rest]| |] eqn:EF; cbn [cbind fst snd] in E; try discriminate.
    destruct (strict && negb (length rest =? 0)) eqn:ES; [discriminate|]. destruct (accepts c kw) eqn:EA; [|discriminate]. injection E as <-.
    apply fields_ok in EF as [F1 F2]; [|exact W1|exact R1]. exists kw. split; [reflexivity|]. split; [exact EA|]. split.
    - clear - F1 R3. induction F1 as [|f nv fs kw (H1 & x & H2 & H3) F IH]; constructor; [|exact IH]. split; [exact H1|]. exists x. split; [exact H2|]. rewrite <- R3. exact H3.
    - intros -> n p x Hi. cbn in ES. destruct rest as [|r rest]; [|discriminate]. destruct (F2 n) as [H|[]]; [|exact H].
      destruct (dget n local) as [w|] eqn:EW; [apply dget_in in EW; apply in_map_iff; exists (n, w); auto|]. exfalso. rewrite R3 in EW.
      assert (In (p, x) (below n l)) as HB by (apply below_in; exact Hi). destruct (rep_cases n O) as [[B1 B2]|[(z & B1 & B2)|(B1 & B2 & B3)]]; [rewrite B1 in HB; destruct HB|congruence|congruence].
  Qed.
  Lemma class_build fuel old l t c fs : (forall kw, accepts c kw = true) -> class_of t c fs -> class_tree t -> changes_ok l ->
    (forall p x, In (p, x) l -> type_at t p <> None) ->
    (forall f, In f fs -> exists y, field_after fuel old l f (f_name f, y)) -> exists v', ovr (S fuel) (PInst c old) (as_dict l) t = COk v'.
  Proof.
    intros A C W O K H. rewrite (ovr_class _ _ _ C). destruct (class_of_tree C W) as (W1 & W2 & _). unfold override_class, as_dict.
    destruct (split_changes O) as (local & E1 & E2 & R1 & R2 & R3). rewrite E1. cbn [cbind]. rewrite E2.
    assert (exists kw, Forall2 (field_result (ovr fuel) old local) fs kw) as (kw & F).
    { clear - H R3. induction fs as [|f fs IH]; [exists []; constructor|]. destruct IH as (kw & F); [intros; apply H; right; assumption|].
      destruct (H f) as (y & H1 & x & H2 & H3); [left; reflexivity|]. exists ((f_name f, y) :: kw). constructor; [|exact F]. split; [reflexivity|]. exists x. split; [exact H2|]. rewrite R3. exact H3. }
    destruct (fields_build W1 R1 F) as (rest & E3). rewrite E3. cbn [cbind fst snd]. rewrite A.
    assert (rest = []) as ->; [|rewrite andb_false_r; eexists; reflexivity].
    (* nothing is left: every name is a field *)
    assert (forall k, In k (map fst local) -> In k (map f_name fs)) as KF.
    { intros k Hk. destruct (dget k local) as [w|] eqn:EW; [|apply dget_none in EW; contradiction]. rewrite R3 in EW.
      assert (exists p x, In (k :: p, x) l) as (p & x & Hi).
      { destruct (below k l) as [|[p x] b] eqn:EB; [discriminate|]. exists p, x. apply below_in. rewrite EB. left. reflexivity. }
      apply K in Hi. rewrite (class_of_type k p C) in Hi. destruct (field_type k fs) eqn:EK; [|contradiction]. apply field_type_in in EK as (d & EK). apply in_map_iff. exists (k, t0, d). auto. }
    clear - E3 KF R1 W1. revert kw local E3 KF R1. induction fs as [|[[n t] d] fs IH]; intros kw local E3 KF R1; cbn [fields] in E3.
    - injection E3 as <- <-. destruct local as [|[k w] local]; [reflexivity|]. destruct (KF k). left. reflexivity.
    - cbn in W1. apply NoDup_cons_iff in W1 as [W1 W1']. destruct (dget n old) as [v|]; [|discriminate]. destruct (dget n local) as [o|] eqn:EL.
      + destruct (ovr fuel v o t) as [v'| |]; cbn [cbind] in E3; try discriminate. destruct (fields (ovr fuel) old (dpop n local) fs) as [[kw' rest']| |] eqn:EF; cbn [cbind fst snd] in E3; try discriminate.
        injection E3 as _ <-. apply (IH W1' _ _ EF); [|apply dpop_NoDup; exact R1]. intros k Hk. destruct (KF k (dpop_in Hk)) as [E|H]; [|exact H]. exfalso. cbn in E. subst k.
        assert (X := dget_dpop_same n R1). apply dget_none in X. contradiction.
      + destruct (fields (ovr fuel) old local fs) as [[kw' rest']| |] eqn:EF; cbn [cbind fst snd] in E3; try discriminate. injection E3 as _ <-. apply (IH W1' _ _ EF); [|exact R1].
        intros k Hk. destruct (KF k Hk) as [E|H]; [|exact H]. exfalso. cbn in E. subst k. apply dget_none in EL. contradiction.
  Qed.

  Definition changed (t : ty) (v v' : pv) (l : list change) : Prop :=
    (forall p x t', In (p, x) l -> type_at t p = Some t' ->
       exists y, part v' p = Some y /\ (is_scalar t' -> stands_for T t' x y) /\ (is_class t' -> read_from_text t' x y)) /\
    (forall q, (forall p x, In (p, x) l -> ~ comparable p q) -> part v' q = part v q) /\
    (strict = true -> forall p x, In (p, x) l -> type_at t p <> None) /\
    has_type v' t.

  Lemma aligned_same (fs : list (string * ty * option pv)) (old kw : list (string * pv)) : NoDup (map f_name fs) -> map fst old = map f_name fs ->
    Forall2 (fun f nv => fst nv = f_name f /\ exists x, dget (f_name f) old = Some x /\ snd nv = x) fs kw -> kw = old.
  Proof.
    intros N K F. assert (ND : NoDup (map fst old)) by (rewrite K; exact N). 
    assert (G : forall pre rest, old = pre ++ rest -> forall fs, map fst rest = map f_name fs -> forall kw, Forall2 (fun f nv => fst nv = f_name f /\ exists x, dget (f_name f) old = Some x /\ snd nv = x) fs kw -> kw = rest).
    { clear - ND. intros pre rest. revert pre. induction rest as [|[k v] rest IH]; intros pre E fs K kw F.
      - destruct fs; [|discriminate]. inversion F. reflexivity.
      - destruct fs as [|f fs]; [discriminate|]. cbn in K. injection K as K1 K2. inversion F as [|? [m y] ? kw' (H1 & x & H2 & H3) F']; subst. cbn [fst snd] in *. subst.
        f_equal.
        + f_equal. assert (Hd : dget (f_name f) (pre ++ (f_name f, v) :: rest) = Some v) by (apply dget_NoDup; [exact ND|apply in_or_app; right; left; reflexivity]). congruence.
        + apply (IH (pre ++ [(f_name f, v)])) with (fs := fs); [rewrite <- app_assoc; reflexivity|exact K2|exact F']. }
    exact (G [] old eq_refl fs K kw F).
  Qed.

  Theorem override_changes : forall fuel t v l v', is_class t -> class_tree t -> has_type v t -> changes_ok l ->
    ovr fuel v (as_dict l) t = COk v' -> changed t v v' l.
  Proof.
    induction fuel as [|fuel IH]; intros t v l v' C W V O E; [discriminate|].
    destruct (is_class_of C) as (c & fs & CO). apply (class_of_inhab _ _ _ CO) in V as (old & -> & A & V).
    destruct (class_result CO W O E) as (kw & -> & A' & F & K). destruct (class_of_tree CO W) as (W1 & W2 & W3).
    assert (KO : map fst old = map f_name fs) by (apply (aligned_keys (fun f nv H => eq_sym (proj1 H)) V)).
    (* every field *)
    assert (FF : forall n t1, field_type n fs = Some t1 -> class_tree t1 /\ exists x y, dget n old = Some x /\ dget n kw = Some y /\ has_type x t1 /\
                 match rep (below n l) with Some o => ovr fuel x o t1 = COk y | None => y = x end).
    { intros n t1 E1. destruct (aligned_get (fun f nv H => proj1 H) F E1) as (d & y & H1 & H2 & H3 & x & H4 & H5). rewrite Forall_forall in W3.
      split; [exact (W3 _ H1)|]. exists x, y. cbn in H4, H5. split; [exact H4|]. split; [exact H2|]. split; [|exact H5].
      destruct (aligned_get (fun f nv H => eq_sym (proj1 H)) V E1) as (d' & x' & H6 & H7 & H8 & H9). cbn in H9. congruence. }
    assert (NF : forall n, field_type n fs = None -> dget n old = None /\ dget n kw = None).
    { intros n E1. split; [|exact (aligned_none (fun f nv H => proj1 H) F E1)]. apply dget_none. rewrite KO. apply field_type_none. exact E1. }
    (* inside a field *)
    assert (IN : forall n t1 x y, class_tree t1 -> has_type x t1 -> below n l <> [] -> no_nil (below n l) -> ovr fuel x (as_dict (below n l)) t1 = COk y -> changed t1 x y (below n l)).
    { intros n t1 x y W' Hx B1 B2 E1. destruct (class_of_scalar W') as [S|S].
      - destruct (ovr_scalar S E1) as [[] _].
      - exact (IH _ _ _ _ S W' Hx (below_ok O B2) E1). }
    split; [|split; [|split]].
    - intros p x t' Hp Ht. destruct p as [|n p]; [destruct (proj1 O _ _ Hp) as [N _]; contradiction|]. rewrite (class_of_type n p CO) in Ht.
      destruct (field_type n fs) as [t1|] eqn:E1; [|discriminate]. destruct (FF _ _ E1) as (W' & x0 & y & H1 & H2 & Hx0 & H3).
      cbn [part]. rewrite H2. assert (HB : In (p, x) (below n l)) by (apply below_in; exact Hp).
      destruct (rep_cases n O) as [[B1 B2]|[(z & B1 & B2)|(B1 & B2 & B3)]].
      + rewrite B1 in HB. destruct HB.
      + rewrite B1 in HB. destruct HB as [EB|[]]. injection EB as <- <-. cbn in Ht. injection Ht as <-. rewrite B2 in H3. exists y. split; [reflexivity|].
        split; intros S; [apply (ovr_scalar S H3)|]. apply (ovr_text S) in H3; [exact H3|]. apply (proj1 O _ _ Hp).
      + rewrite B3 in H3. destruct (IN _ _ _ _ W' Hx0 B1 B2 H3) as (G & _). exact (G _ _ _ HB Ht).
    - intros [|n q] HQ.
      + destruct l as [|[p x] l]; [|exfalso; apply (HQ p x); [left; reflexivity|apply comparable_sym, comparable_nil]]. cbn. f_equal. f_equal.
        apply (aligned_same W1 KO). clear - F. induction F as [|f nv fs kw (H1 & x & H2 & H3) F IH]; constructor; [|exact IH]. split; [exact H1|]. exists x. auto.
      + cbn [part]. destruct (field_type n fs) as [t1|] eqn:E1; [|destruct (NF _ E1) as [-> ->]; reflexivity].
        destruct (FF _ _ E1) as (W' & x0 & y & H1 & H2 & Hx0 & H3). rewrite H1, H2. destruct (rep_cases n O) as [[B1 B2]|[(z & B1 & B2)|(B1 & B2 & B3)]].
        * rewrite B2 in H3. rewrite H3. reflexivity.
        * exfalso. apply (HQ [n] z); [apply below_in; rewrite B1; left; reflexivity|]. apply comparable_cons, comparable_nil.
        * rewrite B3 in H3. destruct (IN _ _ _ _ W' Hx0 B1 B2 H3) as (_ & G & _). apply G. intros p x Hp Hc. apply below_in in Hp. apply (HQ _ _ Hp), comparable_cons, Hc.
    - intros ST p x Hp. destruct p as [|n p]; [discriminate|]. rewrite (class_of_type n p CO). assert (HB : In (p, x) (below n l)) by (apply below_in; exact Hp).
      destruct (field_type n fs) as [t1|] eqn:E1; [|apply field_type_none in E1; exfalso; apply E1; exact (K ST _ _ _ Hp)].
      destruct (FF _ _ E1) as (W' & x0 & y & H1 & H2 & Hx0 & H3). destruct (rep_cases n O) as [[B1 B2]|[(z & B1 & B2)|(B1 & B2 & B3)]].
      + rewrite B1 in HB. destruct HB.
      + rewrite B1 in HB. destruct HB as [EB|[]]. injection EB as <- <-. discriminate.
      + rewrite B3 in H3. destruct (IN _ _ _ _ W' Hx0 B1 B2 H3) as (_ & _ & G & _). exact (G ST _ _ HB).
    - apply (class_of_inhab _ _ _ CO). exists kw. split; [reflexivity|]. split; [exact A'|].
      assert (G : Forall (fun f => forall y, dget (f_name f) kw = Some y -> has_type y (f_type f)) fs).
      { apply Forall_forall. intros f Hf y Hy. assert (E1 := field_type_NoDup W1 Hf). destruct (FF _ _ E1) as (W' & x0 & y' & H1 & H2 & Hx0 & H3).
        assert (y' = y) as -> by congruence. destruct (rep_cases (f_name f) O) as [[B1 B2]|[(z & B1 & B2)|(B1 & B2 & B3)]].
        - rewrite B2 in H3. subst. exact Hx0.
        - rewrite B2 in H3. destruct (class_of_scalar W') as [S|S].
          + destruct (ovr_scalar S H3) as [_ H4]. exact (stands_for_type S H4).
          + assert (text_or_scalar z) as Hz by (apply (proj1 O [f_name f] z); apply below_in; rewrite B1; left; reflexivity).
            destruct (ovr_text S Hz H3) as (s & j & _ & _ & H4). exact (conv_sound (class_tree_checked W') H4).
        - rewrite B3 in H3. apply (IN _ _ _ _ W' Hx0 B1 B2 H3). }
      assert (NDk : NoDup (map fst kw)) by (rewrite (aligned_keys (fun f nv H => proj1 H) F); exact W1).
      apply (@aligned_all (fun f y => has_type y (f_type f)) fs kw NDk); [|exact G]. clear - F. induction F as [|f nv fs kw (H1 & _) F IH]; constructor; assumption.
  Qed.

  Theorem override_works : (forall c kw, accepts c kw = true) -> forall fuel t v l, depth t <= fuel -> is_class t -> class_tree t -> has_type v t -> changes_ok l ->
    (forall p x, In (p, x) l -> exists t' y, type_at t p = Some t' /\ is_scalar t' /\ stands_for T t' x y) -> exists v', ovr fuel v (as_dict l) t = COk v'.
  Proof.
    intros AA. induction fuel as [|fuel IH]; intros t v l D C W V O H.
    - exfalso. destruct t; cbn in C, D; try destruct C; lia.
    - destruct (is_class_of C) as (c & fs & CO). apply (class_of_inhab _ _ _ CO) in V as (old & -> & A & V). destruct (class_of_tree CO W) as (W1 & W2 & W3).
      apply (class_build (AA c) CO W O).
      + intros p x Hp. destruct (H _ _ Hp) as (t' & y & -> & _). discriminate.
      + intros f Hf. assert (E1 := field_type_NoDup W1 Hf). destruct (aligned_get (fun f nv H => eq_sym (proj1 H)) V E1) as (d & x & H1 & H2 & _ & H3). cbn in H3.
        assert (W' : class_tree (f_type f)) by (rewrite Forall_forall in W3; exact (W3 _ Hf)). assert (DF := class_of_depth CO H1). unfold field_after.
        destruct (rep_cases (f_name f) O) as [[B1 B2]|[(z & B1 & B2)|(B1 & B2 & B3)]].
        * exists x. split; [reflexivity|]. exists x. rewrite B2. auto.
        * assert (Hz : In ([f_name f], z) l) by (apply below_in; rewrite B1; left; reflexivity). destruct (H _ _ Hz) as (t' & y & E2 & S & Y).
          rewrite (class_of_type _ _ CO), E1 in E2. cbn in E2. injection E2 as <-. exists y. split; [reflexivity|]. exists x. split; [exact H2|]. rewrite B2. cbn [snd].
          apply scalar_build; [|exact S|exact Y]. destruct (f_type f); cbn in DF, S; try destruct S; lia.
        * assert (HH : forall p z, In (p, z) (below (f_name f) l) -> exists t' y, type_at (f_type f) p = Some t' /\ is_scalar t' /\ stands_for T t' z y).
          { intros p z Hp. apply below_in in Hp. destruct (H _ _ Hp) as (t' & y & E2 & S & Y). rewrite (class_of_type _ _ CO), E1 in E2. eauto. }
          assert (S : is_class (f_type f)).
          { destruct (class_of_scalar W') as [S|S]; [|exact S]. exfalso. destruct (below (f_name f) l) as [|[p z] b]; [contradiction|]. destruct (HH p z) as (t' & y & E2 & _); [left; reflexivity|].
            destruct p as [|n p]; [apply (B2 [] z); [left; reflexivity|reflexivity]|]. cbn in E2. destruct (f_type f); try discriminate; destruct S. }
          destruct (IH (f_type f) x (below (f_name f) l)) as (y & EY); [lia|exact S|exact W'|exact H3|exact (below_ok O B2)|exact HH|].
          exists y. split; [reflexivity|]. exists x. split; [exact H2|]. rewrite B3. exact EY.
  Qed.
End Main.
