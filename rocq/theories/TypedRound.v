(** Writing a value and reading it back; which errors can occur. *)
From Coq Require Import String Ascii QArith.
From Verif Require Import Base Typed TypedSpec TypedProofs.
Local Close Scope Q_scope.
Local Close Scope Z_scope.
Local Open Scope string_scope.
Local Open Scope list_scope.
Local Open Scope nat_scope.

Lemma json_id v : is_json v -> to_json_object v = COk v.
Proof.
  induction v as [| | | | |l IH|l IH|l IH|d IH|c d IH| |] using pv_ind_nested; intros H; try reflexivity; try contradiction; cbn [is_json to_json_object] in *.
  - apply all_fix in H. rewrite (@conv_all_build _ l l); [reflexivity|]. induction l; constructor; inversion_clear IH; inversion_clear H; auto.
  - destruct H as [_ H]. apply json_vals in H. rewrite (@conv_vals_build _ d d); [reflexivity|]. induction d; constructor; inversion_clear IH; inversion_clear H; auto.
Qed.

Lemma Forall_Forall2_ex {X Y} (R : X -> Y -> Prop) l : Forall (fun x => exists y, R x y) l -> exists m, Forall2 R l m.
Proof. induction 1 as [|x l (y & H) _ (m & IH)]; [exists []; constructor|exists (y :: m); constructor; assumption]. Qed.

(** what to_json_object gives is plain data *)
Lemma to_json_is_render v j : to_json_object v = COk j -> j = render v.
Proof.
  revert j. induction v as [| | | | |l IH|l IH|l IH|d IH|c d IH| |] using pv_ind_nested; intros j H; cbn [to_json_object render] in *; try discriminate; try (injection H as <-; reflexivity).
  - destruct (conv_all _ l) as [vs| |] eqn:E; cbn in H; try discriminate. injection H as <-. f_equal. apply conv_all_ok in E. induction E; cbn; [reflexivity|]. inversion_clear IH. f_equal; auto.
  - destruct (conv_all _ l) as [vs| |] eqn:E; cbn in H; try discriminate. injection H as <-. f_equal. apply conv_all_ok in E. induction E; cbn; [reflexivity|]. inversion_clear IH. f_equal; auto.
  - destruct (conv_vals _ d) as [vs| |] eqn:E; cbn in H; try discriminate. injection H as <-. f_equal. apply conv_vals_ok in E. induction E as [|[k x] [k' y] ? ? [E1 E2]]; cbn in *; [reflexivity|]. inversion_clear IH. subst k'. f_equal; auto. f_equal. auto.
  - destruct (conv_vals _ d) as [vs| |] eqn:E; cbn in H; try discriminate. injection H as <-. f_equal. apply conv_vals_ok in E. induction E as [|[k x] [k' y] ? ? [E1 E2]]; cbn in *; [reflexivity|]. inversion_clear IH. subst k'. f_equal; auto. f_equal. auto.
Qed.

Lemma pyeq_plain v x : pyeq v x = true -> plain_value x -> plain_value v.
Proof. destruct v, x; cbn; intros H HP; try exact I; try contradiction; try discriminate. Qed.

Section Round.
  Variable accepts : string -> list (string * pv) -> bool.
  Variables (strict : bool).
  Variable inst : list (string * pv) -> ty -> cres pv.
  Notation conv := (raw_to_typed accepts strict false inst).

  Lemma plain_false r t : plain_or_inst false inst r t = COk r.
  Proof. destruct r; reflexivity. Qed.

  (** *** only JsonValueErrors *)
  Lemma no_other_error t : no_sets t -> forall raw e, conv raw t <> CErr e.
  Proof.
    assert (LA : forall g l e, (forall x e, g x <> CErr e) -> conv_all g l <> CErr e).
    { intros g l e H. induction l as [|x l IH]; cbn; [discriminate|]. specialize (H x). destruct (g x); cbn; [|discriminate|exfalso; eapply H; reflexivity]. destruct (conv_all g l); cbn; congruence. }
    assert (LV : forall g l e, (forall x e, g x <> CErr e) -> conv_vals g l <> CErr e).
    { intros g l e H. induction l as [|[k x] l IH]; cbn; [discriminate|]. specialize (H x). destruct (g x); cbn; [|discriminate|exfalso; eapply H; reflexivity]. destruct (conv_vals g l); cbn; congruence. }
    assert (LF : forall d fs e, Forall (fun f => forall raw e, conv raw (f_type f) <> CErr e) fs -> conv_fields conv d fs <> CErr e).
    { intros d fs e. induction fs as [|[[n t1] df] fs IH]; intros H; cbn [conv_fields]; [discriminate|]. inversion_clear H as [|? ? H1 H2]. cbn [f_type snd fst] in H1.
      specialize (H1 (match dget n d with Some v => Some v | None => df end)). destruct (conv _ t1); cbn; [|discriminate|exfalso; eapply H1; reflexivity]. specialize (IH H2). destruct (conv_fields conv d fs); cbn; congruence. }
    assert (LC : forall c fs d kw e, construct accepts strict c fs d kw <> CErr e).
    { intros. unfold construct. destruct (_ && _); [discriminate|]. destruct (accepts c kw); discriminate. }
    induction t as [| | | | | |vs|ts IH|c fs IH|c fs IH|t IH|t IH|t IH|ts IH|t IH| | | |n| |n] using ty_ind_nested; intros HS [r|] e; try discriminate; cbn [raw_to_typed no_sets] in *; try contradiction;
      try (destruct r; discriminate); try (rewrite plain_false; discriminate).
    - destruct (existsb _ vs); discriminate.
    - apply all_fix in HS. induction ts as [|t ts IHt]; cbn [conv_alts]; [discriminate|]. inversion_clear IH as [|? ? H1 H2]. inversion_clear HS as [|? ? S1 S2].
      specialize (H1 S1 (Some r)). destruct (conv (Some r) t) eqn:E; [discriminate|apply IHt; assumption|exfalso; eapply H1; reflexivity].
    - destruct r as [| | | | | | | |d| | |]; try discriminate. apply fields_all in HS. destruct (conv_fields conv (undash_keys d) fs) eqn:E; cbn [cbind]; try discriminate; [apply LC|].
      exfalso. eapply LF; [|exact E]. clear -IH HS. induction fs; constructor; inversion_clear IH; inversion_clear HS; auto.
    - destruct r as [| | | | | | | |d| | |]; try discriminate. apply fields_all in HS. destruct (conv_fields conv d fs) eqn:E; cbn [cbind]; try discriminate; [apply LC|].
      exfalso. eapply LF; [|exact E]. clear -IH HS. induction fs; constructor; inversion_clear IH; inversion_clear HS; auto.
    - destruct r as [| | | | |l| | | | | |]; try discriminate. specialize (LA (fun x => conv (Some x) t) l). destruct (conv_all _ l); cbn; try discriminate. intros _. eapply LA; eauto.
    - destruct r as [| | | | |l| | | | | |]; try discriminate. specialize (LA (fun x => conv (Some x) t) l). destruct (conv_all _ l); cbn; try discriminate. intros _. eapply LA; eauto.
    - destruct r as [| | | | |l| | | | | |]; try discriminate. destruct (negb _); [discriminate|]. apply all_fix in HS.
      assert (LZ : forall e, conv_zip conv ts l <> CErr e).
      { clear e. intros e. revert l. induction ts as [|t ts IHt]; intros [|x l]; cbn [conv_zip]; try discriminate. inversion_clear IH as [|? ? H1 H2]. inversion_clear HS as [|? ? S1 S2].
        specialize (H1 S1 (Some x)). destruct (conv (Some x) t); cbn; [|discriminate|exfalso; eapply H1; reflexivity]. specialize (IHt H2 S2 l). destruct (conv_zip conv ts l); cbn; congruence. }
      destruct (conv_zip conv ts l); cbn; try discriminate. intros _. eapply LZ; eauto.
    - destruct r as [| | | | | | | |d| | |]; try discriminate. specialize (LV (fun x => conv (Some x) t) d). destruct (conv_vals _ d); cbn; try discriminate. intros _. eapply LV; eauto.
  Qed.

  (** data of another kind is rejected with a JsonValueError *)
  Lemma other_shape t : forall r h, shape_of r = Some h -> ~ In h (shapes t) -> conv (Some r) t = CJson.
  Proof.
    induction t as [| | | | | |vs|ts IH|c fs IH|c fs IH|t IH|t IH|t IH|ts IH|t IH| | | |n| |n] using ty_ind_nested; intros r h HR HN; cbn [raw_to_typed shapes] in *;
      try (destruct r; try discriminate HR; injection HR as <-; try reflexivity; exfalso; apply HN; cbn; tauto).
    induction ts as [|t ts IHt]; cbn [conv_alts]; [reflexivity|]. cbn [flat_map] in HN. inversion_clear IH as [|? ? H1 H2].
    rewrite (H1 r h HR) by (intros X; apply HN, in_or_app; auto). apply IHt; [exact H2|]. intros X. apply HN, in_or_app. auto.
  Qed.
  Lemma scalar_conv t r : scalar t -> conv (Some r) t = COk r \/ conv (Some r) t = CJson.
  Proof. destruct t; cbn; try contradiction; intros _; try (destruct r; auto). all: destruct (existsb _ vs); auto. Qed.
  Lemma to_json_shape v j : to_json_object v = COk j -> exists h, shape_of j = Some h.
  Proof.
    destruct v as [| | | | |l|l|l|d|c d| |]; cbn [to_json_object]; intros H; try discriminate; try (injection H as <-; cbn; eauto; fail).
    1,2: destruct (conv_all _ l); cbn in H; try discriminate; injection H as <-; cbn; eauto.
    all: destruct (conv_vals _ d); cbn in H; try discriminate; injection H as <-; cbn; eauto.
  Qed.
  (** what a type accepts has one of its shapes *)
  Lemma conv_shape t r v h : shape_of r = Some h -> conv (Some r) t = COk v -> In h (shapes t).
  Proof.
    intros HR E. destruct (in_dec (fun a b : shape => ltac:(decide equality) : {a = b} + {a <> b}) h (shapes t)) as [|N]; [assumption|].
    rewrite (other_shape HR N) in E. discriminate.
  Qed.

  Lemma fields_round c fs f : NoDup (field_names fs) ->
    Forall (fun fd => storable (f_type fd)) fs ->
    Forall (fun fd => forall v, storable (f_type fd) -> inhab accepts is_json v (f_type fd) -> exists j, to_json_object v = COk j /\ conv (Some j) (f_type fd) = COk v) fs ->
    accepts c f = true -> Forall2 (fun fd nx => f_name fd = fst nx /\ inhab accepts is_json (snd nx) (f_type fd)) fs f ->
    exists d, to_json_object (PInst c f) = COk (PDict d) /\ map fst d = field_names fs /\ cbind (conv_fields conv d fs) (construct accepts strict c fs d) = COk (PInst c f).
  Proof.
    intros ND HS IH HA F.
    assert (G : exists d, Forall2 (fun nx nj => fst nx = fst nj /\ to_json_object (snd nx) = COk (snd nj)) f d /\ map fst d = field_names fs /\
      Forall2 (fun fd nj => f_name fd = fst nj) fs d /\ Forall2 (fun fj nx => fst (fst fj) = fst (fst fj) /\ f_name (fst fj) = fst nx /\ conv (Some (snd (snd fj))) (f_type (fst fj)) = COk (snd nx)) (combine fs d) f).
    { clear HA ND. induction F as [|fd [n x] fs f [F1 F2] F IHF]; [exists []; repeat constructor|]. inversion_clear HS as [|? ? S1 S2]. inversion_clear IH as [|? ? I1 I2].
      destruct (IHF S2 I2) as (d & G1 & G2 & G3 & G4). destruct (I1 x S1 F2) as (j & J1 & J2). exists ((n, j) :: d). cbn [fst snd] in *. split; [constructor; auto|].
      split; [cbn; rewrite G2, F1; reflexivity|]. split; [constructor; auto|]. cbn [combine]. constructor; auto. }
    destruct G as (d & G1 & G2 & G3 & G4). exists d. split; [cbn [to_json_object]; rewrite (conv_vals_build G1); reflexivity|]. split; [exact G2|].
    assert (EF : conv_fields conv d fs = COk f).
    { apply conv_fields_build. assert (K : forall fd nj, In (fd, nj) (combine fs d) -> dget (f_name fd) d = Some (snd nj)).
      { intros fd nj HI. apply dget_NoDup; [rewrite G2; exact ND|]. assert (HE : f_name fd = fst nj).
        { clear -G3 HI. induction G3 as [|a b fs d H F IH]; cbn in HI; [destruct HI|]. destruct HI as [[= -> ->]|HI]; auto. }
        rewrite HE. apply in_combine_r in HI. destruct nj; exact HI. }
      assert (GL : length d = length fs) by (clear -G3; induction G3; cbn; lia).
      enough (Q : forall d0, (forall fd nj, In (fd, nj) (combine fs d) -> dget (f_name fd) d0 = Some (snd nj)) -> Forall2 (field_from conv d0) fs f) by (apply Q; exact K).
      clear -G4 GL. intros d0 K. revert d f G4 GL K. induction fs as [|fd fs IH]; intros [|nj d] f G4 GL K; cbn in GL; try discriminate; cbn [combine] in *.
      - inversion G4. constructor.
      - inversion G4 as [|? ? ? f' (_ & A1 & A2) G5]; subst. constructor.
        + split; [cbn in A1; auto|]. rewrite (K fd nj) by (left; reflexivity). exact A2.
        + apply (IH d f' G5); [lia|]. intros fd' nj' HI. apply K. right. exact HI. }
    rewrite EF. cbn [cbind]. unfold construct. rewrite G2.
    assert (subset (field_names fs) (field_names fs) = true) as ->.
    { unfold subset. apply forallb_forall. intros x HI. apply existsb_exists. exists x. split; [exact HI|apply String.eqb_refl]. }
    cbn [negb]. rewrite andb_false_r, HA. reflexivity.
  Qed.

  Theorem round_trip : forall t v, storable t -> inhab accepts is_json v t ->
    exists j, to_json_object v = COk j /\ conv (Some j) t = COk v.
  Proof.
    assert (LA : forall t l, (forall v, inhab accepts is_json v t -> exists j, to_json_object v = COk j /\ conv (Some j) t = COk v) -> Forall (fun x => inhab accepts is_json x t) l ->
      exists m, conv_all to_json_object l = COk m /\ conv_all (fun x => conv (Some x) t) m = COk l).
    { intros t l H F. induction F as [|x l Hx F (m & M1 & M2)]; [exists []; split; reflexivity|]. destruct (H x Hx) as (j & J1 & J2). exists (j :: m). cbn. rewrite J1, J2, M1, M2. split; reflexivity. }
    assert (LV : forall t l, (forall v, inhab accepts is_json v t -> exists j, to_json_object v = COk j /\ conv (Some j) t = COk v) -> Forall (fun kx => inhab accepts is_json (snd kx) t) l ->
      exists m, conv_vals to_json_object l = COk m /\ conv_vals (fun x => conv (Some x) t) m = COk l).
    { intros t l H F. induction F as [|[k x] l Hx F (m & M1 & M2)]; [exists []; split; reflexivity|]. destruct (H x Hx) as (j & J1 & J2). exists ((k, j) :: m). cbn. rewrite J1, J2, M1, M2. split; reflexivity. }
    induction t as [| | | | | |vs|ts IH|c fs IH|c fs IH|t IH|t IH|t IH|ts IH|t IH| | | |n| |n] using ty_ind_nested; intros v HS HV; cbn [storable inhab] in *; try contradiction.
    - destruct HV as (s & ->). exists (PStr s). split; reflexivity.
    - destruct HV as [(z & ->)|(b & ->)]; eexists; split; reflexivity.
    - destruct HV as [(q & ->)|[(z & ->)|(b & ->)]]; eexists; split; reflexivity.
    - destruct HV as (b & ->); eexists; split; reflexivity.
    - subst v. eexists; split; reflexivity.
    - exists v. split; [apply json_id; exact HV|]. apply plain_false.
    - destruct HV as (x & HI & HE). rewrite Forall_forall in HS. pose proof (pyeq_plain HE (HS x HI)) as HP.
      exists v. split; [destruct v; try contradiction HP; reflexivity|]. cbn [raw_to_typed]. assert (existsb (pyeq v) vs = true) as ->; [|reflexivity]. apply existsb_exists. eauto.
    - apply union_inhab in HV. destruct HS as [SEP HS]. apply all_fix in HS. cbn [raw_to_typed]. induction ts as [|t ts IHt]; [inversion HV|].
      inversion_clear IH as [|? ? I1 I2]. inversion_clear HS as [|? ? S1 S2]. inversion_clear SEP as [|? ? P1 P2]. cbn [conv_alts]. apply Exists_cons in HV. destruct HV as [HV|HV].
      + destruct (I1 v S1 HV) as (j & J1 & J2). exists j. split; [exact J1|]. rewrite J2. reflexivity.
      + destruct (IHt I2 P2 S2 HV) as (j & J1 & J2). exists j. split; [exact J1|]. destruct (to_json_shape J1) as [h Hh].
        destruct (conv_alts_ok J2) as (t2 & HI & J3). rewrite Forall_forall in P1. destruct (P1 t2 HI) as [D|[D1 D2]].
        * rewrite (@other_shape t j h Hh); [exact J2|]. intros X. apply (D h X). eapply conv_shape; eauto.
        * destruct (scalar_conv j D1) as [E|E]; rewrite E; [|exact J2]. destruct (scalar_conv j D2) as [E2|E2]; congruence.
    - destruct HV as (f & -> & HA & HF). apply fields_inhab in HF. destruct HS as (ND & HD & HS). apply fields_all in HS.
      destruct (@fields_round c fs f ND HS IH HA HF) as (d & D1 & D2 & D3). exists (PDict d). split; [exact D1|]. cbn [raw_to_typed].
      rewrite undash_keys_id; [exact D3|rewrite D2; exact ND|]. rewrite <- D2 in HD. rewrite Forall_map in HD. exact HD.
    - destruct HV as (f & -> & HA & HF). apply fields_inhab in HF. destruct HS as (ND & HD & HS). apply fields_all in HS.
      destruct (@fields_round c fs f ND HS IH HA HF) as (d & D1 & D2 & D3). exists (PDict d). split; [exact D1|exact D3].
    - destruct HV as (l & -> & F). destruct (LA t l (fun v => IH v HS) F) as (m & M1 & M2). exists (PList m). cbn [to_json_object raw_to_typed]. rewrite M1, M2. split; reflexivity.
    - destruct HV as (l & -> & F). destruct (LA t l (fun v => IH v HS) F) as (m & M1 & M2). exists (PList m). cbn [to_json_object raw_to_typed]. rewrite M1, M2. split; reflexivity.
    - destruct HV as (l & -> & F). destruct (LV t l (fun v => IH v HS) F) as (m & M1 & M2). exists (PDict m). cbn [to_json_object raw_to_typed]. rewrite M1, M2. split; reflexivity.
    - destruct HV as (d & -> & HJ). exists (PDict d). split; [apply json_id; exact HJ|reflexivity].
    - destruct HV as (d & -> & HJ). exists (PList d). split; [apply json_id; exact HJ|reflexivity].
  Qed.
End Round.
