(** Proofs about typed_converter.py. *)
From Coq Require Import String Ascii QArith.
From Verif Require Import Base Typed TypedSpec.
Local Close Scope Q_scope.
Local Close Scope Z_scope.
Local Open Scope string_scope.
Local Open Scope list_scope.
Local Open Scope nat_scope.

(** *** induction on types and values *)
Definition ty_ind_nested (P : ty -> Prop)
  (HStr : P TStr) (HInt : P TInt) (HFloat : P TFloat) (HBool : P TBool) (HNone : P TNone) (HAny : P TAny)
  (HLit : forall vs, P (TLit vs)) (HUnion : forall ts, Forall P ts -> P (TUnion ts))
  (HNamed : forall c fs, Forall (fun f => P (f_type f)) fs -> P (TNamed c fs))
  (HData : forall c fs, Forall (fun f => P (f_type f)) fs -> P (TData c fs))
  (HList : forall t, P t -> P (TList t)) (HSet : forall t, P t -> P (TSet t)) (HTupOf : forall t, P t -> P (TTupOf t))
  (HTup : forall ts, Forall P ts -> P (TTup ts)) (HDict : forall t, P t -> P (TDict t))
  (HRD : P TRawDict) (HRL : P TRawList) (HPath : P TPath) (HCO : forall n, P (TClassOf n)) (HCa : P TCallable) (HCl : forall n, P (TCls n)) :
  forall t, P t :=
  fix go t :=
    match t with
    | TStr => HStr | TInt => HInt | TFloat => HFloat | TBool => HBool | TNone => HNone | TAny => HAny
    | TLit vs => HLit vs
    | TUnion ts => HUnion ts ((fix gs ts : Forall P ts := match ts with [] => Forall_nil P | t1 :: ts' => Forall_cons t1 (go t1) (gs ts') end) ts)
    | TNamed c fs => HNamed c fs ((fix gs fs : Forall (fun f => P (f_type f)) fs := match fs with [] => Forall_nil _ | f :: fs' => @Forall_cons _ (fun f => P (f_type f)) f fs' (go (f_type f)) (gs fs') end) fs)
    | TData c fs => HData c fs ((fix gs fs : Forall (fun f => P (f_type f)) fs := match fs with [] => Forall_nil _ | f :: fs' => @Forall_cons _ (fun f => P (f_type f)) f fs' (go (f_type f)) (gs fs') end) fs)
    | TList t1 => HList t1 (go t1) | TSet t1 => HSet t1 (go t1) | TTupOf t1 => HTupOf t1 (go t1)
    | TTup ts => HTup ts ((fix gs ts : Forall P ts := match ts with [] => Forall_nil P | t1 :: ts' => Forall_cons t1 (go t1) (gs ts') end) ts)
    | TDict t1 => HDict t1 (go t1)
    | TRawDict => HRD | TRawList => HRL | TPath => HPath | TClassOf n => HCO n | TCallable => HCa | TCls n => HCl n
    end.

Definition pv_ind_nested (P : pv -> Prop)
  (HNone : P PNone) (HBool : forall b, P (PBool b)) (HInt : forall z, P (PInt z)) (HFloat : forall q, P (PFloat q)) (HStr : forall s, P (PStr s))
  (HList : forall l, Forall P l -> P (PList l)) (HTup : forall l, Forall P l -> P (PTup l)) (HSet : forall l, Forall P l -> P (PSet l))
  (HDict : forall d, Forall (fun kx => P (snd kx)) d -> P (PDict d))
  (HInst : forall c d, Forall (fun kx => P (snd kx)) d -> P (PInst c d))
  (HPath : forall s, P (PPath s)) (HObj : forall n, P (PObj n)) : forall v, P v :=
  fix go v :=
    let gl := fix gl l : Forall P l := match l with [] => Forall_nil P | x :: l' => Forall_cons x (go x) (gl l') end in
    let gd := fix gd d : Forall (fun kx => P (snd kx)) d := match d with [] => Forall_nil _ | kx :: d' => @Forall_cons _ (fun kx => P (snd kx)) kx d' (go (snd kx)) (gd d') end in
    match v with
    | PNone => HNone | PBool b => HBool b | PInt z => HInt z | PFloat q => HFloat q | PStr s => HStr s
    | PList l => HList l (gl l) | PTup l => HTup l (gl l) | PSet l => HSet l (gl l)
    | PDict d => HDict d (gd d) | PInst c d => HInst c d (gd d)
    | PPath s => HPath s | PObj n => HObj n
    end.

(** *** the helpers *)
Lemma distinct_pairs (l : list pv) : distinct l = true -> ForallOrdPairs (fun x y => pyeq x y = false) l.
Proof.
  induction l as [|x l IH]; cbn [distinct]; intros H; [constructor|]. apply andb_prop in H as [H1 H2]. constructor; [|auto].
  apply Forall_forall. intros y Iy. apply negb_true_iff in H1. destruct (pyeq x y) eqn:E; [|reflexivity].
  assert (K : existsb (pyeq x) l = true) by (apply existsb_exists; eauto). congruence.
Qed.

Lemma conv_all_ok cv1 l vs : conv_all cv1 l = COk vs -> Forall2 (fun x v => cv1 x = COk v) l vs.
Proof.
  revert vs. induction l as [|x l IH]; intros vs H; cbn in H; [injection H as <-; constructor|].
  destruct (cv1 x) as [v| |] eqn:E; cbn in H; try discriminate. destruct (conv_all cv1 l) as [ws| |]; cbn in H; try discriminate.
  injection H as <-. constructor; auto.
Qed.
Lemma conv_set_ok cv1 l vs : conv_set cv1 l = COk vs -> Forall2 (fun x v => cv1 x = COk v) l vs.
Proof.
  revert vs. induction l as [|x l IH]; intros vs H; cbn in H; [injection H as <-; constructor|].
  destruct (cv1 x) as [v| |] eqn:E; cbn in H; try discriminate. destruct (hashable v); [|discriminate]. destruct (conv_set cv1 l) as [ws| |]; cbn in H; try discriminate.
  injection H as <-. constructor; auto.
Qed.
Lemma conv_vals_ok cv1 l vs : conv_vals cv1 l = COk vs -> Forall2 (fun x v => fst x = fst v /\ cv1 (snd x) = COk (snd v)) l vs.
Proof.
  revert vs. induction l as [|[k x] l IH]; intros vs H; cbn in H; [injection H as <-; constructor|].
  destruct (cv1 x) as [v| |] eqn:E; cbn in H; try discriminate. destruct (conv_vals cv1 l) as [ws| |]; cbn in H; try discriminate.
  injection H as <-. constructor; auto.
Qed.
Lemma conv_zip_ok cv ts l vs : conv_zip cv ts l = COk vs -> length l = length ts ->
  length vs = length l /\ Forall2 (fun tx v => cv (Some (snd tx)) (fst tx) = COk v) (combine ts l) vs.
Proof.
  revert l vs. induction ts as [|t ts IH]; intros [|x l] vs H HL; cbn in H, HL; try discriminate; [injection H as <-; split; [reflexivity|constructor]|].
  destruct (cv (Some x) t) as [v| |] eqn:E; cbn in H; try discriminate. destruct (conv_zip cv ts l) as [ws| |] eqn:E2; cbn in H; try discriminate.
  injection H as <-. destruct (IH l ws E2) as [L F]; [lia|]. split; [cbn; lia|]. constructor; auto.
Qed.
Definition field_from (cv : option pv -> ty -> cres pv) (d : list (string * pv)) (f : string * ty * option pv) (nv : string * pv) : Prop :=
  fst nv = f_name f /\ cv (match dget (f_name f) d with Some v => Some v | None => f_default f end) (f_type f) = COk (snd nv).
Lemma conv_fields_ok cv d fs kw : conv_fields cv d fs = COk kw -> Forall2 (field_from cv d) fs kw.
Proof.
  revert kw. induction fs as [|[[n t] df] fs IH]; intros kw H; cbn in H; [injection H as <-; constructor|].
  destruct (cv _ t) as [v| |] eqn:E; cbn in H; try discriminate. destruct (conv_fields cv d fs) as [ws| |]; cbn in H; try discriminate.
  injection H as <-. constructor; [|auto]. split; [reflexivity|exact E].
Qed.

Lemma conv_all_build cv1 l vs : Forall2 (fun x v => cv1 x = COk v) l vs -> conv_all cv1 l = COk vs.
Proof. induction 1 as [|x v l vs H _ IH]; cbn; [reflexivity|]. rewrite H. cbn. rewrite IH. reflexivity. Qed.
Lemma conv_vals_build cv1 l vs : Forall2 (fun x v => fst x = fst v /\ cv1 (snd x) = COk (snd v)) l vs -> conv_vals cv1 l = COk vs.
Proof. induction 1 as [|[k x] [k' v] l vs [H1 H2] _ IH]; cbn in *; [reflexivity|]. subst k'. rewrite H2. cbn. rewrite IH. reflexivity. Qed.
Lemma conv_fields_build cv d fs kw : Forall2 (field_from cv d) fs kw -> conv_fields cv d fs = COk kw.
Proof. induction 1 as [|[[n t] df] [m v] fs kw [H1 H2] _ IH]; cbn in *; [reflexivity|]. subst m. rewrite H2. cbn. rewrite IH. reflexivity. Qed.

Lemma dget_in k d v : dget k d = Some v -> In (k, v) d.
Proof. induction d as [|[k' v'] d IH]; cbn; [discriminate|]. destruct (String.eqb_spec k k') as [->|N]; [intros [= ->]; auto|auto]. Qed.
Lemma dget_NoDup k v d : NoDup (map fst d) -> In (k, v) d -> dget k d = Some v.
Proof.
  induction d as [|[k' v'] d IH]; intros ND HI; [destruct HI|]. inversion_clear ND as [|? ? N ND']. cbn.
  destruct HI as [[= -> ->]|HI]; [rewrite String.eqb_refl; reflexivity|]. destruct (String.eqb_spec k k') as [->|_]; [|auto].
  exfalso. apply N. apply (in_map fst) in HI. exact HI.
Qed.
Lemma dget_none k d : dget k d = None <-> ~ In k (map fst d).
Proof.
  induction d as [|[k' v'] d IH]; cbn; [tauto|]. destruct (String.eqb_spec k k') as [->|N]; [split; [discriminate|tauto]|].
  rewrite IH. intuition congruence.
Qed.
Lemma dput_fresh k v d : ~ In k (map fst d) -> dput k v d = d ++ [(k, v)].
Proof.
  induction d as [|[k' v'] d IH]; cbn; intros N; [reflexivity|]. destruct (String.eqb_spec k k') as [->|_]; [tauto|]. rewrite IH by tauto. reflexivity.
Qed.
Lemma undash_keys_id d : NoDup (map fst d) -> Forall (fun kv => undash (fst kv) = fst kv) d -> undash_keys d = d.
Proof.
  unfold undash_keys. intros ND F. enough (G : forall acc, NoDup (map fst (acc ++ d)) -> fold_left (fun acc kv => dput (undash (fst kv)) (snd kv) acc) d acc = acc ++ d) by (apply (G []); exact ND).
  clear ND. induction F as [|[k v] d E F IH]; intros acc ND; cbn [fold_left fst snd] in *; [rewrite app_nil_r; reflexivity|]. rewrite E.
  rewrite map_app in ND. cbn [map fst] in ND. pose proof (NoDup_remove_2 _ _ _ ND) as N. rewrite dput_fresh by (intros H; apply N, in_or_app; auto).
  rewrite IH; rewrite <- app_assoc; [reflexivity|]. rewrite map_app. exact ND.
Qed.

(** *** the nested recursions as relations *)
Lemma union_inhab acc any v ts : (fix go ts := match ts with [] => False | t1 :: ts' => inhab acc any v t1 \/ go ts' end) ts <-> Exists (inhab acc any v) ts.
Proof.
  induction ts as [|t ts IH]; [rewrite Exists_nil; tauto|]. rewrite Exists_cons, IH. tauto.
Qed.
Lemma fields_inhab acc any fs f : (fix go (fs : list (string * ty * option pv)) (f : list (string * pv)) :=
             match fs, f with
             | [], [] => True
             | (n, t1, _) :: fs', (m, x) :: f' => n = m /\ inhab acc any x t1 /\ go fs' f'
             | _, _ => False
             end) fs f <-> Forall2 (fun fd nx => f_name fd = fst nx /\ inhab acc any (snd nx) (f_type fd)) fs f.
Proof.
  revert f. induction fs as [|[[n t] d] fs IH]; intros [|[m x] f].
  - split; [constructor|tauto].
  - split; [tauto|inversion 1].
  - split; [tauto|inversion 1].
  - rewrite IH. split; [intros (H1 & H2 & H3); constructor; auto|]. inversion 1 as [|? ? ? ? [H1 H2] H3]; subst. auto.
Qed.
Lemma all_fix {X} (P : X -> Prop) l : (fix go l := match l with [] => True | x :: l' => P x /\ go l' end) l <-> Forall P l.
Proof. induction l as [|x l IH]; [split; auto|]. rewrite IH. split; [intros []; constructor; auto|inversion 1; auto]. Qed.
Lemma json_vals d : (fix go (d : list (string * pv)) := match d with [] => True | (_, x) :: d' => is_json x /\ go d' end) d <-> Forall (fun kx => is_json (snd kx)) d.
Proof. induction d as [|[k x] d IH]; [split; auto|]. rewrite IH. split; [intros []; constructor; auto|inversion 1; auto]. Qed.
Lemma dash_vals d : (fix go (d : list (string * pv)) := match d with [] => True | (k, x) :: d' => undash k = k /\ no_dashes x /\ go d' end) d <-> Forall (fun kx => undash (fst kx) = fst kx /\ no_dashes (snd kx)) d.
Proof. induction d as [|[k x] d IH]; [split; auto|]. rewrite IH. split; [intros (? & ? & ?); constructor; auto|inversion 1 as [|? ? []]; auto]. Qed.
Lemma fields_all (P : ty -> Prop) fs : (fix go (fs : list (string * ty * option pv)) := match fs with [] => True | (_, t1, _) :: fs' => P t1 /\ go fs' end) fs <-> Forall (fun f => P (f_type f)) fs.
Proof. induction fs as [|[[n t] d] fs IH]; [split; auto|]. rewrite IH. split; [intros []; constructor; auto|inversion 1; auto]. Qed.
Lemma covered_list l m : covered (PList l) (PList m) <-> Forall2 covered l m.
Proof.
  cbn [covered]. revert m. induction l as [|x l IH]; intros [|y m]; [split; [constructor|tauto]|split; [tauto|inversion 1]|split; [tauto|inversion 1]|].
  rewrite IH. split; [intros []; constructor; auto|inversion 1; auto].
Qed.
Lemma covered_dict d e : covered (PDict d) (PDict e) <-> Forall (fun kx => exists y, dget (fst kx) e = Some y /\ covered (snd kx) y) d.
Proof. cbn [covered]. induction d as [|[k x] d IH]; [split; auto|]. rewrite IH. split; [intros []; constructor; auto|inversion 1; auto]. Qed.

Section Conv.
  Variable accepts : string -> list (string * pv) -> bool.
  Variables (strict imports : bool).
  Variable inst : list (string * pv) -> ty -> cres pv.
  Notation conv := (raw_to_typed accepts strict imports inst).
  Notation typed any := (inhab accepts any).

  Lemma conv_alts_ok r ts v : conv_alts conv r ts = COk v -> exists t, In t ts /\ conv (Some r) t = COk v.
  Proof.
    induction ts as [|t ts IH]; cbn [conv_alts]; [discriminate|]. destruct (conv (Some r) t) eqn:E; intros H.
    - injection H as <-. exists t. split; [left; reflexivity|exact E].
    - destruct (IH H) as (t' & HI & E'). exists t'. split; [right; exact HI|exact E'].
    - discriminate.
  Qed.

  Lemma Forall2_ty {X Y} (R : X -> Y -> Prop) (Q : Y -> Prop) l m : Forall2 R l m -> (forall x y, R x y -> Q y) -> Forall Q m.
  Proof. intros F H. induction F; constructor; eauto. Qed.

  (** *** what is read has the type *)
  Theorem conv_sound t : forall raw v, checked t -> conv raw t = COk v -> typed (fun _ => True) v t.
  Proof.
    induction t as [| | | | | |vs|ts IH|c fs IH|c fs IH|t IH|t IH|t IH|ts IH|t IH| | | |n| |n] using ty_ind_nested; intros [r|] v HC E; try discriminate E; cbn [raw_to_typed] in E; cbn [checked] in HC; try contradiction; cbn [inhab].
    - destruct r; try discriminate E. injection E as <-. eauto.
    - destruct r; try discriminate E; injection E as <-; eauto.
    - destruct r; try discriminate E; injection E as <-; eauto 6.
    - destruct r; try discriminate E; injection E as <-; eauto.
    - destruct r; try discriminate E; injection E as <-; eauto.
    - exact I.
    - destruct (existsb (pyeq r) vs) eqn:X; [|discriminate]. injection E as <-. apply existsb_exists in X. exact X.
    - apply union_inhab. apply all_fix in HC. destruct (conv_alts_ok E) as (t & HI & Et). apply Exists_exists. exists t. split; [exact HI|].
      rewrite Forall_forall in IH, HC. eapply IH; eauto.
    - destruct r as [| | | | | | | |d0| | |]; try discriminate E. set (d := undash_keys d0) in *. destruct (conv_fields conv d fs) as [kw| |] eqn:EF; cbn [cbind] in E; try discriminate.
      unfold construct in E. destruct (_ && _); [discriminate|]. destruct (accepts c kw) eqn:EA; [|discriminate]. injection E as <-. exists kw. split; [reflexivity|]. split; [exact EA|].
      apply fields_inhab. apply conv_fields_ok in EF. apply fields_all in HC. clear EA. induction EF as [|f nv fs kw [F1 F2] EF IHF]; constructor.
      + split; [auto|]. inversion_clear IH; inversion_clear HC. eauto.
      + inversion_clear IH; inversion_clear HC. apply IHF; assumption.
    - destruct r as [| | | | | | | |d| | |]; try discriminate E. destruct (conv_fields conv d fs) as [kw| |] eqn:EF; cbn [cbind] in E; try discriminate.
      unfold construct in E. destruct (_ && _); [discriminate|]. destruct (accepts c kw) eqn:EA; [|discriminate]. injection E as <-. exists kw. split; [reflexivity|]. split; [exact EA|].
      apply fields_inhab. apply conv_fields_ok in EF. apply fields_all in HC. clear EA. induction EF as [|f nv fs kw [F1 F2] EF IHF]; constructor.
      + split; [auto|]. inversion_clear IH; inversion_clear HC. eauto.
      + inversion_clear IH; inversion_clear HC. apply IHF; assumption.
    - destruct r as [| | | | |l| | | | | |]; try discriminate E. destruct (conv_all _ l) as [vs| |] eqn:EL; cbn [cbind] in E; try discriminate. injection E as <-.
      exists vs. split; [reflexivity|]. eapply Forall2_ty; [apply conv_all_ok; exact EL|]. cbn. eauto.
    - destruct r as [| | | | |l| | | | | |]; try discriminate E. destruct (conv_set _ l) as [vs| |] eqn:EL; cbn [cbind] in E; try discriminate. destruct (distinct vs) eqn:ED; [|discriminate]. injection E as <-.
      exists vs. split; [reflexivity|]. split; [|apply distinct_pairs; exact ED]. eapply Forall2_ty; [apply conv_set_ok; exact EL|]. cbn. eauto.
    - destruct r as [| | | | |l| | | | | |]; try discriminate E. destruct (conv_all _ l) as [vs| |] eqn:EL; cbn [cbind] in E; try discriminate. injection E as <-.
      exists vs. split; [reflexivity|]. eapply Forall2_ty; [apply conv_all_ok; exact EL|]. cbn. eauto.
    - destruct r as [| | | | | | | |d| | |]; try discriminate E. destruct (conv_vals _ d) as [vs| |] eqn:EL; cbn [cbind] in E; try discriminate. injection E as <-.
      exists vs. split; [reflexivity|]. eapply Forall2_ty; [apply conv_vals_ok; exact EL|]. cbn. intros x y [_ H]. eauto.
    - destruct r; try discriminate E. injection E as <-. eauto.
    - destruct r; try discriminate E. injection E as <-. eauto.
    - destruct r; try discriminate E; injection E as <-; eauto.
  Qed.

  (** *** nothing is ignored if strict *)
  Lemma render_json r : is_json r -> render r = r.
  Proof.
    induction r as [| | | | |l IH|l IH|l IH|d IH|c d IH| |] using pv_ind_nested; cbn [is_json render]; intros H; try reflexivity; try contradiction.
    - apply all_fix in H. f_equal. rewrite <- map_id. apply map_ext_in. rewrite Forall_forall in *. auto.
    - destruct H as [_ H]. apply json_vals in H. f_equal. rewrite <- map_id. apply map_ext_in. intros [k x] HI. rewrite Forall_forall in *. pose proof (IH _ HI (H _ HI)) as E. cbn [fst snd] in *. rewrite E. reflexivity.
  Qed.
  Lemma covered_refl r : is_json r -> covered r r.
  Proof.
    induction r as [| | | | |l IH|l IH|l IH|d IH|c d IH| |] using pv_ind_nested; intros H; try reflexivity; try contradiction.
    - cbn [is_json] in H. apply all_fix in H. apply covered_list. induction l as [|x l IHl]; constructor; inversion_clear IH; inversion_clear H; auto.
    - cbn [is_json] in H. destruct H as [ND H]. apply json_vals in H. apply covered_dict. apply Forall_forall. intros [k x] HI. exists x. cbn. split; [apply dget_NoDup; assumption|].
      rewrite Forall_forall in *. apply (IH _ HI). apply (H _ HI).
  Qed.
  Lemma covered_raw r : is_json r -> covered r (render r).
  Proof. intros H. rewrite render_json by exact H. apply covered_refl. exact H. Qed.
  Lemma dget_render k kw x : dget k kw = Some x -> dget k (map (fun nx => (fst nx, render (snd nx))) kw) = Some (render x).
  Proof. induction kw as [|[n y] kw IH]; cbn; [discriminate|]. destruct (String.eqb k n); [intros [= ->]; reflexivity|exact IH]. Qed.
  Lemma field_found d fs kw k x : Forall2 (field_from conv d) fs kw -> In k (field_names fs) -> dget k d = Some x ->
    exists f y, In f fs /\ dget k kw = Some y /\ conv (Some x) (f_type f) = COk y.
  Proof.
    intros F HI HD. induction F as [|f [n v] fs kw [F1 F2] F IH]; [destruct HI|]. cbn [fst snd] in *. subst n. cbn [dget].
    destruct (String.eqb_spec k (f_name f)) as [->|N].
    - exists f, v. rewrite HD in F2. split; [left; reflexivity|]. auto.
    - destruct HI as [HI|HI]; [exfalso; apply N; auto|]. destruct (IH HI) as (f' & y & A1 & A2). exists f', y. split; [right; exact A1|exact A2].
  Qed.
  Lemma subset_in ks names k : subset ks names = true -> In k ks -> In k names.
  Proof.
    unfold subset. rewrite forallb_forall. intros H HI. specialize (H _ HI). apply existsb_exists in H as (n & HN & E). apply String.eqb_eq in E. subst. exact HN.
  Qed.

  Lemma fields_covered d c fs v : strict = true -> NoDup (map fst d) -> Forall (fun kx => is_json (snd kx)) d -> Forall (fun kx => no_dashes (snd kx)) d ->
    Forall (fun f => forall r v, is_json r -> no_dashes r -> conv (Some r) (f_type f) = COk v -> covered r (render v)) fs ->
    cbind (conv_fields conv d fs) (construct accepts strict c fs d) = COk v -> covered (PDict d) (render v).
  Proof.
    intros HS ND HJ HN IH E. destruct (conv_fields conv d fs) as [kw| |] eqn:EF; cbn [cbind] in E; try discriminate.
    unfold construct in E. rewrite HS in E. cbn [andb] in E. destruct (subset (map fst d) (field_names fs)) eqn:ES; cbn [negb] in E; [|discriminate].
    destruct (accepts c kw); [|discriminate]. injection E as <-. cbn [render]. apply covered_dict. apply Forall_forall. intros [k x] HI. cbn [fst snd].
    apply conv_fields_ok in EF. rewrite Forall_forall in HJ, HN, IH.
    destruct (@field_found d fs kw k x EF) as (f & y & A1 & A2 & A3).
    - apply (subset_in ES). apply (in_map fst) in HI. exact HI.
    - apply dget_NoDup; assumption.
    - exists (render y). split; [apply dget_render; exact A2|]. apply (IH f A1); [apply (HJ _ HI)|apply (HN _ HI)|exact A3].
  Qed.

  Theorem conv_strict t : strict = true -> imports = false -> forall r v, is_json r -> no_dashes r -> conv (Some r) t = COk v -> covered r (render v).
  Proof.
    intros HS HI0.
    assert (PL : forall r t v, is_json r -> plain_or_inst imports inst r t = COk v -> covered r (render v)).
    { intros r t1 v HJ E. unfold plain_or_inst in E. rewrite HI0 in E. cbn [andb] in E. assert (v = r) by (destruct r; congruence). subst v. apply covered_raw. exact HJ. }
    assert (LL : forall (g : pv -> cres pv) l vs, Forall2 (fun x v => g x = COk v) l vs -> Forall is_json l -> Forall no_dashes l ->
      (forall r v, is_json r -> no_dashes r -> g r = COk v -> covered r (render v)) -> covered (PList l) (PList (map render vs))).
    { intros g l vs F J N IH. apply covered_list. induction F; cbn; constructor; inversion_clear J; inversion_clear N; auto. }
    induction t as [| | | | | |vs|ts IH|c fs IH|c fs IH|t IH|t IH|t IH|ts IH|t IH| | | |n| |n] using ty_ind_nested; intros r v HJ HN E; cbn [raw_to_typed] in E.
    - destruct r; try discriminate E. injection E as <-. apply covered_raw. exact HJ.
    - destruct r; try discriminate E; injection E as <-; apply covered_raw; exact HJ.
    - destruct r; try discriminate E; injection E as <-; apply covered_raw; exact HJ.
    - destruct r; try discriminate E; injection E as <-; apply covered_raw; exact HJ.
    - destruct r; try discriminate E; injection E as <-; apply covered_raw; exact HJ.
    - eapply PL; eauto.
    - destruct (existsb (pyeq r) vs); [|discriminate]. injection E as <-. apply covered_raw. exact HJ.
    - destruct (conv_alts_ok E) as (t & HI & Et). rewrite Forall_forall in IH. eapply IH; eauto.
    - destruct r as [| | | | | | | |d| | |]; try discriminate E. cbn [is_json no_dashes] in HJ, HN. destruct HJ as [ND HJ]. apply json_vals in HJ. apply dash_vals in HN.
      rewrite undash_keys_id in E; [|exact ND|eapply Forall_impl; [|exact HN]; cbn; tauto].
      eapply fields_covered; eauto. eapply Forall_impl; [|exact HN]. cbn. tauto.
    - destruct r as [| | | | | | | |d| | |]; try discriminate E. cbn [is_json no_dashes] in HJ, HN. destruct HJ as [ND HJ]. apply json_vals in HJ. apply dash_vals in HN.
      eapply fields_covered; eauto. eapply Forall_impl; [|exact HN]. cbn. tauto.
    - destruct r as [| | | | |l| | | | | |]; try discriminate E. destruct (conv_all _ l) as [vs| |] eqn:EL; cbn [cbind] in E; try discriminate. injection E as <-. cbn [render].
      cbn [is_json no_dashes] in HJ, HN. apply all_fix in HJ, HN. eapply LL; [apply conv_all_ok; exact EL|exact HJ|exact HN|]. cbn. eauto.
    - destruct r as [| | | | |l| | | | | |]; try discriminate E. destruct (conv_set _ l) as [vs| |] eqn:EL; cbn [cbind] in E; try discriminate. destruct (distinct vs); [|discriminate]. injection E as <-. cbn [render].
      cbn [is_json no_dashes] in HJ, HN. apply all_fix in HJ, HN. eapply LL; [apply conv_set_ok; exact EL|exact HJ|exact HN|]. cbn. eauto.
    - destruct r as [| | | | |l| | | | | |]; try discriminate E. destruct (conv_all _ l) as [vs| |] eqn:EL; cbn [cbind] in E; try discriminate. injection E as <-. cbn [render].
      cbn [is_json no_dashes] in HJ, HN. apply all_fix in HJ, HN. eapply LL; [apply conv_all_ok; exact EL|exact HJ|exact HN|]. cbn. eauto.
    - destruct r as [| | | | |l| | | | | |]; try discriminate E. destruct (Nat.eqb_spec (length l) (length ts)) as [HL|]; cbn [negb] in E; [|discriminate].
      destruct (conv_zip conv ts l) as [vs| |] eqn:EL; cbn [cbind] in E; try discriminate. injection E as <-. cbn [render].
      cbn [is_json no_dashes] in HJ, HN. apply all_fix in HJ, HN. apply covered_list. clear -EL HJ HN IH HL. revert l vs EL HJ HN HL.
      induction ts as [|t ts IHt]; intros [|x l] vs EL HJ HN HL; cbn in HL; try discriminate; cbn [conv_zip] in EL; [injection EL as <-; constructor|].
      destruct (conv (Some x) t) as [v| |] eqn:Ex; cbn [cbind] in EL; try discriminate. destruct (conv_zip conv ts l) as [ws| |] eqn:Ez; cbn [cbind] in EL; try discriminate. injection EL as <-.
      inversion_clear IH; inversion_clear HJ; inversion_clear HN. cbn [map]. constructor; [auto|]. apply IHt; auto.
    - destruct r as [| | | | | | | |d| | |]; try discriminate E. destruct (conv_vals _ d) as [vs| |] eqn:EL; cbn [cbind] in E; try discriminate. injection E as <-. cbn [render].
      cbn [is_json no_dashes] in HJ, HN. destruct HJ as [ND HJ]. apply json_vals in HJ. apply dash_vals in HN. apply covered_dict. apply conv_vals_ok in EL.
      apply Forall_forall. intros [k x] HI. cbn [fst snd].
      assert (HY : exists y, In (k, y) vs /\ conv (Some x) t = COk y).
      { clear -EL HI. induction EL as [|[k1 x1] [k2 y2] l vs [H1 H2] F IH]; [destruct HI|]. cbn in H1, H2. subst k2. destruct HI as [[= -> ->]|HI]; [exists y2; split; [left; reflexivity|exact H2]|].
        destruct (IH HI) as (y & A & B). exists y. split; [right; exact A|exact B]. }
      assert (EK : map fst vs = map fst d) by (clear -EL; induction EL as [|? ? ? ? [H1 _] _ IH]; cbn; congruence).
      destruct HY as (y & HY & Ey). exists (render y). split; [apply dget_render, dget_NoDup; [rewrite EK; exact ND|exact HY]|].
      rewrite Forall_forall in HJ, HN. apply IH; [apply (HJ _ HI)|apply (HN _ HI)|exact Ey].
    - destruct r; try discriminate E. injection E as <-. apply covered_raw. exact HJ.
    - destruct r; try discriminate E. injection E as <-. apply covered_raw. exact HJ.
    - destruct r; try discriminate E; try contradiction HJ. injection E as <-. reflexivity.
    - eapply PL; eauto.
    - eapply PL; eauto.
    - eapply PL; eauto.
  Qed.
End Conv.
