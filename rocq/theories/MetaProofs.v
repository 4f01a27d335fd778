From Coq Require Import String QArith Lqa.
From Verif Require Import Base Meta MetaSpec.
Local Close Scope Q_scope.
Local Open Scope nat_scope.

Lemma meta_ind' (P : meta -> Prop) :
  (forall l, P (MLoader l)) -> (forall s m, P m -> P (MRef s m)) ->
  (forall l, (forall dw m, In (dw, m) l -> P m) -> P (MBlend l)) ->
  (forall l, (forall k m, In (k, m) l -> P m) -> P (MSplits l)) ->
  (forall s ls, P (MJoin s ls)) -> forall m, P m.
Proof.
  intros H1 H2 H3 H4 H5. fix IH 1. intros [l|s m|l|l|s ls].
  - apply H1.
  - apply H2, IH.
  - apply H3. induction l as [|[q m] l IHl]; [intros ? ? []|]. intros dw m' [E|E].
    + injection E as _ <-. apply IH.
    + eapply IHl; eauto.
  - apply H4. induction l as [|[q m] l IHl]; [intros ? ? []|]. intros dw m' [E|E].
    + injection E as _ <-. apply IH.
    + eapply IHl; eauto.
  - apply H5.
Qed.

Definition blend_go (a : args) (total : Q) : list (Q * meta) -> result (list (core * Q)) :=
  fix go (l : list (Q * meta)) : result (list (core * Q)) :=
    match l with
    | [] => Ok []
    | (dw, m') :: l' =>
        bind (get_datasets m' a) (fun ds => bind (scale dw total ds) (fun ds' =>
        bind (go l') (fun r => Ok (ds' ++ r))))
    end.

Lemma get_blend l a : get_datasets (MBlend l) a = blend_go a (qsum (map fst l)) l.
Proof. reflexivity. Qed.

Lemma get_splits l a : get_datasets (MSplits l) a =
  match find (fun kv => String.eqb (a_split a) (fst kv)) l with Some (_, m) => get_datasets m a | None => Err KeyError end.
Proof.
  cbn [get_datasets]. induction l as [|[k m] l IH]; [reflexivity|]. cbn [find fst].
  destruct (String.eqb (a_split a) k); [reflexivity|]. exact IH.
Qed.

Lemma find_key l sp k m : find (fun kv : string * meta => String.eqb sp (fst kv)) l = Some (k, m) -> k = sp /\ In (k, m) l.
Proof.
  intros H. pose proof (find_some _ _ H) as [I E]. cbn in E. apply String.eqb_eq in E. auto.
Qed.

Lemma scale_ok dw total ds ds' : scale dw total ds = Ok ds' ->
  ds' = map (fun cw => (fst cw, (snd cw * dw / total)%Q)) ds /\ (ds <> [] -> ~ (total == 0)%Q).
Proof.
  unfold scale. destruct ds as [|d ds]; [intros [= <-]; split; [reflexivity|congruence]|].
  destruct (Qeq_bool total 0) eqn:E; [discriminate|]. intros [= <-]. split; [reflexivity|]. intros _ H.
  apply Qeq_bool_iff in H. congruence.
Qed.

Lemma qsum_app l1 l2 : (qsum (l1 ++ l2) == qsum l1 + qsum l2)%Q.
Proof. unfold qsum in *. induction l1 as [|x l1 IH]; cbn [app fold_right]; [ring|]. rewrite IH. ring. Qed.

Lemma qsum_scale dw total (ds : list (core * Q)) : ~ (total == 0)%Q ->
  (qsum (map snd (map (fun cw => (fst cw, snd cw * dw / total)) ds)) == qsum (map snd ds) * dw / total)%Q.
Proof.
  intros HT. induction ds as [|[c w] ds IH]; cbn [map snd fst qsum fold_right]; [field; exact HT|].
  unfold qsum in IH. rewrite IH. field. exact HT.
Qed.

Lemma blend_ok a total l : forall ds, blend_go a total l = Ok ds ->
  forall dw m, In (dw, m) l -> exists d d', get_datasets m a = Ok d /\ scale dw total d = Ok d' /\ incl d' ds.
Proof.
  induction l as [|[q m0] l IH]; intros ds; cbn [blend_go]; [intros _ ? ? []|].
  destruct (get_datasets m0 a) as [d|] eqn:E1; [|discriminate]. cbn [bind].
  destruct (scale q total d) as [d'|] eqn:E2; [|discriminate]. cbn [bind].
  destruct (blend_go a total l) as [r|] eqn:E3; [|discriminate]. cbn [bind]. intros [= <-] dw m [E|I].
  - injection E as <- <-. exists d, d'. split; [auto|]. split; [auto|]. apply incl_appl, incl_refl.
  - destruct (IH r eq_refl dw m I) as (d1 & d2 & A & B & C). exists d1, d2. split; [auto|]. split; [auto|].
    apply incl_appr. exact C.
Qed.

Lemma blend_in a total l : forall ds c w, blend_go a total l = Ok ds -> In (c, w) ds ->
  exists i dw m d w0, nth_error l i = Some (dw, m) /\ get_datasets m a = Ok d /\ In (c, w0) d /\ w = (w0 * dw / total)%Q.
Proof.
  induction l as [|[q m0] l IH]; intros ds c w; cbn [blend_go]; [intros [= <-] []|].
  destruct (get_datasets m0 a) as [d|] eqn:E1; [|discriminate]. cbn [bind].
  destruct (scale q total d) as [d'|] eqn:E2; [|discriminate]. cbn [bind].
  destruct (blend_go a total l) as [r|] eqn:E3; [|discriminate]. cbn [bind]. intros [= <-] I.
  apply in_app_or in I. destruct I as [I|I].
  - apply scale_ok in E2. destruct E2 as [-> _]. apply in_map_iff in I. destruct I as ([c0 w0] & [= <- <-] & I).
    exists 0, q, m0, d, w0. auto.
  - destruct (IH r c w eq_refl I) as (i & dw & m & d0 & w0 & A & B). exists (S i), dw, m, d0, w0. auto.
Qed.

(** ** total weight and nonnegativity *)
Lemma proper_nonempty m : proper m -> forall a ds, get_datasets m a = Ok ds -> ds <> [].
Proof.
  induction m as [l|s m IH|l IH|l IH|s ls] using meta_ind'; intros HP a ds.
  - intros [= <-]. discriminate.
  - inversion HP; subst. apply IH. auto.
  - inversion HP as [| | |? HN HF|]; subst. rewrite get_blend. intros H. destruct l as [|[dw m] l]; [congruence|].
    destruct (blend_ok H (or_introl eq_refl)) as (d & d' & E1 & E2 & E3).
    assert (d <> []). { eapply IH; [left; reflexivity| |exact E1]. apply (HF dw m). left; auto. }
    apply scale_ok in E2. destruct E2 as [-> _]. destruct d as [|x d]; [congruence|]. intros ->.
    specialize (E3 _ (or_introl eq_refl)). destruct E3.
  - inversion HP as [| | | |? HF]; subst. rewrite get_splits. destruct (find _ l) as [[k m]|] eqn:E; [|discriminate].
    apply find_key in E. destruct E as [_ I]. apply (IH k m I). eapply HF; eauto.
  - intros [= <-]. discriminate.
Qed.

Lemma qsum_nonneg l : (forall x, In x l -> (0 <= x)%Q) -> (0 <= qsum l)%Q.
Proof.
  induction l as [|x l IH]; intros H; cbn [qsum fold_right]; [lra|]. pose proof (H x (or_introl eq_refl)).
  assert (0 <= qsum l)%Q by (apply IH; intros; apply H; right; auto). unfold qsum in *. lra.
Qed.

Lemma blend_sum a total l : ~ (total == 0)%Q -> forall ds, blend_go a total l = Ok ds ->
  (forall dw m d, In (dw, m) l -> get_datasets m a = Ok d -> Qeq (qsum (map snd d)) 1) ->
  (qsum (map snd ds) == qsum (map fst l) / total)%Q.
Proof.
  intros HT. induction l as [|[q m0] l IH]; intros ds; cbn [blend_go].
  - intros [= <-] _. cbn [map qsum fold_right]. field. exact HT.
  - destruct (get_datasets m0 a) as [d|] eqn:E1; [|discriminate]. cbn [bind].
    destruct (scale q total d) as [d'|] eqn:E2; [|discriminate]. cbn [bind].
    destruct (blend_go a total l) as [r|] eqn:E3; [|discriminate]. cbn [bind]. intros [= <-] H.
    assert (IHr : (qsum (map snd r) == qsum (map fst l) / total)%Q) by (apply IH; [reflexivity|intros dw m d0 I1 I2; apply (H dw m d0); [right; exact I1|exact I2]]).
    rewrite map_app, qsum_app, IHr.
    apply scale_ok in E2. destruct E2 as [-> _]. rewrite qsum_scale by exact HT.
    assert (H1 : (qsum (map snd d) == 1)%Q) by (eapply H; [left; reflexivity|exact E1]). rewrite H1. cbn [map fst qsum fold_right]. unfold qsum. field. exact HT.
Qed.

Lemma blend_total_nz a l ds : (forall dw m, In (dw, m) l -> proper m) -> l <> [] ->
  blend_go a (qsum (map fst l)) l = Ok ds -> ~ (qsum (map fst l) == 0)%Q.
Proof.
  intros HP HN H. destruct l as [|[dw m] l]; [congruence|].
  destruct (blend_ok H (or_introl eq_refl)) as (d & d' & E1 & E2 & E3).
  apply scale_ok in E2. apply (proj2 E2). eapply proper_nonempty; [|exact E1]. apply (HP dw m). left; auto.
Qed.

Lemma weights_ok m : proper m -> forall a ds, get_datasets m a = Ok ds ->
  (qsum (map snd ds) == 1)%Q /\ (forall c w, In (c, w) ds -> (0 <= w)%Q).
Proof.
  induction m as [l|s m IH|l IH|l IH|s ls] using meta_ind'; intros HP a ds.
  - intros [= <-]. split; [cbn [map snd qsum fold_right]; lra|]. intros c w [[= <- <-]|[]]. lra.
  - inversion HP; subst. apply IH. auto.
  - inversion HP as [| | |? HN HF|]; subst. rewrite get_blend. intros H.
    assert (HT : ~ (qsum (map fst l) == 0)%Q) by (eapply blend_total_nz; eauto; intros; eapply HF; eauto).
    split.
    + assert (BS : (qsum (map snd ds) == qsum (map fst l) / qsum (map fst l))%Q).
      2:{ rewrite BS. field. exact HT. }
      apply (blend_sum HT H). intros dw m d I E. refine (proj1 (IH dw m I _ a d E)). apply (HF dw m I).
    + intros c w I. destruct (blend_in H I) as (i & dw & m & d & w0 & E1 & E2 & E3 & ->).
      apply nth_error_In in E1. destruct (HF _ _ E1) as [Hdw Hm].
      pose proof (proj2 (IH dw m E1 Hm a d E2) c w0 E3) as H0.
      assert (HS : (0 <= qsum (map fst l))%Q).
      { apply qsum_nonneg. intros x Hx. apply in_map_iff in Hx. destruct Hx as ([x' m'] & <- & Hx). apply (HF _ _ Hx). }
      unfold Qdiv. apply Qmult_le_0_compat; [apply Qmult_le_0_compat; auto|]. apply Qinv_le_0_compat. exact HS.
  - inversion HP as [| | | |? HF]; subst. rewrite get_splits. destruct (find _ l) as [[k m]|] eqn:E; [|discriminate].
    apply find_key in E. destruct E as [_ I]. apply (IH k m I). eapply HF; eauto.
  - intros [= <-]. split; [cbn [map snd qsum fold_right]; lra|]. intros c w [[= <- <-]|[]]. lra.
Qed.

(** ** leaves are the paths *)
(** the arguments that reach the leaf *)
Definition chain_args (a : args) (chain : list settings) : args := fold_left (fun a s => ref_args s a) chain a.

Definition load_target (t : target) (a : args) : core :=
  match t with
  | TLoad l => CSingle (get_dataset l a)
  | TJoin s ls => CJoin (map (fun l => get_dataset l (join_args s a)) ls) (a_mult a)
  end.

Lemma ref_split s a : a_split (ref_args s a) = match set_str (s_split s) with Some x => x | None => a_split a end.
Proof. unfold ref_args, s_or, set_str. cbn. destruct (s_split s) as [[|]|]; reflexivity. Qed.

Lemma leaves_sound m : forall a ds c w, get_datasets m a = Ok ds -> In (c, w) ds ->
  exists chain w' t, path_to (a_split a) m chain w' t /\ c = load_target t (chain_args a chain) /\ (w == w')%Q.
Proof.
  induction m as [l|s m IH|l IH|l IH|s ls] using meta_ind'; intros a ds c w.
  - intros [= <-] [[= <- <-]|[]]. exists [], 1%Q, (TLoad l). split; [constructor|split; reflexivity].
  - intros H I. destruct (IH (ref_args s a) ds c w H I) as (ch & w' & t & A & B & C). exists (s :: ch), w', t.
    split; [|split; auto]. constructor. rewrite <- ref_split. exact A.
  - rewrite get_blend. intros H I. destruct (blend_in H I) as (i & dw & m & d & w0 & E1 & E2 & E3 & ->).
    destruct (IH dw m (nth_error_In _ _ E1) a d c w0 E2 E3) as (ch & w' & t & A & B & C).
    exists ch, (w' * (dw / qsum (map fst l)))%Q, t. split; [econstructor; eauto|]. split; [exact B|].
    rewrite C. unfold Qdiv. ring.
  - rewrite get_splits. destruct (find _ l) as [[k m]|] eqn:E; [|discriminate]. intros H I.
    destruct (find_key E) as [-> I']. destruct (IH _ m I' a ds c w H I) as (ch & w' & t & A & B & C).
    exists ch, w', t. split; [econstructor; eauto|auto].
  - intros [= <-] [[= <- <-]|[]]. exists [], 1%Q, (TJoin s ls). split; [constructor|split; reflexivity].
Qed.

Lemma leaves_complete m : forall a ds chain w' t, get_datasets m a = Ok ds ->
  path_to (a_split a) m chain w' t -> exists w, In (load_target t (chain_args a chain), w) ds /\ (w == w')%Q.
Proof.
  induction m as [l|s m IH|l IH|l IH|s ls] using meta_ind'; intros a ds ch w' t.
  - intros [= <-] H. inversion H; subst. exists 1%Q. split; [left; reflexivity|reflexivity].
  - intros H P. inversion P as [| |sp s0 m1 ch0 w t0 P'| |]; subst. rewrite <- ref_split in P'. apply (IH (ref_args s a) ds ch0 w' t H P').
  - rewrite get_blend. intros H P. inversion P as [| | |sp l0 i dw m ch0 w t0 E1 E2|]; subst.
    destruct (blend_ok H (nth_error_In _ _ E1)) as (d & d' & F1 & F2 & F3).
    destruct (IH dw m (nth_error_In _ _ E1) a d ch w t F1 E2) as (w1 & I1 & E3).
    apply scale_ok in F2. destruct F2 as [-> _].
    exists (w1 * dw / qsum (map fst l))%Q. split.
    + apply F3. apply in_map_iff. exists (load_target t (chain_args a ch), w1). split; [reflexivity|exact I1].
    + rewrite E3. unfold Qdiv. ring.
  - rewrite get_splits. intros H P. inversion P as [| | | |sp l0 m ch0 w t0 E1 E2]; subst.
    rewrite E1 in H. destruct (find_key E1) as [_ I]. apply (IH _ m I a ds ch w' t H E2).
  - intros [= <-] H. inversion H; subst. exists 1%Q. split; [left; reflexivity|reflexivity].
Qed.

(** ** settings along the chain *)
Lemma first_set_app {A} (l1 l2 : list (option A)) :
  first_set (l1 ++ l2) = match first_set l1 with Some x => Some x | None => first_set l2 end.
Proof. induction l1 as [|[x|] l1 IH]; cbn; auto. Qed.

Lemma chain_split chain : forall a, a_split (chain_args a chain) = eff_split a chain.
Proof.
  unfold eff_split. induction chain as [|s ch IH]; intros a; [reflexivity|]. cbn [chain_args fold_left map rev].
  fold (chain_args (ref_args s a) ch). rewrite IH, ref_split, first_set_app. cbn [first_set].
  destruct (first_set _); [reflexivity|]. destruct (set_str (s_split s)); reflexivity.
Qed.

Lemma set_str_or x y : set_str (s_or x y) = match set_str x with Some z => Some z | None => set_str y end.
Proof. destruct x as [[|]|]; cbn; auto. Qed.

Lemma chain_subflavor chain : forall a, set_str (a_subflavor (chain_args a chain)) = eff_subflavor a chain.
Proof.
  unfold eff_subflavor. induction chain as [|s ch IH]; intros a.
  - cbn. destruct (set_str (a_subflavor a)); reflexivity.
  - cbn [chain_args fold_left]. fold (chain_args (ref_args s a) ch). rewrite IH.
    cbn [map first_set ref_args a_subflavor]. rewrite set_str_or. destruct (set_str (a_subflavor a)); reflexivity.
Qed.

Lemma d_get_app k a b : d_get k (a ++ b) = match d_get k a with Some v => Some v | None => d_get k b end.
Proof. induction a as [|[k' v] a IH]; cbn; [reflexivity|]. destruct (String.eqb k k'); auto. Qed.

Lemma d_get_merge k a b : d_get k (d_merge a b) = match d_get k b with Some v => Some v | None => d_get k a end.
Proof.
  unfold d_merge. rewrite d_get_app. destruct (d_get k b) eqn:E; [reflexivity|].
  induction a as [|[k' v] a IH]; [reflexivity|]. cbn [filter fst d_get]. destruct (String.eqb k k') eqn:EK.
  - apply String.eqb_eq in EK. subst k'. rewrite E. cbn [d_get]. rewrite String.eqb_refl. reflexivity.
  - destruct (d_get k' b); [exact IH|]. cbn [d_get]. rewrite EK. exact IH.
Qed.

Definition sf_get (k : string) (d : option dict) : option nat := match d with Some d => d_get k d | None => None end.

Lemma sf_get_merge k a b : sf_get k (sf_merge a b) = match sf_get k b with Some v => Some v | None => sf_get k a end.
Proof.
  destruct a as [a|]; cbn.
  - rewrite d_get_merge. destruct b as [b|]; cbn; reflexivity.
  - destruct b as [b|]; cbn; [destruct (d_get k b)|]; reflexivity.
Qed.

Lemma chain_subflavors k chain : forall a, sf_get k (a_subflavors (chain_args a chain)) = eff_subflavors a chain k.
Proof.
  unfold eff_subflavors. induction chain as [|s ch IH]; intros a.
  - cbn. fold (sf_get k (a_subflavors a)). destruct (sf_get k (a_subflavors a)); reflexivity.
  - cbn [chain_args fold_left]. fold (chain_args (ref_args s a) ch). rewrite IH.
    cbn [map first_set ref_args a_subflavors]. fold (sf_get k (sf_merge (s_subflavors s) (a_subflavors a))).
    rewrite sf_get_merge. fold (sf_get k (a_subflavors a)) (sf_get k (s_subflavors s)).
    destruct (sf_get k (a_subflavors a)); reflexivity.
Qed.

Lemma chain_mult chain : forall a, a_mult (chain_args a chain) = eff_mult a chain.
Proof.
  unfold eff_mult. induction chain as [|s ch IH]; intros a; [reflexivity|].
  cbn [chain_args fold_left map fold_right]. fold (chain_args (ref_args s a) ch). rewrite IH. cbn [ref_args a_mult].
  generalize (map s_mult ch) as l. intros l. clear. induction l as [|x l IH]; cbn; [lia|]. rewrite IH. lia.
Qed.
