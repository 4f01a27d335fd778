(** Lemmas for C61. *)
From Coq Require Import String.
From Verif Require Import Base LoadArgs LoadArgsSpec.
Local Open Scope string_scope.
Local Open Scope list_scope.
Local Open Scope nat_scope.

Section NodeInd.
  Variable P : node -> Prop.
  Hypothesis Hm : P NMissing.
  Hypothesis Hd : forall d, P (NDir d).
  Hypothesis Hf : forall l, (forall k n, In (k, n) l -> P n) -> P (NFile l).
  Hypothesis Hb : forall l, (forall n, In n l -> P n) -> P (NBlend l).
  Hypothesis Hr : forall r n, P n -> P (NRef r n).
  Hypothesis Hj : forall r l, P (NJoin r l).
  Fixpoint node_ind2 (n : node) : P n :=
    match n with
    | NMissing => Hm
    | NDir d => Hd d
    | NFile l => @Hf l ((fix go (l : list (string * node)) : forall k n, In (k, n) l -> P n :=
        match l with
        | [] => fun k n I => match I with end
        | kn :: l' => fun k n I => match I with
                                   | or_introl E => eq_ind (snd kn) P (node_ind2 (snd kn)) n (f_equal snd E)
                                   | or_intror I' => go l' k n I'
                                   end
        end) l)
    | NBlend l => @Hb l ((fix go (l : list node) : forall n, In n l -> P n :=
        match l with
        | [] => fun n I => match I with end
        | m :: l' => fun n I => match I with
                                | or_introl E => eq_ind m P (node_ind2 m) n E
                                | or_intror I' => go l' n I'
                                end
        end) l)
    | NRef r n' => @Hr r n' (node_ind2 n')
    | NJoin r l => Hj r l
    end.
End NodeInd.

Lemma one_of_in names k : one_of names k = true <-> In k names.
Proof.
  unfold one_of. rewrite existsb_exists. split.
  - intros (x & I & E). apply String.eqb_eq in E. now subst.
  - intros I. exists k. split; [exact I|apply String.eqb_refl].
Qed.

Lemma kget_in k d : kget k d <> None <-> In k (map fst d).
Proof.
  induction d as [|[k' v] d IH]; cbn [kget map fst]; [split; [congruence|intros []]|].
  destruct (String.eqb k' k) eqn:E.
  - apply String.eqb_eq in E. subst. split; [now left|congruence].
  - rewrite IH. cbn [In]. apply String.eqb_neq in E. tauto.
Qed.

Lemma kget_app k a b : kget k (a ++ b) = match kget k a with Some v => Some v | None => kget k b end.
Proof. induction a as [|[k' v] a IH]; cbn [kget app]; [reflexivity|]. destruct (String.eqb k' k); [reflexivity|exact IH]. Qed.

Lemma kget_filter k f a : kget k (filter (fun p : string * val => f (fst p)) a) = if f k then kget k a else None.
Proof.
  induction a as [|[k' v] a IH]; cbn [kget filter fst]; [now destruct (f k)|].
  destruct (String.eqb k' k) eqn:E.
  - apply String.eqb_eq in E. subst. destruct (f k) eqn:F; cbn [kget]; [now rewrite String.eqb_refl|exact IH].
  - destruct (f k') eqn:F; cbn [kget]; [rewrite E|]; exact IH.
Qed.

Lemma kget_updated k a b : kget k (updated a b) = match kget k b with Some v => Some v | None => kget k a end.
Proof.
  unfold updated. rewrite kget_app, (kget_filter k (fun x => negb (has x b))). unfold has. destruct (kget k b); reflexivity.
Qed.

Lemma updated_names k a b : In k (map fst (updated a b)) <-> In k (map fst a) \/ In k (map fst b).
Proof.
  rewrite <- !kget_in, kget_updated. destruct (kget k b); [|tauto].
  split; [intros _; right; congruence|congruence].
Qed.

Lemma filter_names k (f : string -> bool) (a : kw) : In k (map fst (filter (fun p => f (fst p)) a)) <-> In k (map fst a) /\ f k = true.
Proof. rewrite <- !kget_in, kget_filter. destruct (f k); intuition congruence. Qed.

Lemma from_config_made d file std extra lf : kget "sample_type" std = None ->
  from_config d file (std ++ extra) = Ok lf -> made d file std extra lf.
Proof.
  intros Hst. unfold from_config. destruct (d_file d file) as [f|] eqn:E; [|discriminate].
  destruct (forallb _ _) eqn:F; [|discriminate]. intros H. injection H as <-. exists f. cbn [lf_path lf_args].
  rewrite forallb_forall in F. split; [exact E|]. split; [reflexivity|]. split.
  - intros k. rewrite kget_updated, (kget_filter k (fun x => negb (String.eqb x "sample_type"))), kget_app. cbn [first_set].
    destruct (kget k (fl_sets f)); [reflexivity|]. destruct (String.eqb k "sample_type") eqn:Es; cbn [negb].
    + apply String.eqb_eq in Es. subst. now rewrite Hst.
    + destruct (kget k std); [reflexivity|]. destruct (kget k extra); reflexivity.
  - intros k Hk. apply kget_in in Hk. apply one_of_in, F, Hk.
Qed.

Lemma from_config_makeable d file extra std :
  map fst std = ["path"; "split_config"; "split_part"; "training"; "subflavor"; "worker_config"; "shuffle_over_epochs"] ->
  ((exists lf, from_config d file (std ++ extra) = Ok lf) <-> makeable d file extra).
Proof.
  intros Hs. unfold from_config, makeable. destruct (d_file d file) as [f|] eqn:E.
  2:{ split; [intros [lf H]; discriminate|intros (f & H & _); discriminate]. }
  set (data := updated (filter (fun p => negb (String.eqb (fst p) "sample_type")) (std ++ extra)) (fl_sets f)).
  assert (N : forall k, In k (map fst data) <-> In k (map fst (fl_sets f)) \/ In k (map fst std) \/ (In k (map fst extra) /\ k <> "sample_type")).
  { intros k. unfold data. rewrite updated_names, (filter_names k (fun x => negb (String.eqb x "sample_type"))), map_app, in_app_iff, negb_true_iff, String.eqb_neq.
    rewrite Hs. split; [intuition|]. intros [H | [H | [H1 H2]]]; [now right| |now left; split; [right|]].
    left. split; [now left|]. cbn [In] in H. intuition congruence. }
  split.
  - intros [lf H]. destruct (forallb (one_of (fl_params f)) (map fst data)) eqn:F; [|discriminate]. rewrite forallb_forall in F.
    assert (F' : forall k, In k (map fst data) -> In k (fl_params f)) by (intros k Hk; apply one_of_in, F, Hk).
    exists f. split; [reflexivity|]. split; [intros k Hk; apply F', N; now left|].
    split; [intros k Hk; apply F', N; right; left; now rewrite Hs|]. intros k Hk Hn. apply F', N. right. now right.
  - intros (f' & E' & A & B & C). injection E' as <-.
    assert (F : forallb (one_of (fl_params f)) (map fst data) = true).
    { rewrite forallb_forall. intros k Hk. apply one_of_in. apply N in Hk as [Hk | [Hk | [Hk Hn]]]; [auto| |auto]. rewrite Hs in Hk. auto. }
    rewrite F. eauto.
Qed.

Lemma get_dataset_eq r d a sc : get_dataset r d a sc =
  from_config d (r_dataset_config r)
    (standard d (a_training a) (or_else (r_split r) (a_split a)) (or_else sc (r_split_config r)) (first_set [a_subflavor a; r_subflavor r]) ++ a_kw a).
Proof.
  unfold get_dataset, standard, vopt, or_else. f_equal. cbn [app first_set].
  destruct (a_subflavor a), (r_subflavor r); reflexivity.
Qed.

Lemma get_dataset_made r d a sc lf : get_dataset r d a sc = Ok lf ->
  made d (r_dataset_config r) (standard d (a_training a) (or_else (r_split r) (a_split a)) (or_else sc (r_split_config r)) (first_set [a_subflavor a; r_subflavor r])) (a_kw a) lf.
Proof. rewrite get_dataset_eq. apply from_config_made. reflexivity. Qed.

Lemma get_dataset_makeable r d a sc : (exists lf, get_dataset r d a sc = Ok lf) <-> makeable d (r_dataset_config r) (a_kw a).
Proof. rewrite get_dataset_eq. now apply from_config_makeable. Qed.

(** get_datasets, unfolded *)
Lemma get_file l a : get_datasets (NFile l) a =
  match find (fun kn => String.eqb (a_split a) (fst kn)) l with Some kn => get_datasets (snd kn) a | None => Err KeyError end.
Proof.
  cbn [get_datasets]. induction l as [|[k n] l IH]; [reflexivity|]. cbn [find fst]. destruct (String.eqb (a_split a) k); [reflexivity|exact IH].
Qed.
Lemma get_blend n l a : get_datasets (NBlend (n :: l)) a = bind (get_datasets n a) (fun ds => bind (get_datasets (NBlend l) a) (fun r => Ok (ds ++ r))).
Proof. reflexivity. Qed.
Lemma get_ref r n a : (forall d, n <> NDir d) -> get_datasets (NRef r n) a = get_datasets n (ref_args r a).
Proof. intros H. destruct n; try reflexivity. now destruct (H d). Qed.
Lemma get_ref_dir r d a : get_datasets (NRef r (NDir d)) a = bind (get_dataset r d (ref_args r a) None) (fun lf => Ok [CSingle lf]).
Proof. reflexivity. Qed.

Lemma find_key sp (l : list (string * node)) kn : find (fun kn => String.eqb sp (fst kn)) l = Some kn -> fst kn = sp /\ In kn l.
Proof. intros H. apply find_some in H as [I E]. apply String.eqb_eq in E. auto. Qed.

Lemma ref_split r a : a_split (ref_args r a) = or_else (set_str (r_split r)) (a_split a).
Proof. unfold ref_args, s_or, or_else, set_str. cbn [a_split]. destruct (r_split r) as [[|]|]; reflexivity. Qed.
Lemma ref_sub r a : a_subflavor (ref_args r a) = first_set [set_str (a_subflavor a); r_subflavor r].
Proof. unfold ref_args, s_or, set_str. cbn [a_subflavor first_set]. destruct (a_subflavor a) as [[|]|], (r_subflavor r); reflexivity. Qed.

Lemma sequence_inv {A} (l : list (result A)) xs : sequence l = Ok xs -> l = map (@Ok A) xs.
Proof.
  revert xs. induction l as [|[x|e] l IH]; cbn [sequence]; intros xs H; [injection H as <-; reflexivity| |discriminate].
  destruct (sequence l) as [r|]; [|discriminate]. injection H as <-. cbn [map]. now rewrite (IH r eq_refl).
Qed.
Lemma sequence_Ok {A} (xs : list A) : sequence (map (@Ok A) xs) = Ok xs.
Proof. induction xs as [|x xs IH]; [reflexivity|]. cbn [map sequence]. now rewrite IH. Qed.

(** the columns of a join, when they are all directories *)
Lemma join_dirs (f : refset -> dir -> result leaf) l lfs :
  sequence (map (fun rn : refset * node => match snd rn with NDir d => f (fst rn) d | _ => Err OtherError end) l) = Ok lfs ->
  exists ds, l = map (fun rd => (fst rd, NDir (snd rd))) ds /\ Forall2 (fun rd lf => f (fst rd) (snd rd) = Ok lf) ds lfs.
Proof.
  intros H. apply sequence_inv in H. revert lfs H. induction l as [|[r n] l IH]; intros [|lf lfs] H; try discriminate.
  - exists []. split; [reflexivity|constructor].
  - cbn [map fst snd] in H. injection H as H1 H2. destruct (IH lfs H2) as (ds & -> & F).
    destruct n; try discriminate. exists ((r, d) :: ds). split; [reflexivity|constructor; auto].
Qed.
Lemma join_dirs_conv (f : refset -> dir -> result leaf) ds lfs : Forall2 (fun rd lf => f (fst rd) (snd rd) = Ok lf) ds lfs ->
  sequence (map (fun rn : refset * node => match snd rn with NDir d => f (fst rn) d | _ => Err OtherError end) (map (fun rd => (fst rd, NDir (snd rd))) ds)) = Ok lfs.
Proof.
  induction 1 as [|[r d] lf ds lfs H F IH]; [reflexivity|]. cbn [map fst snd sequence] in *. rewrite H. rewrite IH. reflexivity.
Qed.

Lemma get_places n : forall a cs, get_datasets n a = Ok cs ->
  exists ps, places (a_split a) (a_subflavor a) n ps /\ Forall2 (built (a_training a) (a_kw a)) ps cs.
Proof.
  induction n as [|d|l IH|l IH|r n IH|r l] using node_ind2; intros a cs H.
  - discriminate.
  - discriminate.
  - rewrite get_file in H. destruct (find _ l) as [[k n]|] eqn:E; [|discriminate]. cbn [snd] in H.
    destruct (find_key E) as [K I]. cbn [fst] in K. subst k. destruct (IH _ _ I a cs H) as (ps & A & B). exists ps. split; [|exact B].
    eapply pl_file; eauto.
  - enough (exists ps, all_places (a_split a) (a_subflavor a) l ps /\ Forall2 (built (a_training a) (a_kw a)) ps cs) as (ps & A & B)
      by (exists ps; split; [now constructor|exact B]).
    revert cs H. induction l as [|n l IHl]; intros cs H.
    + injection H as <-. exists []. split; constructor.
    + rewrite get_blend in H. destruct (get_datasets n a) as [ds|] eqn:E1; [|discriminate]. cbn [bind] in H.
      destruct (get_datasets (NBlend l) a) as [ds2|] eqn:E2; [|discriminate]. injection H as <-.
      destruct (IH n (or_introl eq_refl) a ds E1) as (ps & A & B).
      destruct (IHl (fun m I => IH m (or_intror I)) ds2 eq_refl) as (qs & C & D).
      exists (ps ++ qs). split; [now constructor|now apply Forall2_app].
  - destruct n as [|d|l|l|r' n|r' l].
    2:{ rewrite get_ref_dir in H. destruct (get_dataset r d (ref_args r a) None) as [lf|] eqn:E; [|discriminate]. injection H as <-.
        eexists. split; [apply pl_dir|]. constructor; [|constructor]. cbn [built].
        apply get_dataset_made in E. rewrite ref_split, ref_sub in E. exact E. }
    all: rewrite get_ref in H by discriminate; destruct (IH _ _ H) as (ps & A & B); exists ps; split; [|exact B];
      rewrite ref_split, ref_sub in A; apply pl_ref; [discriminate|exact A].
  - cbn [get_datasets] in H. destruct (sequence _) as [lfs|] eqn:E; [|discriminate]. cbn [bind] in H.
    destruct (forallb (one_of join_params) (map fst (a_kw a))); [|discriminate]. injection H as <-.
    apply (@join_dirs (fun r' d => get_dataset r' d (join_args r a) (Some (r_split_config r)))) in E as (ds & -> & F).
    exists [PJoin (a_split a) (a_subflavor a) r ds]. split; [constructor|]. constructor; [|constructor]. cbn [built]. split; [|reflexivity].
    clear - F. induction F as [|[r' d] lf ds lfs H F IH]; constructor; [|exact IH]. cbn [fst snd] in *. apply get_dataset_made in H.
    cbn [join_args a_split a_subflavor a_training a_kw or_else] in H.
    replace (first_set [a_subflavor a; r_subflavor r; r_subflavor r']) with
      (first_set [match a_subflavor a with Some x => Some x | None => r_subflavor r end; r_subflavor r']) by (cbn [first_set]; destruct (a_subflavor a), (r_subflavor r); reflexivity).
    replace (or_else (r_split r) (a_split a)) with (match r_split r with Some x => x | None => a_split a end) by reflexivity.
    exact H.
Qed.

Scheme places_ind2 := Minimality for places Sort Prop with all_places_ind2 := Minimality for all_places Sort Prop.
Combined Scheme places_mut from places_ind2, all_places_ind2.

Lemma get_loadable :
  (forall sp sub n ps, places sp sub n ps -> forall tr kws, ((exists cs, get_datasets n (mkArgs tr sp sub kws) = Ok cs) <-> Forall (loadable kws) ps)) /\
  (forall sp sub l ps, all_places sp sub l ps -> forall tr kws, ((exists cs, get_datasets (NBlend l) (mkArgs tr sp sub kws) = Ok cs) <-> Forall (loadable kws) ps)).
Proof.
  apply places_mut.
  - intros sp sub l n ps E _ IH tr kws. rewrite get_file. cbn [a_split]. rewrite E. apply IH.
  - intros sp sub l ps _ IH tr kws. apply IH.
  - intros sp sub r d tr kws. rewrite get_ref_dir. split.
    + intros [cs H]. constructor; [|constructor]. cbn [loadable]. destruct (get_dataset r d _ None) as [lf|] eqn:E; [|discriminate].
      apply (proj1 (get_dataset_makeable r d (ref_args r (mkArgs tr sp sub kws)) None)). eauto.
    + intros H. inversion H as [|? ? H1 _]. cbn [loadable] in H1.
      apply (proj2 (get_dataset_makeable r d (ref_args r (mkArgs tr sp sub kws)) None)) in H1 as [lf ->]. eexists. reflexivity.
  - intros sp sub r n ps Hn _ IH tr kws. rewrite get_ref by exact Hn.
    specialize (IH tr kws). rewrite <- IH. 
    replace (ref_args r (mkArgs tr sp sub kws)) with (mkArgs tr (or_else (set_str (r_split r)) sp) (first_set [set_str sub; r_subflavor r]) kws); [reflexivity|].
    pose proof (ref_split r (mkArgs tr sp sub kws)) as E1. pose proof (ref_sub r (mkArgs tr sp sub kws)) as E2. cbn [a_split a_subflavor] in E1, E2.
    rewrite <- E1, <- E2. reflexivity.
  - intros sp sub r l tr kws. cbn [get_datasets]. set (a := mkArgs tr sp sub kws). split.
    + intros [cs H]. constructor; [|constructor]. cbn [loadable].
      destruct (sequence _) as [lfs|] eqn:E; [|discriminate]. cbn [bind] in H.
      destruct (forallb (one_of join_params) (map fst (a_kw a))) eqn:F; [|discriminate].
      apply (@join_dirs (fun r' d => get_dataset r' d (join_args r a) (Some (r_split_config r)))) in E as (ds & El & F2).
      assert (l = ds).
      { clear - El. revert ds El. induction l as [|[r d] l IH]; intros [|[r' d'] ds] E; try discriminate; [reflexivity|]. cbn [map fst snd] in E. injection E as -> -> E. f_equal. auto. }
      subst ds. split.
      * intros rd I. clear - F2 I. induction F2 as [|rd' lf ds lfs H F IH]; [destruct I|]. destruct I as [<- | I]; [|auto].
        apply (proj1 (get_dataset_makeable (fst rd') (snd rd') (join_args r a) (Some (r_split_config r)))). eauto.
      * intros k Hk. rewrite forallb_forall in F. apply (proj1 (one_of_in join_params k)), F, Hk.
    + intros H. inversion H as [|? ? H0 _]. subst. cbn [loadable] in H0. destruct H0 as [H1 H2].
      assert (exists lfs, Forall2 (fun rd lf => get_dataset (fst rd) (snd rd) (join_args r a) (Some (r_split_config r)) = Ok lf) l lfs) as [lfs F].
      { clear - H1. induction l as [|rd l IH]; [exists []; constructor|].
        destruct IH as [lfs F]; [intros rd' I; apply H1; now right|].
        destruct (proj2 (get_dataset_makeable (fst rd) (snd rd) (join_args r a) (Some (r_split_config r))) (H1 rd (or_introl eq_refl))) as [lf E].
        exists (lf :: lfs). now constructor. }
      rewrite (@join_dirs_conv (fun r' d => get_dataset r' d (join_args r a) (Some (r_split_config r))) l lfs F). cbn [bind].
      assert (E : forallb (one_of join_params) (map fst (a_kw a)) = true) by (rewrite forallb_forall; intros k Hk; apply one_of_in; apply H2; exact Hk).
      rewrite E. eauto.
  - intros sp sub tr kws. split; [constructor|]. intros _. exists []. reflexivity.
  - intros sp sub n l ps qs _ IH1 _ IH2 tr kws. rewrite get_blend, Forall_app, <- (IH1 tr kws), <- (IH2 tr kws). split.
    + intros [cs H]. destruct (get_datasets n _) as [x|]; [|discriminate]. cbn [bind] in H. destruct (get_datasets (NBlend l) _) as [y|]; [|discriminate]. split; eauto.
    + intros [[x ->] [y E]]. cbn [bind]. rewrite E. cbn [bind]. eauto.
Qed.

Lemma prepare_complete n : prepare n = Ok tt <-> complete n.
Proof.
  induction n as [|d|l IH|l IH|r n IH|r l] using node_ind2.
  - split; [discriminate|intros H; inversion H].
  - split; [constructor|reflexivity].
  - assert (G : prepare (NFile l) = Ok tt <-> forall k n, In (k, n) l -> complete n).
    { cbn [prepare]. induction l as [|[k n] l IHl]; [split; [intros _ ? ? []|reflexivity]|].
      destruct (prepare n) as [[]|e] eqn:E; cbn [bind].
      - rewrite IHl by (intros k' n' I; apply (IH k' n'); now right). split.
        + intros H k' n' [Q | I]; [injection Q as <- <-; apply (IH k n (or_introl eq_refl)); exact E|eauto].
        + intros H k' n' I. apply (H k'). now right.
      - split; [discriminate|]. intros H. specialize (H k n (or_introl eq_refl)). apply (IH k n (or_introl eq_refl)) in H. congruence. }
    rewrite G. split; [intros H; now constructor|intros H; inversion H; subst; assumption].
  - assert (G : prepare (NBlend l) = Ok tt <-> forall n, In n l -> complete n).
    { cbn [prepare]. induction l as [|n l IHl]; [split; [intros _ ? []|reflexivity]|].
      destruct (prepare n) as [[]|e] eqn:E; cbn [bind].
      - rewrite IHl by (intros n' I; apply IH; now right). split.
        + intros H n' [<- | I]; [apply (IH n (or_introl eq_refl)); exact E|auto].
        + intros H n' I. apply H. now right.
      - split; [discriminate|]. intros H. specialize (H n (or_introl eq_refl)). apply (IH n (or_introl eq_refl)) in H. congruence. }
    rewrite G. split; [intros H; now constructor|intros H; inversion H; subst; assumption].
  - assert (G : prepare (NRef r n) = Ok tt <-> prepare n = Ok tt /\ forall l, n = NFile l -> r_dataset_config r = "dataset.yaml" /\ r_split_config r = "split.yaml").
    { destruct n; try (split; [intros H; split; [exact H|discriminate]|intros [H _]; exact H]).
      change (prepare (NRef r (NFile splits))) with
        (if String.eqb (r_dataset_config r) dataset_yaml && String.eqb (r_split_config r) split_yaml then prepare (NFile splits) else Err AssertionError).
      destruct (String.eqb (r_dataset_config r) dataset_yaml) eqn:E1, (String.eqb (r_split_config r) split_yaml) eqn:E2; cbn [andb].
      1:{ apply String.eqb_eq in E1, E2. unfold dataset_yaml, split_yaml in *. split; [intros H; split; [exact H|auto]|intros [H _]; exact H]. }
      all: split; [discriminate|]; intros [_ H]; destruct (H splits eq_refl) as [Q1 Q2]; rewrite Q1 in E1; rewrite Q2 in E2; discriminate. }
    rewrite G, IH. split.
    + intros [A B]. now constructor.
    + intros H. inversion H; subst. auto.
  - cbn [prepare]. destruct (String.eqb (r_dataset_config r) dataset_yaml) eqn:E.
    + apply String.eqb_eq in E.
      assert (G : (exists u, sequence (map prepare_joined l) = Ok u) <-> forall r' n, In (r', n) l -> exists d, n = NDir d).
      { clear. induction l as [|[r n] l IH]; cbn [map sequence].
        - split; [intros _ ? ? []|eexists; reflexivity].
        - unfold prepare_joined at 1. cbn [snd]. destruct n; try (split; [intros [u H]; discriminate|intros H; destruct (H r _ (or_introl eq_refl)); discriminate]).
          destruct (sequence (map prepare_joined l)) as [u|].
          + split; [|eauto]. intros _ r' n' [Q | I]; [injection Q as <- <-; eauto|]. apply IH in I; eauto.
          + split; [intros [u H]; discriminate|]. intros H. destruct (proj2 IH) as [u Hu]; [|discriminate]. intros r' n' I. apply (H r'). now right. }
      split.
      * intros H. constructor; [exact E|]. apply G. destruct (sequence (map prepare_joined l)) as [u|]; [eauto|discriminate].
      * intros H. inversion H; subst. apply G in H3 as [u ->]. reflexivity.
    + split; [discriminate|]. intros H. inversion H; subst. apply String.eqb_neq in E. now destruct E.
Qed.
