(** C41 metadataset weights, C42 metadataset settings. Vocabulary: MetaSpec.v. *)
From Coq Require Import String QArith.
From Verif Require Import Base Meta MetaSpec MetaProofs.
Local Close Scope Q_scope.
Local Open Scope nat_scope.

(** ** C41 *)
Theorem C41_weights_sum_to_one m a ds : proper m -> get_datasets m a = Ok ds ->
  (qsum (map snd ds) == 1)%Q /\ forall c w, In (c, w) ds -> (0 <= w)%Q.
Proof. intros H. apply weights_ok. exact H. Qed.
Print Assumptions C41_weights_sum_to_one.

(** every returned dataset sits at a leaf and has the product of the relative weights on its path *)
Theorem C41_weight_is_path_product m a ds c w : get_datasets m a = Ok ds -> In (c, w) ds ->
  exists chain w' t, path_to (a_split a) m chain w' t /\ (w == w')%Q.
Proof. intros H I. destruct (leaves_sound H I) as (ch & w' & t & A & _ & C). eauto 6. Qed.
Print Assumptions C41_weight_is_path_product.

(** and no leaf is forgotten *)
Theorem C41_no_leaf_lost m a ds chain w' t : get_datasets m a = Ok ds -> path_to (a_split a) m chain w' t ->
  exists c w, In (c, w) ds /\ (w == w')%Q.
Proof. intros H P. destruct (leaves_complete H P) as (w & I & E). eauto. Qed.
Print Assumptions C41_no_leaf_lost.

(** an all-zero blend is an error, not a silent division *)
Theorem C41_zero_weights_rejected l a ds : l <> [] -> (forall dw m, In (dw, m) l -> proper m) ->
  (qsum (map fst l) == 0)%Q -> get_datasets (MBlend l) a <> Ok ds.
Proof. intros H1 H2 H3 H4. rewrite get_blend in H4. eapply blend_total_nz; eauto. Qed.
Print Assumptions C41_zero_weights_rejected.

(** ** C42 *)
(** the settings with which the dataset at the end of a path is loaded: the innermost reference that
    sets a split part wins; the outermost subflavor and the outermost value of each subflavors key
    win; multipliers multiply *)
Theorem C42_settings m a ds c w : get_datasets m a = Ok ds -> In (c, w) ds ->
  exists chain w' t a', path_to (a_split a) m chain w' t /\
    c = match t with
        | TLoad l => CSingle (get_dataset l a')
        | TJoin s ls => CJoin (map (fun l => get_dataset l (join_args s a')) ls) (a_mult a')
        end /\
    a_split a' = eff_split a chain /\
    set_str (a_subflavor a') = eff_subflavor a chain /\
    (forall k, match a_subflavors a' with Some d => d_get k d | None => None end = eff_subflavors a chain k) /\
    a_mult a' = eff_mult a chain.
Proof.
  intros H I. destruct (leaves_sound H I) as (ch & w' & t & A & B & C).
  exists ch, w', t, (chain_args a ch). split; [exact A|]. split; [rewrite B; destruct t; reflexivity|].
  split; [apply chain_split|]. split; [apply chain_subflavor|]. split; [intros k; apply chain_subflavors|apply chain_mult].
Qed.
Print Assumptions C42_settings.

(** at the leaf, the dataset's own file: it overrides split part, subflavor and shuffle_over_epochs,
    and is overridden in its subflavors *)
Theorem C42_leaf_file l a k :
  f_path (get_dataset l a) = c_path (l_cfg l) /\
  f_split (get_dataset l a) =
    match first_set [c_split (l_cfg l); s_split (l_set l)] with Some x => x | None => a_split a end /\
  f_subflavor (get_dataset l a) = first_set [c_subflavor (l_cfg l); a_subflavor a; s_subflavor (l_set l)] /\
  match f_subflavors (get_dataset l a) with Some d => d_get k d | None => None end =
    first_set [match a_subflavors a with Some d => d_get k d | None => None end;
               match s_subflavors (l_set l) with Some d => d_get k d | None => None end;
               match c_subflavors (l_cfg l) with Some d => d_get k d | None => None end] /\
  f_shuffle (get_dataset l a) = match c_shuffle (l_cfg l) with Some z => z | None => a_mult a end.
Proof.
  unfold get_dataset, from_config. cbn [f_path f_split f_subflavor f_subflavors f_shuffle].
  split; [reflexivity|]. split; [destruct (c_split (l_cfg l)), (s_split (l_set l)); reflexivity|].
  split; [destruct (c_subflavor (l_cfg l)), (a_subflavor a), (s_subflavor (l_set l)); reflexivity|].
  split; [|reflexivity].
  pose proof (sf_get_merge k (s_subflavors (l_set l)) (a_subflavors a)) as M. unfold sf_get in M.
  destruct (c_subflavors (l_cfg l)) as [d|].
  - destruct (sf_merge (s_subflavors (l_set l)) (a_subflavors a)) as [e|].
    + rewrite d_get_merge, M. cbn [first_set].
      destruct (match a_subflavors a with Some d => d_get k d | None => None end), (match s_subflavors (l_set l) with Some d => d_get k d | None => None end), (d_get k d); reflexivity.
    + cbn [first_set]. destruct (match a_subflavors a with Some d => d_get k d | None => None end); [discriminate|].
      rewrite <- M. destruct (d_get k d); reflexivity.
  - rewrite M. cbn [first_set].
    destruct (match a_subflavors a with Some d => d_get k d | None => None end), (match s_subflavors (l_set l) with Some d => d_get k d | None => None end); reflexivity.
Qed.
Print Assumptions C42_leaf_file.

(** The shuffle multiplier of a join (and of the joined references) has no effect *)
Theorem C42_join_multiplier_refuted : exists s1 s2 ls a,
  s_mult s1 = 3%Z /\ s_mult s2 = 1%Z /\ s_split s1 = s_split s2 /\ s_subflavor s1 = s_subflavor s2 /\
  s_subflavors s1 = s_subflavors s2 /\ get_datasets (MJoin s1 ls) a = get_datasets (MJoin s2 ls) a.
Proof.
  exists (mkSet None None None 3), (mkSet None None None 1),
    [mkLoader (mkSet None None None 5) (mkCfg "a" None None None None)], (mkArgs "train" None None 1).
  repeat split.
Qed.

(** Documentation (joining_datasets.md:41-43): a joined dataset's own subflavor overrides the join's.
    The code does the opposite. *)
Theorem C42_join_subflavor_doc_refuted : exists s l a leaf sh w,
  get_datasets (MJoin s [l]) a = Ok [(CJoin [leaf] sh, w)] /\
  s_subflavor s = Some "ds2"%string /\ s_subflavor (l_set l) = Some "ds1"%string /\ f_subflavor leaf = Some "ds2"%string.
Proof.
  exists (mkSet None (Some "ds2"%string) None 1), (mkLoader (mkSet None (Some "ds1"%string) None 1) (mkCfg "a" None None None None)),
    (mkArgs "train" None None 1). eexists _, _, _. split; [vm_compute; reflexivity|]. auto.
Qed.

(** a multiplier of -1 (infinite shuffling) is multiplied like any number *)
Theorem C42_infinite_multiplier_refuted : exists m a c w l,
  get_datasets m a = Ok [(c, w)] /\ c = CSingle l /\ f_shuffle l = (-2)%Z.
Proof.
  exists (MRef (mkSet None None None (-1)) (MRef (mkSet None None None 2) (MLoader (mkLoader (mkSet None None None 2) (mkCfg "a" None None None None))))),
    (mkArgs "train" None None 1).
  eexists _, _, _. split; [vm_compute; reflexivity|]. split; reflexivity.
Qed.

Definition ex_meta : meta :=
  MSplits [("train"%string,
    MBlend [(3%Q, MRef (mkSet (Some "all"%string) (Some "x"%string) (Some [("a"%string, 1)]) 2)
                   (MSplits [("all"%string,
                      MBlend [(1%Q, MLoader (mkLoader (mkSet None None (Some [("a"%string, 7); ("b"%string, 8)]) 1) (mkCfg "p" None None None None)));
                              (4%Q, MLoader (mkLoader (mkSet None (Some "y"%string) None 1) (mkCfg "q" None None None None)))])]));
            (2%Q, MLoader (mkLoader (mkSet None None None 1) (mkCfg "r" None None None None)))])].

Example C41_nonvacuous : exists ds, get_datasets ex_meta (mkArgs "train" None None 1) = Ok ds /\
  map (fun cw => Qred (snd cw)) ds = [(3 # 25)%Q; (12 # 25)%Q; (2 # 5)%Q] /\
  map (fun cw => match fst cw with CSingle l => (f_path l, f_split l, f_subflavor l, f_subflavors l, f_shuffle l) | _ => (""%string, ""%string, None, None, 0%Z) end) ds =
    [("p"%string, "all"%string, Some "x"%string, Some [("a"%string, 1); ("b"%string, 8)], 2%Z);
     ("q"%string, "all"%string, Some "x"%string, Some [("a"%string, 1)], 2%Z);
     ("r"%string, "train"%string, None, None, 1%Z)].
Proof. eexists. split; [vm_compute; reflexivity|]. split; vm_compute; reflexivity. Qed.
