(** C61: arguments and file names reach the datasets they are meant for.  Vocabulary: LoadArgsSpec.v. *)
From Coq Require Import String.
From Verif Require Import Base LoadArgs LoadArgsSpec LoadArgsProofs.
Local Open Scope string_scope.
Local Open Scope list_scope.
Local Open Scope nat_scope.

Lemma split_none user : fst (split_kwargs user) = [] -> snd (split_kwargs user) = user.
Proof.
  unfold split_kwargs. cbn [fst snd]. induction user as [|p u IH]; [reflexivity|]. cbn [filter].
  destruct (one_of loader_names (fst p)); [discriminate|]. cbn [negb]. intros H. now rewrite IH.
Qed.

(** Loading a metadataset file: the datasets are those the file names for the split part, in order; each is made by the class named in the
    configuration file its reference names, with that file's settings, else the split file, split part and subflavor that hold for
    it, else the arguments of the call; a class is never called with anything else or with a name it does not have. *)
Theorem C61_metadataset n training sp extra user cs : (forall d, n <> NDir d) -> load n training sp extra user = Ok cs ->
  exists ps, places sp None n ps /\ Forall2 (built training (extra ++ user)) ps cs.
Proof.
  intros Hn. unfold load. pose proof (@split_none user) as SN. destruct (split_kwargs user) as [lk rest]. cbn [fst snd] in SN.
  destruct (existsb _ _); [discriminate|].
  destruct n; try discriminate; try (now destruct (Hn d)); destruct lk; try discriminate; rewrite (SN eq_refl);
    (destruct (prepare _); [|discriminate]); cbn [bind]; intros H; destruct (get_places H) as (ps & A & B); eauto.
Qed.
Print Assumptions C61_metadataset.

(** Loading a directory: dataset_config, split_config and subflavor of the call count, and all other arguments are passed on. *)
Theorem C61_directory d training sp extra user cs : load (NDir d) training sp extra user = Ok cs ->
  exists lf, cs = [CSingle lf] /\
    made d (or_else (str_arg "dataset_config" user) "dataset.yaml")
      (standard d training sp (or_else (str_arg "split_config" user) "split.yaml") (str_arg "subflavor" user))
      (extra ++ filter (fun p => negb (one_of ["split_part"; "subflavor"; "dataset_config"; "split_config"] (fst p))) user) lf.
Proof.
  unfold load. cbn [split_kwargs]. destruct (existsb _ _); [discriminate|]. intros H.
  destruct (get_dataset _ d _ None) as [lf|] eqn:E; [|discriminate]. injection H as <-. exists lf. split; [reflexivity|].
  apply get_dataset_made in E. cbn [r_dataset_config r_split r_split_config r_subflavor a_training a_split a_subflavor a_kw or_else first_set] in E.
  assert (S1 : forall k, In k loader_names -> str_arg k (filter (fun p => one_of loader_names (fst p)) user) = str_arg k user).
  { intros k Hk. unfold str_arg. rewrite (kget_filter k (one_of loader_names)). apply one_of_in in Hk. now rewrite Hk. }
  rewrite !S1 in E by (cbn; tauto). unfold or_else. destruct (str_arg "subflavor" user); exact E.
Qed.
Print Assumptions C61_directory.

(** When a metadataset file can be loaded: everything it refers to is there (in all its split parts), no argument is given twice or meant
    for directories only, the split part exists, and the classes have the parameters. *)
Theorem C61_loads n training sp extra user : (forall d, n <> NDir d) ->
  ((exists cs, load n training sp extra user = Ok cs) <->
   complete n /\
   (forall k, In k (map fst user) -> ~ In k (["split_part"; "subflavor"; "dataset_config"; "split_config"; "training"; "worker_config"; "shuffle_over_epochs"] ++ map fst extra)) /\
   exists ps, places sp None n ps /\ Forall (loadable (extra ++ user)) ps).
Proof.
  intros Hn. unfold load. pose proof (@split_none user) as SN.
  assert (LK : fst (split_kwargs user) = [] <-> forall k, In k (map fst user) -> ~ In k loader_names).
  { unfold split_kwargs. cbn [fst]. clear. induction user as [|[k v] u IH]; cbn [filter map fst]; [split; [intros _ ? []|reflexivity]|].
    destruct (one_of loader_names k) eqn:E.
    - split; [discriminate|]. intros H. apply one_of_in in E. now destruct (H k (or_introl eq_refl)).
    - rewrite IH. split; [|intros H k' I; apply H; now right]. intros H k' [<- | I]; [|auto]. intros J. apply one_of_in in J. congruence. }
  destruct (split_kwargs user) as [lk rest]. cbn [fst snd] in SN, LK.
  set (names := ["training"; "worker_config"; "shuffle_over_epochs"] ++ map fst extra).
  assert (NM : (forall k, In k (map fst user) -> ~ In k (["split_part"; "subflavor"; "dataset_config"; "split_config"; "training"; "worker_config"; "shuffle_over_epochs"] ++ map fst extra)) <->
               lk = [] /\ existsb (one_of names) (map fst user) = false).
  { rewrite LK. split.
    - intros H. split; [intros k I J; apply (H k I), in_or_app; left; unfold loader_names in J; cbn [In] in *; tauto|].
      destruct (existsb (one_of names) (map fst user)) eqn:E; [|reflexivity]. apply existsb_exists in E as (k & I & J). apply one_of_in in J.
      destruct (H k I). unfold names in J. cbn [app In] in *. tauto.
    - intros [H E] k I J. assert (Q : existsb (one_of names) (map fst user) = true); [|congruence].
      apply existsb_exists. exists k. split; [exact I|]. apply one_of_in. specialize (H k I). unfold names, loader_names in *. cbn [app In] in *. tauto. }
  rewrite NM. clear NM LK.
  assert (G : (exists cs, bind (prepare n) (fun _ => get_datasets n (mkArgs training sp None (extra ++ user))) = Ok cs) <->
              complete n /\ exists ps, places sp None n ps /\ Forall (loadable (extra ++ user)) ps).
  { rewrite <- prepare_complete. destruct (prepare n) as [[]|e]; cbn [bind].
    - split.
      + intros [cs H]. split; [reflexivity|]. destruct (get_places H) as (ps & A & _). exists ps. split; [exact A|].
        cbn [a_split a_subflavor] in A. apply (proj1 get_loadable _ _ _ _ A training). eauto.
      + intros [_ (ps & A & B)]. apply (proj1 get_loadable _ _ _ _ A). exact B.
    - split; [intros [cs H]; discriminate|intros [H _]; discriminate]. }
  destruct lk as [|p lk].
  - rewrite (SN eq_refl). destruct (existsb (one_of names) (map fst user)).
    + split; [intros [cs H]; discriminate|intros (_ & [_ H] & _); discriminate].
    + destruct n; try (now destruct (Hn d)).
      * split; [intros [cs H]; discriminate|]. intros (C & _). inversion C.
      * rewrite G. tauto.
      * rewrite G. tauto.
      * rewrite G. tauto.
      * rewrite G. tauto.
  - split; [|intros (_ & [H _] & _); discriminate]. intros [cs H]. exfalso.
    destruct (existsb _ _) in H; [discriminate|]. destruct n; try discriminate. now destruct (Hn d).
Qed.
Print Assumptions C61_loads.

(** ** Where the code differs *)
(** A subflavor (or dataset_config, split_config) given to get_train_dataset makes loading a metadataset fail, whatever is in it. *)
Theorem C61_metadataset_subflavor_refuted n training sp extra user : (forall d, n <> NDir d) ->
  (exists k, In k ["subflavor"; "dataset_config"; "split_config"] /\ In k (map fst user)) ->
  forall cs, load n training sp extra user <> Ok cs.
Proof.
  intros Hn (k & I & J) cs H. destruct (proj1 (C61_loads training sp extra user Hn)) as (_ & Q & _); [eauto|].
  apply (Q k J). cbn [app In] in *. tauto.
Qed.
Print Assumptions C61_metadataset_subflavor_refuted.

(** The split_config of a joined dataset's reference has no effect: whatever it says, the join's (by default split.yaml) is used. *)
Theorem C61_joined_split_config_refuted r l a (f : refset -> string) :
  get_datasets (NJoin r (map (fun rn => (mkRef (r_split (fst rn)) (r_subflavor (fst rn)) (r_dataset_config (fst rn)) (f (fst rn)), snd rn)) l)) a =
  get_datasets (NJoin r l) a.
Proof.
  cbn [get_datasets]. rewrite map_map. match goal with |- bind (sequence ?x) _ = bind (sequence ?y) _ => replace x with y; [reflexivity|] end.
  apply map_ext. intros [r' n]. cbn [fst snd]. destruct n; reflexivity.
Qed.
Print Assumptions C61_joined_split_config_refuted.

Definition all_params : list string :=
  ["path"; "split_config"; "split_part"; "training"; "subflavor"; "worker_config"; "shuffle_over_epochs"; "sample_type"; "field_map";
   "parallel_shard_iters"; "max_samples_per_sequence"; "part_filter"; "handler"; "image_decode"].
Definition ds (name : string) (sets : kw) : dir :=
  mkDir name (fun f => if String.eqb f "dataset.yaml" then Some (mkFile sets all_params)
                       else if String.eqb f "dataset2.yaml" then Some (mkFile (("image_decode", VStr "pil") :: sets) all_params) else None).
Definition plain := mkRef None None "dataset.yaml" "split.yaml".

Example C61_joined_split_config_example : exists l1 l2 j,
  load (NFile [("train", NJoin plain [(mkRef None None "dataset.yaml" "split2.yaml", NDir (ds "a" [])); (plain, NDir (ds "b" []))])])
    true "train" [("max_samples_per_sequence", VNum 9)] [] = Ok [CJoin [l1; l2] j] /\
  kget "split_config" (lf_args l1) = Some (VStr "split.yaml").
Proof. eexists _, _, _. split; [vm_compute; reflexivity|reflexivity]. Qed.

(** What a joined dataset's own file says about reading (here max_samples_per_sequence) does not reach the join, which does the reading. *)
Theorem C61_join_file_settings_refuted : exists n l1 l2 jargs,
  load n true "train" [("max_samples_per_sequence", VNum 9)] [] = Ok [CJoin [l1; l2] jargs] /\
  kget "max_samples_per_sequence" (lf_args l1) = Some (VNum 3) /\ kget "max_samples_per_sequence" (lf_args l2) = Some (VNum 3) /\
  kget "max_samples_per_sequence" jargs = Some (VNum 9).
Proof.
  exists (NFile [("train", NJoin plain [(plain, NDir (ds "a" [("max_samples_per_sequence", VNum 3)])); (plain, NDir (ds "b" [("max_samples_per_sequence", VNum 3)]))])]).
  eexists _, _, _. split; [vm_compute; reflexivity|]. repeat split.
Qed.

(** An additional argument that every dataset accepts can be given for datasets and blends, but not if one of them is a join. *)
Theorem C61_join_extra_argument_refuted : exists blend join,
  (exists cs, load blend true "train" [("max_samples_per_sequence", VNum 9)] [("image_decode", VStr "pil")] = Ok cs) /\
  (exists cs, load join true "train" [("max_samples_per_sequence", VNum 9)] [] = Ok cs) /\
  load join true "train" [("max_samples_per_sequence", VNum 9)] [("image_decode", VStr "pil")] = Err TypeError.
Proof.
  exists (NFile [("train", NBlend [NRef plain (NDir (ds "a" [])); NRef plain (NDir (ds "b" []))])]),
    (NFile [("train", NBlend [NRef plain (NDir (ds "a" [])); NJoin plain [(plain, NDir (ds "a" [])); (plain, NDir (ds "b" []))]])]).
  split; [eexists; vm_compute; reflexivity|]. split; [eexists; vm_compute; reflexivity|]. vm_compute. reflexivity.
Qed.

(** shuffle_over_epochs is an argument of the dataset constructors but can never be given. *)
Theorem C61_shuffle_over_epochs_refuted n training sp extra user :
  In "shuffle_over_epochs" (map fst user) -> forall cs, load n training sp extra user <> Ok cs.
Proof.
  intros I cs. unfold load. cbn [split_kwargs].
  assert (E : existsb (one_of (["training"; "worker_config"; "shuffle_over_epochs"] ++ map fst extra))
                (map fst (filter (fun p : string * val => negb (one_of loader_names (fst p))) user)) = true).
  { apply existsb_exists. exists "shuffle_over_epochs". split; [|reflexivity]. apply (filter_names _ (fun k => negb (one_of loader_names k))). auto. }
  rewrite E. discriminate.
Qed.
Print Assumptions C61_shuffle_over_epochs_refuted.

(** To load the training split, the datasets of the other splits must be there as well. *)
Theorem C61_other_split_refuted : exists n ps,
  places "train" None n ps /\ Forall (loadable []) ps /\ load n true "train" [] [] = Err OtherError.
Proof.
  exists (NFile [("train", NBlend [NRef plain (NDir (ds "a" []))]); ("val", NBlend [NRef plain NMissing])]). eexists.
  split; [eapply pl_file; [reflexivity|]; constructor; eapply (@al_cons _ _ _ _ [_] []); [apply pl_dir|constructor]|].
  split; [|reflexivity]. constructor; [|constructor]. exists (mkFile [] all_params). split; [reflexivity|]. cbn [fl_sets fl_params map].
  split; [intros k []|]. split; [|intros k []]. intros k H. cbn [In] in H. unfold all_params. cbn [In]. tauto.
Qed.

(** ** The worker configuration of get_loader and get_savable_loader *)
(** The dataset's own is used; one with another rank, world size or number of workers is refused. *)
Theorem C61_loader_config ds given :
  match get_loader_config ds given with
  | Ok w => w = ds /\ forall w', given = Some (OConfig w') -> w_rank w' = w_rank ds /\ w_world w' = w_world ds /\ w_workers w' = w_workers ds
  | Err _ => exists w', given = Some (OConfig w') /\ ~ (w_rank w' = w_rank ds /\ w_world w' = w_world ds /\ w_workers w' = w_workers ds)
  end.
Proof.
  unfold get_loader_config. destruct given as [[w'|]|]; cbn [wcfg_eq].
  - destruct (_ && _) eqn:E.
    + apply andb_true_iff in E as [E E3]. apply andb_true_iff in E as [E1 E2]. apply Nat.eqb_eq in E1, E2, E3. split; [reflexivity|].
      intros w2 Q. injection Q as <-. auto.
    + exists w'. split; [reflexivity|]. intros (A & B & C). rewrite A, B, C, !Nat.eqb_refl in E. discriminate.
  - split; [reflexivity|]. intros w' Q. discriminate.
  - split; [reflexivity|]. intros w' Q. discriminate.
Qed.
Print Assumptions C61_loader_config.

(** Something that is not a worker configuration is accepted, and so is one with another seed (which has no effect). *)
Theorem C61_loader_config_refuted :
  (forall ds, get_loader_config ds (Some OOther) = Ok ds) /\
  (forall ds seed, get_loader_config ds (Some (OConfig (mkW (w_rank ds) (w_world ds) (w_workers ds) seed))) = Ok ds).
Proof.
  split; intros ds; [reflexivity|]. intros seed. unfold get_loader_config. cbn [wcfg_eq w_rank w_world w_workers]. now rewrite !Nat.eqb_refl.
Qed.
Print Assumptions C61_loader_config_refuted.

(** ** Examples *)
Definition nested : node :=
  NFile [("train", NBlend [NRef (mkRef (Some "all") (Some "x") "dataset.yaml" "split.yaml")
                             (NFile [("all", NBlend [NRef (mkRef None (Some "y") "dataset2.yaml" "split2.yaml") (NDir (ds "a" [("max_samples_per_sequence", VNum 3)]))])]);
                           NRef plain (NDir (ds "b" []))]);
         ("val", NRef plain (NDir (ds "b" [])))].
Example C61_nonvacuous : exists l1 l2,
  load nested true "train" [("max_samples_per_sequence", VNum 9)] [("parallel_shard_iters", VNum 4)] = Ok [CSingle l1; CSingle l2] /\
  map (fun k => kget k (lf_args l1)) ["split_part"; "split_config"; "subflavor"; "image_decode"; "max_samples_per_sequence"; "parallel_shard_iters"] =
    [Some (VStr "all"); Some (VStr "split2.yaml"); Some (VStr "x"); Some (VStr "pil"); Some (VNum 3); Some (VNum 4)] /\
  map (fun k => kget k (lf_args l2)) ["split_part"; "split_config"; "subflavor"; "image_decode"; "max_samples_per_sequence"; "parallel_shard_iters"] =
    [Some (VStr "train"); Some (VStr "split.yaml"); Some VNone; None; Some (VNum 9); Some (VNum 4)].
Proof. eexists _, _. split; [vm_compute; reflexivity|]. split; reflexivity. Qed.
Example C61_directory_nonvacuous : exists lf,
  load (NDir (ds "a" [])) false "val" [] [("split_config", VStr "s.yaml"); ("dataset_config", VStr "dataset2.yaml"); ("subflavor", VStr "z")] = Ok [CSingle lf] /\
  map (fun k => kget k (lf_args lf)) ["split_config"; "subflavor"; "image_decode"; "training"] = [Some (VStr "s.yaml"); Some (VStr "z"); Some (VStr "pil"); Some (VBool false)].
Proof. eexists. split; [vm_compute; reflexivity|reflexivity]. Qed.
