(** Lemmas about Config.v. *)
From Coq Require Import String QArith.
From Verif Require Import Base Dataset Wrap WrapSpec Rng Sharder SampleLoader Wrappers MapModel Batch GroupBatch Packing IterMap ShuffleBuffer Blend Concat
  TaskEncoder Config ConfigSpec.
Local Close Scope Q_scope.
Local Close Scope Z_scope.
Local Open Scope nat_scope.

Scheme ss_ind := Induction for same_settings Sort Prop
  with sa_ind := Induction for same_all Sort Prop
  with sw_ind := Induction for same_weighted Sort Prop.

(** induction over nested pipes *)
Section PipeInd.
  Variable P : pipe -> Prop.
  Hypothesis (Hload : forall a b c d e f g, P (PLoad a b c d e f g))
    (Hmap : forall a b c e d, P d -> P (PMap a b c e d))
    (Hiter : forall a b c e f d, P d -> P (PIterMap a b c e f d))
    (Hfilter : forall a b d, P d -> P (PFilter a b d))
    (Hshuffle : forall a d, P d -> P (PShuffle a d))
    (Hbatch : forall a b c e f g d, P d -> P (PBatch a b c e f g d))
    (Hgroup : forall a b c e f g h d, P d -> P (PGroup a b c e f g h d))
    (Hpack : forall a b c e f g d, P d -> P (PPack a b c e f g d))
    (Hrepeat : forall a d, P d -> P (PRepeat a d))
    (Hepochize : forall a d, P d -> P (PEpochize a d))
    (Hlimit : forall a b d, P d -> P (PLimit a b d))
    (Hblend : forall ds, Forall (fun dw => P (fst dw)) ds -> P (PBlend ds))
    (Hconcat : forall ds, Forall P ds -> P (PConcat ds))
    (Hgc : forall a d, P d -> P (PGc a d))
    (Hlog : forall a d, P d -> P (PLog a d)).
  Fixpoint pipe_ind' (p : pipe) : P p :=
    match p with
    | PLoad a b c d e f g => Hload a b c d e f g
    | PMap a b c e d => Hmap a b c e (pipe_ind' d)
    | PIterMap a b c e f d => Hiter a b c e f (pipe_ind' d)
    | PFilter a b d => Hfilter a b (pipe_ind' d)
    | PShuffle a d => Hshuffle a (pipe_ind' d)
    | PBatch a b c e f g d => Hbatch a b c e f g (pipe_ind' d)
    | PGroup a b c e f g h d => Hgroup a b c e f g h (pipe_ind' d)
    | PPack a b c e f g d => Hpack a b c e f g (pipe_ind' d)
    | PRepeat a d => Hrepeat a (pipe_ind' d)
    | PEpochize a d => Hepochize a (pipe_ind' d)
    | PLimit a b d => Hlimit a b (pipe_ind' d)
    | PBlend ds => Hblend ((fix go l : Forall (fun dw => P (fst dw)) l :=
                              match l with [] => Forall_nil _ | x :: l' => Forall_cons _ (pipe_ind' (fst x)) (go l') end) ds)
    | PConcat ds => Hconcat ((fix go l : Forall P l :=
                                match l with [] => Forall_nil _ | x :: l' => Forall_cons _ (pipe_ind' x) (go l') end) ds)
    | PGc a d => Hgc a (pipe_ind' d)
    | PLog a d => Hlog a (pipe_ind' d)
    end.
End PipeInd.

Lemma cfg_entry_eq k a : cfg_entry k a = match described a with Some c => [(k, c)] | None => [] end.
Proof. destruct a as [|c|c]; cbn; try reflexivity. destruct (truthy c); reflexivity. Qed.

Lemma cfg_split k a b r r' : length r = length r' -> cfg_entry k a ++ r = cfg_entry k b ++ r' -> described a = described b /\ r = r'.
Proof.
  intros HL. rewrite !cfg_entry_eq. destruct (described a) as [c|], (described b) as [c'|]; cbn; intros H.
  - injection H as -> ->. auto.
  - exfalso. apply (f_equal (@List.length _)) in H. cbn in H. lia.
  - exfalso. apply (f_equal (@List.length _)) in H. cbn in H. lia.
  - auto.
Qed.

Lemma cnat_inj a b : cnat a = cnat b -> a = b.
Proof. unfold cnat. intros H. injection H as H. lia. Qed.

Lemma map_inj {A B} (f : A -> B) : (forall x y, f x = f y -> x = y) -> forall l l', map f l = map f l' -> l = l'.
Proof.
  intros Hf l. induction l as [|x l IH]; intros [|y l'] H; cbn in H; try discriminate; auto.
  injection H as H1 H2. f_equal; auto.
Qed.

Lemma copt_int_inj (a b : option Z) : copt (option_map CInt a) = copt (option_map CInt b) -> a = b.
Proof. destruct a, b; cbn; intros H; try discriminate; auto. injection H as ->. reflexivity. Qed.
Lemma copt_nat_inj (a b : option nat) : copt (option_map cnat a) = copt (option_map cnat b) -> a = b.
Proof. destruct a, b; cbn; intros H; try discriminate; auto. f_equal. apply cnat_inj. exact H. Qed.

Lemma shard_config_inj a b : shard_config a = shard_config b -> a = b.
Proof.
  destruct a as [[n o c] p bo bs], b as [[n' o' c'] p' bo' bs']. unfold shard_config.
  cbn [cs_info cs_path cs_boff cs_bsize sh_name sh_offset sh_count]. intros H.
  injection H as H1 H2 H3 H4 H5 H6. apply Nat2Z.inj in H1. apply copt_int_inj in H5. apply copt_int_inj in H6. subst. reflexivity.
Qed.
Lemma subshards_config_inj a b : subshards_config a = subshards_config b -> a = b.
Proof.
  destruct a as [x xs], b as [y ys]. unfold subshards_config. cbn [fst snd map]. intros H.
  assert (HH : shard_config x = shard_config y /\ map shard_config xs = map shard_config ys)
    by (injection H; intros; split; [congruence|assumption]).
  destruct HH as [H1 H2]. apply shard_config_inj in H1. apply (map_inj shard_config_inj) in H2. congruence.
Qed.
Lemma shards_config_inj a b :
  map (fun ws => CList (map subshards_config ws)) a = map (fun ws => CList (map subshards_config ws)) b -> a = b.
Proof.
  apply map_inj. intros x y H. injection H as H. apply (map_inj subshards_config_inj H).
Qed.
Lemma shuffle_config_inj a b : shuffle_config a = shuffle_config b -> a = b.
Proof. destruct a, b; cbn; intros H; try discriminate; auto; injection H as H; try lia. f_equal. lia. Qed.

Lemma worker_config_inj a b : worker_config a = worker_config b -> same_workers a b.
Proof.
  unfold worker_config, same_workers. intros H. injection H as H1 H2 H3 H4.
  repeat split; try lia. destruct (wc_group a) as [[i n]|], (wc_group b) as [[j m]|]; cbn in *; try discriminate; auto.
  injection H4 as H4. f_equal. lia.
Qed.
Lemma worker_config_eq a b : same_workers a b -> worker_config a = worker_config b.
Proof.
  unfold worker_config, same_workers. intros (-> & -> & -> & H). do 3 f_equal.
  destruct (wc_group a) as [[i n]|], (wc_group b) as [[j m]|]; cbn in *; try discriminate; auto. injection H as ->. reflexivity.
Qed.

(** equal dicts, item by item *)
Lemma dict_inj l l' : CDict l = CDict l' -> l = l'.
Proof. intros H. injection H as H. exact H. Qed.
Lemma item_inj (k k' : string) (v v' : conf) l l' : (k, v) :: l = (k', v') :: l' -> k = k' /\ v = v' /\ l = l'.
Proof. intros H. injection H as H1 H2 H3. auto. Qed.

Ltac items H :=
  match type of H with
  | cons ?x _ = cons ?y _ => let H1 := fresh "K" in let H2 := fresh "I" in apply item_inj in H; destruct H as (H1 & H2 & H); items H
  | _ => idtac
  end.
Ltac unbox :=
  repeat match goal with
  | H : CStr _ = CStr _ |- _ => injection H as H
  | H : CBool _ = CBool _ |- _ => injection H as H
  | H : cnat _ = cnat _ |- _ => apply cnat_inj in H
  | H : copt (option_map cnat _) = copt (option_map cnat _) |- _ => apply copt_nat_inj in H
  end.
Ltac open_dict H := cbn [config] in H; apply dict_inj in H; cbn [app] in H.
Ltac clash H := exfalso; open_dict H; apply item_inj in H; destruct H as (_ & H & _); discriminate H.

Section Inj.
  Variables (wc wc' : wconf).

  Lemma config_same p : forall q, config wc p = config wc' q -> same_settings p q.
  Proof.
    induction p using pipe_ind'; intros q HC;
      try (cbn [config] in HC; constructor; apply IHp; exact HC).
    all: induction q using pipe_ind'; try (clash HC); try (cbn [config] in HC; constructor; apply IHq; exact HC).
    - open_dict HC. items HC. unbox. injection I0 as I0. injection I2 as I2.
      apply shards_config_inj in I0. apply (map_inj (f := CStr)) in I2; [|intros x y E; injection E; auto].
      apply shuffle_config_inj in I4. subst. constructor.
    - open_dict HC. items HC. apply cfg_split in HC; [|reflexivity]. destruct HC as [HD HC]. items HC. unbox. subst. constructor; auto.
    - open_dict HC. items HC. apply cfg_split in HC; [|reflexivity]. destruct HC as [HD HC]. items HC. unbox. subst. constructor; auto.
    - open_dict HC. items HC. rewrite <- (app_nil_r (cfg_entry _ b)), <- (app_nil_r (cfg_entry _ b0)) in HC.
      apply cfg_split in HC; [|reflexivity]. destruct HC as [HD HC]. unbox. subst. constructor; auto.
    - open_dict HC. items HC. unbox. subst. constructor; auto.
    - open_dict HC. items HC. apply cfg_split in HC; [|reflexivity]. destruct HC as [HD HC]. items HC. unbox. subst. constructor; auto.
    - open_dict HC. items HC. apply cfg_split in HC; [|reflexivity]. destruct HC as [HD HC]. items HC. unbox. subst. constructor; auto.
    - open_dict HC. items HC. apply cfg_split in HC; [|reflexivity]. destruct HC as [HD HC]. items HC. unbox. subst. constructor; auto.
    - open_dict HC. items HC. unbox. subst. constructor; auto.
    - open_dict HC. items HC. unbox. subst. constructor; auto.
    - open_dict HC. items HC. unbox. subst. constructor; auto.
    - open_dict HC. items HC. injection I0 as I0. clear HC K K0 K1 I I1 H0. constructor. revert ds0 I0.
      induction H as [|[d x] ds Hd _ IH]; intros [|[d' x'] ds'] HE; cbn in HE; try discriminate; [constructor|].
      injection HE as H1 H2 H3. subst. constructor; auto.
    - open_dict HC. items HC. injection I0 as I0. clear HC K K0 I H0. constructor. revert ds0 I0.
      induction H as [|d ds Hd _ IH]; intros [|d' ds'] HE; cbn in HE; try discriminate; [constructor|].
      injection HE as H1 H2. constructor; auto.
  Qed.

  Lemma same_config p q : same_workers wc wc' -> same_settings p q -> config wc p = config wc' q.
  Proof.
    intros HW HS. apply worker_config_eq in HW.
    induction HS using ss_ind with
      (P0 := fun l l' _ => map (config wc) l = map (config wc') l')
      (P1 := fun l l' _ => map (fun dw => CList [config wc (fst dw); CFloat (snd dw)]) l =
                           map (fun dw => CList [config wc' (fst dw); CFloat (snd dw)]) l');
      cbn [config map fst snd]; rewrite ?cfg_entry_eq; repeat match goal with H : _ = _ |- _ => rewrite H; clear H end; try reflexivity.
  Qed.

  Lemma config_workers p : reads p -> forall q, config wc p = config wc' q -> same_workers wc wc'.
  Proof.
    induction p using pipe_ind'; intros HR q HC;
      try (cbn [config reads] in HC, HR; exact (IHp HR q HC)).
    all: induction q using pipe_ind'; try (clash HC); try (cbn [config] in HC; exact (IHq HC)).
    all: try (open_dict HC; items HC; match goal with H : config _ _ = config _ _ |- _ => exact (IHp HR _ H) end).
    all: try (open_dict HC; items HC; match goal with H : worker_config _ = worker_config _ |- _ => exact (worker_config_inj H) end).
    all: try (open_dict HC; items HC; apply cfg_split in HC; [|reflexivity]; destruct HC as [HD HC]; items HC;
              match goal with H : worker_config _ = worker_config _ |- _ => exact (worker_config_inj H) end).
    open_dict HC. items HC. cbn [reads] in HR. destruct ds as [|d ds]; [contradiction|]. destruct ds0 as [|d' ds']; [discriminate|].
    cbn [map] in I0. inversion H; subst. eapply H3; [exact HR|]. injection I0 as I0. exact I0.
  Qed.
End Inj.
