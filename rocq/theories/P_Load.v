(** C50: what the fields of a loaded sample are. *)
From Coq Require Import String.
From Verif Require Import Base Dataset DatasetProofs Wrap WrapProofs WrapSpec Wrappers MapModel Tar TarSpec FieldAccess P_FieldAccess P_Tar Load LoadProofs Joined Pipeline P_Pipeline.
Local Open Scope string_scope.
Local Open Scope list_scope.
Local Open Scope nat_scope.

(** *** Specification *)
(** the value at the first alternative of a field description that exists in the sample *)
Definition first_existing (v : value) (alts : list (list string)) (x : value) : Prop :=
  exists before p after, alts = before ++ p :: after /\ at_path v p x /\ forall q y, In q before -> ~ at_path v q y.
(** what the class itself gives to a field *)
Definition default_of (cls : dclass) (n : string) (v : value) : Prop := In (n, Default v) cls \/ In (n, Factory v) cls.

Section Load.
  Context {Dat : Type} (dec : string -> Dat -> option value) (str : string -> value) (rkval : string * nat -> value).
  Notation load := (load_sample dec str rkval).
  Notation decode := (decode dec str rkval).

  Lemma names_split m : names (split_map m) = names m.
  Proof. unfold names, split_map. rewrite map_map. reflexivity. Qed.

  (** Every field of a loaded sample has the value it should have: restore key and subflavors are those of the
      dataset, whatever the map says; a mapped field has the value found in the sample's files; the key is the
      sample's key; everything else has its default. *)
  Theorem C50_loaded_fields (cls : dclass) (m : list (string * string)) sf sfs (r : rsample Dat) i v :
    NoDup (names cls) -> NoDup (names m) -> decode r = Some v -> load cls m sf sfs r = Ok i ->
    names i = names cls /\
    forall n x, lookup n i = Some x <-> In n (names cls) /\
      ((n = "__restore_key__" /\ x = rkval (rs_rk r)) \/ (n = "__subflavor__" /\ x = sf) \/ (n = "__subflavors__" /\ x = sfs) \/
       (~ In n ["__restore_key__"; "__subflavor__"; "__subflavors__"] /\
        ((exists desc, In (n, desc) m /\ first_existing v (split_field_access desc) x) \/
         (~ In n (names m) /\ ((n = "__key__" /\ x = str (rs_key r)) \/ (n <> "__key__" /\ default_of cls n x)))))).
  Proof.
    intros NC NM HD H. unfold load_sample in H. rewrite HD in H. destruct (load_fields v (split_map m)) as [inner|] eqn:EL; [|discriminate]. cbn [bind] in H.
    split; [eapply construct_names; exact H|]. intros n x.
    assert (DD : In n (names cls) -> lookup n i = Some x -> True) by auto.
    destruct (in_dec String.string_dec n (names cls)) as [I|NI].
    2:{ split; [|tauto]. intros L. exfalso. apply NI. rewrite <- (construct_names H). apply lookup_Some_In in L. apply (in_map fst) in L. exact L. }
    rewrite (construct_field NC H I). rewrite !lookup_app. cbn [lookup].
    assert (NS : NoDup (names (split_map m))) by (rewrite names_split; exact NM).
    destruct (String.eqb_spec n "__restore_key__") as [->|N1]; [split; [intros [= <-]; auto|intros (_ & [(_ & ->)|[(E & _)|[(E & _)|(E & _)]]]); [reflexivity|discriminate|discriminate|exfalso; apply E; cbn; auto]]|].
    destruct (String.eqb_spec n "__subflavor__") as [->|N2]; [split; [intros [= <-]; auto|intros (_ & [(E & _)|[(_ & ->)|[(E & _)|(E & _)]]]); [discriminate|reflexivity|discriminate|exfalso; apply E; cbn; auto]]|].
    destruct (String.eqb_spec n "__subflavors__") as [->|N3]; [split; [intros [= <-]; auto 7|intros (_ & [(E & _)|[(E & _)|[(_ & ->)|(E & _)]]]); [discriminate|discriminate|reflexivity|exfalso; apply E; cbn; auto]]|].
    assert (NB : ~ In n ["__restore_key__"; "__subflavor__"; "__subflavors__"]) by (cbn; intuition congruence).
    rewrite (load_fields_lookup n NS EL).
    destruct (find (fun f => String.eqb n (fst f)) (split_map m)) as [[n' alts]|] eqn:EF.
    - apply find_some in EF. destruct EF as [IF E]. apply String.eqb_eq in E. cbn [fst] in E. subst n'.
      unfold split_map in IF. apply in_map_iff in IF. destruct IF as ([n0 desc] & E & IM). cbn [fst snd] in E. injection E as -> <-. cbn [snd].
      assert (UN : forall d, In (n, d) m -> d = desc).
      { intros d Id. clear - NM Id IM. induction m as [|[k y] m IH]; [destruct Id|]. inversion NM as [|? ? A B]; subst.
        destruct Id as [E|Id], IM as [E2|IM]; try congruence.
        - injection E as -> ->. exfalso. apply A. apply (in_map fst) in IM. exact IM.
        - injection E2 as -> ->. exfalso. apply A. apply (in_map fst) in Id. exact Id.
        - auto. }
      assert (AX : forall y, access v (split_field_access desc) = FOk y <-> first_existing v (split_field_access desc) y) by (intros; apply C44_first_alternative).
      assert (exists y, access v (split_field_access desc) = FOk y) as [y Ey].
      { apply load_fields_ok in EL. clear - EL IM. unfold split_map in EL. revert inner EL. induction m as [|[k d] m IH]; intros inner EL; [destruct IM|].
        inversion EL as [|? kx ? l' [_ E2] F]; subst. destruct IM as [E|IM]; [injection E as -> ->; eexists; exact E2|]. eapply IH; eauto. }
      rewrite Ey. split.
      + intros [= <-]. split; [exact I|]. do 3 right. split; [exact NB|]. left. exists desc. split; [exact IM|]. apply AX. exact Ey.
      + intros (_ & [(E & _)|[(E & _)|[(E & _)|(_ & [(d & Id & Hd)|(NM' & _)])]]]); try congruence.
        * rewrite (UN _ Id) in Hd. apply AX in Hd. congruence.
        * exfalso. apply NM'. apply (in_map fst) in IM. exact IM.
    - assert (NM' : ~ In n (names m)).
      { intros In_. rewrite <- names_split in In_. apply in_map_iff in In_. destruct In_ as (f & E & If). apply find_none with (x := f) in EF; [|exact If].
        rewrite E, String.eqb_refl in EF. discriminate. }
      destruct (String.eqb_spec n "__key__") as [->|NK].
      + split.
        * intros [= <-]. split; [exact I|]. do 3 right. split; [exact NB|]. right. split; [exact NM'|]. left. auto.
        * intros (_ & [(E & _)|[(E & _)|[(E & _)|(_ & [(d & Id & _)|(_ & [(_ & ->)|(E & _)])])]]]); try congruence; try reflexivity.
          exfalso. apply NM'. apply (in_map fst) in Id. exact Id.
      + assert (FD : forall y, match find (fun f => String.eqb n (fst f)) cls with Some (_, Default v) | Some (_, Factory v) => Some v | _ => None end = Some y <-> default_of cls n y).
        { intros y. unfold default_of. clear - NC I. induction cls as [|[k d] cls IH]; [destruct I|]. inversion NC as [|? ? A B]; subst. cbn [find fst].
          destruct (String.eqb_spec n k) as [->|NE].
          - assert (NI : forall d', ~ In (k, d') cls) by (intros d' Id; apply A; apply (in_map fst) in Id; exact Id).
            destruct d; split; try discriminate.
            + intros [[E|E]|[E|E]]; try discriminate; exfalso; eapply NI; exact E.
            + intros [= <-]. left. left. reflexivity.
            + intros [[E|E]|[E|E]]; try (injection E as ->; reflexivity); try discriminate; exfalso; eapply NI; exact E.
            + intros [= <-]. right. left. reflexivity.
            + intros [[E|E]|[E|E]]; try (injection E as ->; reflexivity); try discriminate; exfalso; eapply NI; exact E.
          - rewrite IH; [|exact B|destruct I; [cbn in *; congruence|assumption]]. cbn [In]. split; [tauto|]. intros [[E|E]|[E|E]]; try (injection E; congruence); auto. }
        rewrite FD. split.
        * intros Hd. split; [exact I|]. do 3 right. split; [exact NB|]. right. split; [exact NM'|]. right. auto.
        * intros (_ & [(E & _)|[(E & _)|[(E & _)|(_ & [(d & Id & _)|(_ & [(E & _)|(_ & Hd)])])]]]); try congruence; try exact Hd.
          exfalso. apply NM'. apply (in_map fst) in Id. exact Id.
  Qed.

  Lemma construct_succeeds cls kw : (exists i, construct cls kw = Ok i) <->
    (forall k, In k (names kw) -> In k (names cls)) /\ (forall n, In (n, Required) cls -> In n (names kw)).
  Proof.
    split.
    - intros [i H]. apply construct_ok in H. destruct H as [H1 H2]. split; [exact H1|]. intros n I.
      clear H1. revert i H2. induction cls as [|f cls IH]; intros i H2; [destruct I|]. destruct i as [|x i]; [discriminate|]. cbn [map] in H2. injection H2 as E H2.
      destruct I as [->|I]; [|eapply IH; eauto]. unfold field_value in E. cbn [fst snd] in E. destruct (lookup n kw) eqn:L; [|discriminate].
      apply lookup_Some_In in L. apply (in_map fst) in L. exact L.
    - intros [H1 H2]. assert (exists i, map (field_value kw) cls = map Some i) as [i Hi].
      { clear H1. induction cls as [|[n d] cls IH]; [exists []; reflexivity|]. destruct IH as [i Hi]; [intros; apply H2; right; assumption|].
        assert (exists x, field_value kw (n, d) = Some x) as [x Hx].
        { unfold field_value. cbn [fst snd]. destruct (lookup n kw) eqn:L; [eauto|]. destruct d; eauto. apply lookup_None in L. exfalso. apply L. apply H2. left. reflexivity. }
        exists (x :: i). cbn [map]. rewrite Hx, Hi. reflexivity. }
      exists i. apply construct_ok. auto.
  Qed.

  (** Loading succeeds exactly if the sample can be decoded, every mapped field is found in it, the class has all the
      fields it is given and every field without a default is given. *)
  Theorem C50_load_succeeds (cls : dclass) (m : list (string * string)) sf sfs (r : rsample Dat) :
    (exists i, load cls m sf sfs r = Ok i) <->
    (exists v, decode r = Some v /\ forall n desc, In (n, desc) m -> exists x, first_existing v (split_field_access desc) x) /\
    (forall n, In n (base_fields ++ names m) -> In n (names cls)) /\
    (forall n, In (n, Required) cls -> In n (base_fields ++ names m)).
  Proof.
    unfold load_sample. split.
    - intros [i H]. destruct (decode r) as [v|]; [|discriminate]. destruct (load_fields v (split_map m)) as [inner|] eqn:EL; [|discriminate]. cbn [bind] in H.
      assert (NI : names inner = names m) by (rewrite (load_fields_names EL); apply names_split).
      split; [|].
      + exists v. split; [reflexivity|]. intros n desc I. apply load_fields_ok in EL. clear - EL I.
        unfold split_map in EL. revert inner EL. induction m as [|[k d] m IH]; intros inner EL; [destruct I|].
        inversion EL as [|? kx ? l' [_ E2] F]; subst. destruct I as [E|I]; [injection E as -> ->; eexists; apply C44_first_alternative; exact E2|]. eapply IH; eauto.
      + assert (Q := proj1 (construct_succeeds _ _) (ex_intro _ i H)).
        unfold names in Q. rewrite !map_app in Q. fold (names inner) in Q. rewrite NI in Q. cbn [map fst] in Q.
        unfold base_fields. cbn [app]. destruct Q as [Q1 Q2]. cbn [app In] in *. split.
        * intros n Hn. apply Q1. rewrite in_app_iff. cbn [In]. intuition auto.
        * intros n Hn. specialize (Q2 n Hn). rewrite in_app_iff in Q2. cbn [In] in Q2. intuition auto.
    - intros ((v & -> & HX) & H1 & H2).
      assert (exists inner, load_fields v (split_map m) = Ok inner) as [inner EL].
      { clear - HX. induction m as [|[k d] m IH]; [exists []; reflexivity|]. destruct IH as [l Hl]; [intros; eapply HX; right; eassumption|].
        destruct (HX k d (or_introl eq_refl)) as [x Hx]. apply C44_first_alternative in Hx. exists ((k, x) :: l). cbn [split_map map fst snd load_fields]. rewrite Hx.
        unfold split_map in Hl. rewrite Hl. reflexivity. }
      rewrite EL. cbn [bind]. assert (NI : names inner = names m) by (rewrite (load_fields_names EL); apply names_split).
      apply construct_succeeds. unfold names. rewrite !map_app. fold (names inner). rewrite NI. cbn [map fst]. unfold base_fields in *. cbn [app In] in *. split.
      + intros n Hn. apply H1. rewrite in_app_iff in Hn. cbn [In] in Hn. intuition auto.
      + intros n Hn. specialize (H2 n Hn). rewrite in_app_iff. cbn [In]. intuition auto.
  Qed.

  (** ** reading only the parts that the map needs *)
  Lemma all_some_filter {X Y} (f : X -> option Y) (p : X -> bool) (q : Y -> bool) (l : list X) r :
    (forall x y, f x = Some y -> q y = p x) -> all_some (map f l) = Some r -> all_some (map f (filter p l)) = Some (filter q r).
  Proof.
    intros HQ. revert r. induction l as [|x l IH]; intros r; cbn [map all_some filter]; [intros [= <-]; reflexivity|].
    destruct (f x) as [y|] eqn:E; [|discriminate]. destruct (all_some (map f l)) as [r'|]; [|discriminate]. cbn [option_map]. intros [= <-].
    cbn [filter]. rewrite (HQ _ _ E). destruct (p x); [|apply IH; reflexivity]. cbn [map all_some]. rewrite E, (IH _ eq_refl). reflexivity.
  Qed.
  Lemma lookup_filter (q : string -> bool) k l : q k = true -> lookup k (filter (fun x => q (fst x)) l) = lookup k l.
  Proof.
    intros H. induction l as [|[k' v] l IH]; cbn [filter lookup fst]; [reflexivity|]. destruct (String.eqb_spec k k') as [<-|N].
    - rewrite H. cbn [lookup]. rewrite String.eqb_refl. reflexivity.
    - destruct (q k'); [cbn [lookup]; destruct (String.eqb_spec k k'); [congruence|exact IH]|exact IH].
  Qed.
  Lemma load_fields_ext v v' fields : (forall n alts, In (n, alts) fields -> access v alts = access v' alts) -> load_fields v fields = load_fields v' fields.
  Proof.
    induction fields as [|[k f] fields IH]; intros H; cbn [load_fields]; [reflexivity|]. rewrite (H k f) by (left; reflexivity). destruct (access v' f); [|reflexivity].
    rewrite IH; [reflexivity|]. intros; eapply H; right; eassumption.
  Qed.

  Definition with_parts (r : rsample Dat) (ps : list (string * Dat)) := mkRSam (rs_key r) (rs_rk r) ps.

  Lemma load_filtered cls m sf sfs (r : rsample Dat) v : decode r = Some v ->
    load cls m sf sfs (with_parts r (filter (fun x => map_filter m (fst x)) (rs_parts r))) = load cls m sf sfs r.
  Proof.
    intros HD. unfold load_sample. rewrite HD. unfold Load.decode in *.
    cbn [with_parts rs_parts rs_rk rs_key] in *.
    destruct (all_some _) as [ps|] eqn:E in HD; [|discriminate]. cbn [option_map] in HD. injection HD as <-.
    assert (EF := @all_some_filter _ _ (fun p : string * Dat => option_map (pair (fst p)) (dec (fst p) (snd p)))
              (fun x => map_filter m (fst x)) (fun y => map_filter m (fst y)) (rs_parts r) ps).
    rewrite EF; [|intros x y H; destruct (dec (fst x) (snd x)); [|discriminate]; injection H as <-; reflexivity|exact E].
    cbn [option_map]. rewrite (@load_fields_ext _ (VDict (ps ++ [("__key__", str (rs_key r)); ("__shard__", str (fst (rs_rk r))); ("__restore_key__", rkval (rs_rk r))]))); [reflexivity|].
    intros n alts I. apply access_dict.
    - intros f If. unfold split_map in I. apply in_map_iff in I. destruct I as (kf & Ek & _). injection Ek as _ <-. eapply split_nonempty; exact If.
    - intros p rest Ip. rewrite !lookup_app. rewrite lookup_filter; [reflexivity|]. unfold map_filter. apply existsb_exists. exists (n, alts). split; [exact I|].
      apply existsb_exists. exists (p :: rest). split; [exact Ip|]. apply String.eqb_refl.
  Qed.

  (** Only the parts that the field map mentions are read from the tar file; this cannot be noticed: the samples read
      from any sub-shard are in number, order, keys and loaded fields those that reading all parts would give, as
      long as these can be decoded (if a part that is not needed cannot be decoded, the filtered sample may still
      load). *)
  Theorem C50_part_filter_unnoticed cls m sf sfs (ms : list (member Dat)) name o c n :
    (forall x, In x ms -> 0 < m_size x) -> (Z.of_nat (tar_size ms) < 2 ^ 64)%Z -> o + c <= count_of ms ->
    exists l1 p1 l2 p2,
      read_from ms (index_file ms) (fun _ => false) (map_filter m) (mkShard name o c) 0 0 n = Ok (l1, p1) /\
      read_from ms (index_file ms) (fun _ => false) (fun _ => true) (mkShard name o c) 0 0 n = Ok (l2, p2) /\
      Forall2 (fun r1 r2 => rs_key r1 = rs_key r2 /\ rs_rk r1 = rs_rk r2 /\
                 (decode r2 <> None -> load cls m sf sfs r1 = load cls m sf sfs r2)) l1 l2.
  Proof.
    intros H1 H2 H3.
    destruct (@C17_subshard_read Dat ms (map_filter m) name o c n H1 H2 H3) as [p1 E1].
    destruct (@C17_subshard_read Dat ms (fun _ => true) name o c n H1 H2 H3) as [p2 E2].
    eexists _, p1, _, p2. split; [exact E1|]. split; [exact E2|]. clear E1 E2.
    generalize (firstn n (slice o (o + c) (archive_samples ms))) as gs. intros gs. generalize o as i.
    induction gs as [|g gs IH]; intros i; cbn [number]; constructor; [|apply IH]. split; [reflexivity|]. split; [reflexivity|]. intros HD.
    destruct (decode (expected name (fun _ => true) i g)) as [v|] eqn:ED; [|congruence].
    rewrite <- (load_filtered cls m sf sfs ED). f_equal. unfold expected, with_parts. cbn [rs_key rs_rk rs_parts]. rewrite (parts_of_filter (map_filter m)). reflexivity.
  Qed.

  (** ** the check of the field map *)
  (** The map is checked when the dataset is constructed: it may only mention fields of the class.  But it is not
      checked that it gives all fields without default (the condition in the code can never hold for any field):
      such a map is accepted, and then not a single sample can be loaded. *)
  Theorem C50_unknown_field_rejected cls m n : In n (names m) -> ~ In n (names cls) -> map_accepted cls m = false.
  Proof.
    intros I N. unfold map_accepted. apply andb_false_iff. left. apply Bool.not_true_iff_false. intros H. rewrite forallb_forall in H.
    apply N. apply mem_In. apply H. exact I.
  Qed.
  Theorem C50_missing_field_refuted cls m n : In (n, Required) cls -> ~ In n (base_fields ++ names m) ->
    (forall k, In k (names m) -> In k (names cls)) ->
    map_accepted cls m = true /\ forall sf sfs r i, load cls m sf sfs r <> Ok i.
  Proof.
    intros HR HN HK. split.
    - unfold map_accepted. apply andb_true_iff. split; [apply forallb_forall; intros k I; apply mem_In; auto|].
      replace (filter _ cls) with (@nil (string * fdefault)); [reflexivity|]. clear. induction cls as [|[k [|v|v]] cls IH]; cbn; auto.
    - intros sf sfs r i H. apply HN. apply (proj1 (C50_load_succeeds cls m sf sfs r) (ex_intro _ i H)). exact HR.
  Qed.
End Load.
Print Assumptions C50_loaded_fields.
Print Assumptions C50_load_succeeds.
Print Assumptions C50_part_filter_unnoticed.
Print Assumptions C50_unknown_field_rejected.
Print Assumptions C50_missing_field_refuted.

(** The errors of load_sample are logged and the samples skipped.  So a training dataset with such a map never yields
    anything and never ends: *)
Lemma map_failing_next {A B} nw (f : nat -> nat -> A -> ures B) (D : dataset A) w : (forall w i a, f w i a = UErr \/ f w i a = USkip) ->
  forall n (s : st (wrap (map_ds nw f) D)) a s', nextn w n s <> Some (Yield a, s').
Proof.
  intros HF n. induction n as [|n IH]; intros s a s' H; [discriminate|]. cbn [nextn] in H.
  destruct (ds_step (wrap (map_ds nw f) D) w (fst s) (snd s)) as [[o g] e] eqn:E.
  destruct e as [y| | |x]; try discriminate; [|eapply IH; exact H]. clear H.
  cbn [wrap ds_step] in E. unfold wrap_step in E. revert E. destruct s as [[lo io it] sg]. cbn [fst snd w_loc w_in w_it map_ds idx_ds t_act].
  destruct (ds_step D w io _) as [[o1 g1] e1]. destruct e1 as [y1| | |x1]; try (intros E; discriminate).
  destruct (HF w (nth w lo 0) (pl y1)) as [F|F]; rewrite F; intros E; discriminate.
Qed.

Theorem C50_missing_field_hangs_refuted {Dat} dec str rkval cls m sf sfs n nw (D : dataset (list (group Dat))) w l :
  In (n, Required) cls -> ~ In n (base_fields ++ names m) -> (forall k, In k (names m) -> In k (names cls)) ->
  w < nw -> training nw D ->
  let load := fun (_ _ : nat) (row : list (group Dat)) =>
    match row with [Some r] => match load_sample dec str rkval cls m sf sfs r with Ok i => UOk i | Err _ => UErr end | _ => UErr end in
  emits w (fresh (wrap (map_ds nw load) D)) l -> forall e, In e l -> exists x, e = Raise x.
Proof.
  intros HR HN HK Hw HT load E.
  assert (HL : forall w i a, load w i a = UErr \/ load w i a = USkip).
  { intros w0 i a. left. unfold load. destruct a as [|[r|] [|]]; try reflexivity. destruct (load_sample dec str rkval cls m sf sfs r) as [x|] eqn:EL; [|reflexivity].
    exfalso. eapply (proj2 (@C50_missing_field_refuted Dat dec str rkval cls m n HR HN HK)). exact EL. }
  assert (EN : endless (wrap (map_ds nw load) D) true nw) by (apply C45_pipeline_resumes; apply tr_map; exact HT).
  inversion E as [|? a s' ? N E'|? s' ? N E'|? x s' N]; subst; intros e I; [destruct I| | |].
  - destruct N as [k N]. exfalso. eapply map_failing_next; eauto.
  - exfalso. eapply EN; eauto. apply r_init.
  - destruct I as [<-|[]]. eauto.
Qed.
Print Assumptions C50_missing_field_hangs_refuted.

(** ** joining samples *)
(** the last sample of the list that has a field *)
Definition last_with (n : string) (args : list (option instance)) (x : value) : Prop :=
  exists before a after, args = before ++ Some a :: after /\ lookup n a = Some x /\
    forall b, In (Some b) after -> lookup n b = None.

Lemma lookup_fold_put (a : instance) n d : NoDup (names a) ->
  lookup n (fold_left (fun d f => dict_put (fst f) (snd f) d) a d) = match lookup n a with Some v => Some v | None => lookup n d end.
Proof.
  revert d. induction a as [|[k v] a IH]; intros d ND; cbn [fold_left fst snd]; [reflexivity|]. inversion ND as [|? ? N1 N2]; subst.
  rewrite IH by exact N2. cbn [dict_put lookup]. destruct (String.eqb_spec n k) as [->|NE]; [|reflexivity].
  apply lookup_None in N1. cbn [fst] in N1. rewrite N1. reflexivity.
Qed.
Lemma lookup_fold_put_base (a : instance) n d : NoDup (names a) ->
  lookup n (fold_left (fun d f => if mem (fst f) base_fields then d else dict_put (fst f) (snd f) d) a d) =
  if mem n base_fields then lookup n d else match lookup n a with Some v => Some v | None => lookup n d end.
Proof.
  revert d. induction a as [|[k v] a IH]; intros d ND; cbn [fold_left fst snd]; [destruct (mem n base_fields); reflexivity|]. inversion ND as [|? ? N1 N2]; subst.
  rewrite IH by exact N2. cbn [lookup]. destruct (mem n base_fields) eqn:EB.
  - destruct (mem k base_fields) eqn:EK; [reflexivity|]. cbn [dict_put lookup]. destruct (String.eqb_spec n k); [congruence|reflexivity].
  - destruct (String.eqb_spec n k) as [->|NE].
    + apply lookup_None in N1. cbn [fst] in N1. rewrite N1, EB. cbn [dict_put lookup]. rewrite String.eqb_refl. reflexivity.
    + destruct (lookup n a); [reflexivity|]. destruct (mem k base_fields); [reflexivity|]. cbn [dict_put lookup]. destruct (String.eqb_spec n k); [congruence|reflexivity].
Qed.

Fixpoint lastv (n : string) (args : list (option instance)) : option value :=
  match args with
  | [] => None
  | a :: rest => match lastv n rest with Some v => Some v | None => match a with Some i => lookup n i | None => None end end
  end.
Lemma lastv_None n args : lastv n args = None <-> forall b, In (Some b) args -> lookup n b = None.
Proof.
  induction args as [|a args IH]; cbn [lastv]; [split; [intros _ b []|reflexivity]|]. destruct (lastv n args) as [v|] eqn:E.
  - split; [discriminate|]. intros H. assert (Q : forall b, In (Some b) args -> lookup n b = None) by (intros; apply H; right; assumption). apply IH in Q. discriminate.
  - split.
    + intros H b [->|I]; [exact H|apply IH; auto].
    + intros H. destruct a as [i|]; [|reflexivity]. apply H. left. reflexivity.
Qed.
Lemma lastv_spec n args x : lastv n args = Some x <-> last_with n args x.
Proof.
  split.
  - induction args as [|a args IH]; cbn [lastv]; [discriminate|]. destruct (lastv n args) as [v|] eqn:E.
    + intros [= ->]. destruct (IH eq_refl) as (b & i & c & -> & H1 & H2). exists (a :: b), i, c. auto.
    + destruct a as [i|]; [|discriminate]. intros H. exists [], i, args. split; [reflexivity|]. split; [exact H|]. apply lastv_None. exact E.
  - intros (b & i & c & -> & H1 & H2). induction b as [|a b IH]; cbn [app lastv].
    + replace (lastv n c) with (@None value) by (symmetry; apply lastv_None; exact H2). exact H1.
    + rewrite IH. reflexivity.
Qed.
Lemma join_lookup n args d : Forall (fun a => forall i, a = Some i -> NoDup (names i)) args ->
  lookup n (fold_left (fun d arg => match arg with
                          | None => d
                          | Some a => fold_left (fun d f => if mem (fst f) base_fields then d else dict_put (fst f) (snd f) d) a d
                          end) args d) =
  if mem n base_fields then lookup n d else match lastv n args with Some v => Some v | None => lookup n d end.
Proof.
  intros F. revert d. induction F as [|a args HA F IH]; intros d; cbn [fold_left lastv]; [destruct (mem n base_fields); reflexivity|].
  rewrite IH. destruct a as [i|]; [|destruct (mem n base_fields); [reflexivity|]; destruct (lastv n args); reflexivity].
  rewrite lookup_fold_put_base by (apply HA; reflexivity). destruct (mem n base_fields); [reflexivity|]. destruct (lastv n args); reflexivity.
Qed.
Lemma default_spec (cls : dclass) n y : NoDup (names cls) -> In n (names cls) ->
  (match find (fun f => String.eqb n (fst f)) cls with Some (_, Default v) | Some (_, Factory v) => Some v | _ => None end = Some y <-> default_of cls n y).
Proof.
  intros NC I. unfold default_of. induction cls as [|[k d] cls IH]; [destruct I|]. inversion NC as [|? ? A B]; subst. cbn [find fst].
  destruct (String.eqb_spec n k) as [->|NE].
  - assert (NI : forall d', ~ In (k, d') cls) by (intros d' Id; apply A; apply (in_map fst) in Id; exact Id).
    destruct d; split; try discriminate.
    + intros [[E|E]|[E|E]]; try discriminate; exfalso; eapply NI; exact E.
    + intros [= <-]. left. left. reflexivity.
    + intros [[E|E]|[E|E]]; try (injection E as ->; reflexivity); try discriminate; exfalso; eapply NI; exact E.
    + intros [= <-]. right. left. reflexivity.
    + intros [[E|E]|[E|E]]; try (injection E as ->; reflexivity); try discriminate; exfalso; eapply NI; exact E.
  - rewrite IH; [|exact B|destruct I; [cbn in *; congruence|assumption]]. cbn [In]. split; [tauto|]. intros [[E|E]|[E|E]]; try (injection E; congruence); auto.
Qed.

(** The joined sample takes key, restore key and subflavors from the first sample, and every other field from the
    last sample that has it; fields in no sample get the defaults of the class. *)
Theorem C50_joined_fields cls primary args j :
  NoDup (names cls) -> Forall (fun a => forall i, a = Some i -> NoDup (names i)) (Some primary :: args) ->
  from_joined cls (Some primary :: args) = Ok j ->
  names j = names cls /\
  forall n x, lookup n j = Some x <-> In n (names cls) /\
    ((In n base_fields /\ lookup n primary = Some x) \/
     (~ In n base_fields /\ last_with n (Some primary :: args) x) \/
     ((forall i, In (Some i) (if mem n base_fields then [Some primary] else Some primary :: args) -> lookup n i = None) /\ default_of cls n x)).
Proof.
  intros NC F H. cbn [from_joined] in H. split; [eapply construct_names; exact H|]. intros n x.
  destruct (in_dec String.string_dec n (names cls)) as [I|NI].
  2:{ split; [|tauto]. intros L. exfalso. apply NI. rewrite <- (construct_names H). apply lookup_Some_In in L. apply (in_map fst) in L. exact L. }
  rewrite (construct_field NC H I). unfold join_args. rewrite join_lookup by exact F.
  inversion F as [|? ? NP _]; subst. rewrite lookup_fold_put by (apply NP; reflexivity). cbn [lookup].
  destruct (mem n base_fields) eqn:EB.
  - assert (IB : In n base_fields) by (apply mem_In; exact EB). destruct (lookup n primary) as [v|] eqn:EP.
    + split; [intros [= <-]; auto|]. intros (_ & [(_ & E)|[(N & _)|(N & _)]]); [congruence|contradiction|].
      exfalso. specialize (N primary (or_introl eq_refl)). congruence.
    + rewrite default_spec by assumption. split.
      * intros HD. split; [exact I|]. right. right. split; [|exact HD]. intros i [E|[]]. injection E as <-. exact EP.
      * intros (_ & [(_ & E)|[(N & _)|(_ & HD)]]); [congruence|contradiction|exact HD].
  - assert (IB : ~ In n base_fields) by (rewrite <- mem_In, EB; discriminate).
    destruct (lastv n (Some primary :: args)) as [v|] eqn:EL.
    + pose proof EL as EL2. apply lastv_spec in EL. split; [intros [= <-]; auto|]. intros (_ & [(N & _)|[(_ & L)|(N & _)]]); [contradiction| |].
      * apply lastv_spec in L. congruence.
      * apply lastv_None in N. congruence.
    + assert (EP : lookup n primary = None) by (apply lastv_None with (b := primary) in EL; [exact EL|left; reflexivity]). rewrite EP.
      rewrite default_spec by assumption. split.
      * intros HD. split; [exact I|]. right. right. split; [|exact HD]. apply lastv_None. exact EL.
      * intros (_ & [(N & _)|[(_ & L)|(_ & HD)]]); [contradiction| |exact HD]. apply lastv_spec in L. congruence.
Qed.
Print Assumptions C50_joined_fields.

(** The first dataset of a join must have given a sample (the others need not), or no joined sample is made. *)
Theorem C50_join_needs_primary cls args : args <> [] ->
  (hd_error args = Some None <-> from_joined cls args = Err AssertionError) /\
  (forall j, from_joined cls args = Ok j -> exists primary rest, args = Some primary :: rest).
Proof.
  intros NE. destruct args as [|[p|] rest]; [congruence| |].
  - split; [|intros; eauto]. split; [discriminate|]. intros H. exfalso. cbn [from_joined] in H. unfold construct in H.
    repeat match type of H with context [if ?b then _ else _] => destruct b | context [match ?b with Some _ => _ | None => _ end] => destruct b end; discriminate.
  - split; [|intros j H; discriminate]. split; reflexivity.
Qed.
Print Assumptions C50_join_needs_primary.

(** derive_from keeps the metadata of the base sample; extend keeps all fields that are not given *)
Theorem C50_derive_keeps_metadata cls base kwargs i : NoDup (names cls) -> derive_from cls base kwargs = Ok i ->
  (forall n, In n base_fields -> lookup n i = lookup n base /\ lookup n base <> None) /\
  (forall n, ~ In n base_fields -> In n (names kwargs) -> lookup n i = lookup n kwargs).
Proof.
  intros NC H. unfold derive_from in H. destruct (all_some _) as [b|] eqn:EB; [|discriminate].
  destruct (existsb _ (names kwargs)) eqn:EX; [discriminate|].
  assert (LB : forall n, lookup n b = if mem n base_fields then lookup n base else None).
  { intros n. apply all_some_spec in EB. revert EB. unfold base_fields. cbn [map]. intros EB.
    repeat match type of EB with option_map _ (lookup ?k base) :: _ = _ => destruct (lookup k base) eqn:?; [|destruct b; discriminate];
       destruct b as [|? b]; [discriminate|]; cbn [map option_map] in EB; injection EB as <- EB end.
    destruct b; [|discriminate]. unfold mem. cbn [existsb lookup].
    repeat (match goal with |- context [String.eqb n ?k] => destruct (String.eqb_spec n k); [subst; cbn [orb]; congruence|cbn [orb]] end). reflexivity. }
  pose proof H as H0. apply construct_ok in H0. destruct H0 as [HK _].
  assert (IC : forall n, lookup n (b ++ kwargs) <> None -> In n (names cls)).
  { intros n L. apply HK. destruct (lookup n (b ++ kwargs)) eqn:E; [|congruence]. apply lookup_Some_In in E. apply (in_map fst) in E. exact E. }
  assert (BN : forall n, In n base_fields -> lookup n base <> None).
  { intros n I. apply all_some_spec in EB. assert (IM : In (option_map (pair n) (lookup n base)) (map Some b)) by (rewrite <- EB; apply in_map_iff; eauto).
    apply in_map_iff in IM. destruct IM as (? & E & _). intros N. rewrite N in E. discriminate. }
  split.
  - intros n I. assert (M : mem n base_fields = true) by (apply mem_In; exact I).
    assert (L : lookup n (b ++ kwargs) = lookup n base).
    { rewrite lookup_app, LB, M. specialize (BN n I). destruct (lookup n base); [reflexivity|congruence]. }
    split; [|apply BN; exact I]. rewrite (construct_field NC H); [|apply IC; rewrite L; apply BN; exact I]. rewrite L. specialize (BN n I). destruct (lookup n base); [reflexivity|congruence].
  - intros n NI I. assert (M : mem n base_fields = false) by (rewrite <- Bool.not_true_iff_false, mem_In; exact NI).
    assert (LN : lookup n kwargs <> None) by (intros N; apply lookup_None in N; contradiction).
    assert (L : lookup n (b ++ kwargs) = lookup n kwargs) by (rewrite lookup_app, LB, M; reflexivity).
    rewrite (construct_field NC H); [|apply IC; rewrite L; exact LN]. rewrite L. destruct (lookup n kwargs); [reflexivity|congruence].
Qed.
Theorem C50_extend_keeps_fields cls src kwargs i n : NoDup (names cls) -> extend cls src kwargs = Ok i ->
  (In n (names kwargs) -> lookup n i = lookup n kwargs) /\ (In n (names src) -> ~ In n (names kwargs) -> lookup n i = lookup n src).
Proof.
  intros NC H. unfold extend in H. destruct (negb _) eqn:EN; [discriminate|]. apply negb_false_iff in EN. rewrite forallb_forall in EN.
  pose proof H as H0. apply construct_ok in H0. destruct H0 as [HK _].
  assert (NN : forall l, In n (names l) -> exists v, lookup n l = Some v).
  { intros l I. destruct (lookup n l) eqn:E; [eauto|]. apply lookup_None in E. contradiction. }
  split.
  - intros I. destruct (NN _ I) as [v L]. rewrite (construct_field NC H); [rewrite lookup_app, L; reflexivity|]. apply HK. unfold names. rewrite map_app. apply in_or_app. left. exact I.
  - intros I NK. destruct (NN _ I) as [v L]. rewrite (construct_field NC H); [|apply HK; unfold names; rewrite map_app; apply in_or_app; right; exact I].
    rewrite lookup_app. apply lookup_None in NK. rewrite NK, L. reflexivity.
Qed.
Print Assumptions C50_derive_keeps_metadata.
Print Assumptions C50_extend_keeps_fields.

(** an example *)
Definition sample_cls (more : dclass) : dclass := map (fun n => (n, Required)) base_fields ++ more.
Definition ex_cls : dclass := sample_cls [("image", Required); ("caption", Required); ("tag", Default (VLit 9))].
Definition ex_sample : rsample nat := mkRSam "a.tar/x" ("a.tar", 3) [("jpg", 1); ("json", 2); ("txt", 5)].
Definition ex_dec (ext : string) (d : nat) : option value :=
  if String.eqb ext "json" then Some (VDict [("texts", VList [VLit 20; VLit 21])]) else Some (VLit d).
Example C50_nonvacuous :
  let m := [("image", "png,jpg"); ("caption", "json[texts][1]")] in
  map_accepted ex_cls m = true /\ map_filter m "jpg" = true /\ map_filter m "txt" = false /\
  load_sample ex_dec (fun _ => VLit 77) (fun r => VLit (snd r)) ex_cls m (VLit 0) (VDict []) ex_sample =
    Ok [("__key__", VLit 77); ("__restore_key__", VLit 3); ("__subflavor__", VLit 0); ("__subflavors__", VDict []); ("image", VLit 1); ("caption", VLit 21); ("tag", VLit 9)] /\
  map_accepted ex_cls [("image", "jpg")] = true /\ NoDup (names ex_cls).
Proof.
  cbn zeta. split; [reflexivity|]. split; [reflexivity|]. split; [reflexivity|]. split; [reflexivity|]. split; [reflexivity|].
  repeat constructor; cbn; intuition discriminate.
Qed.
