(** Property C71: the types given to a DefaultTaskEncoder, and pinning of batches, change the type (the memory) of the data and
    nothing else. *)
From Coq Require Import String Ascii.
From Verif Require Import Base Convert.
Local Open Scope string_scope.
Local Open Scope list_scope.
Local Open Scope nat_scope.

(** ** Specification *)
(** the value of a field (dict entry) *)
Definition field (v : val) (n : string) : option val := match v with VObj _ fs => get n fs | _ => None end.
Definition field_names (v : val) : list string := match v with VObj _ fs => map fst fs | _ => [] end.
(** the parameters of a class's constructor *)
Definition param (c : cls) (n : string) : Prop := exists d, In d (c_fields c) /\ fd_name d = n /\ fd_init d = true.
Definition declared (c : cls) (n : string) : Prop := exists d, In d (c_fields c) /\ fd_name d = n.
Definition underscore (s : string) : bool := match s with String "_"%char _ => true | _ => false end.
(** what Python guarantees of classes: different names; a namedtuple has no other fields than its parameters, and none of
    them starts with an underscore *)
Definition proper_cls (c : cls) : Prop :=
  NoDup (map fd_name (c_fields c)) /\ In (c_name c) (c_mro c) /\
  (c_kind c = KNamed -> Forall (fun d => fd_init d = true /\ underscore (fd_name d) = false) (c_fields c)).
(** ... and of objects: different names; an instance has exactly the fields of its class *)
Definition proper_obj (v : val) : Prop :=
  match v with
  | VObj c fs => proper_cls c /\ NoDup (map fst fs) /\ (c_kind c = KData \/ c_kind c = KNamed -> map fst fs = map fd_name (c_fields c))
  | _ => True
  end.
Definition has_fields (v : val) : Prop := exists c fs, v = VObj c fs /\ (c_kind c = KDict \/ c_kind c = KData \/ c_kind c = KNamed).

Lemma get_None n l : get n l = None <-> ~ In n (map fst l).
Proof.
  induction l as [|[k x] l IH]; cbn; [tauto|]. destruct (String.eqb_spec n k); [subst; split; [discriminate|tauto]|]. rewrite IH. intuition congruence.
Qed.
Lemma get_In n x l : get n l = Some x -> In (n, x) l.
Proof. induction l as [|[k y] l IH]; cbn; [discriminate|]. destruct (String.eqb_spec n k); [intros [= <-]; subst; auto|auto]. Qed.

Section C71.
  Variable dflt : cls -> string -> option val.

  Lemma is_param_iff c n : is_param c n = true <-> param c n.
  Proof.
    unfold is_param, param. rewrite existsb_exists. split; intros (d & I & H); exists d; (split; [exact I|]).
    - apply andb_true_iff in H as [H1 H2]. apply String.eqb_eq in H2. auto.
    - destruct H as [-> ->]. rewrite String.eqb_refl. reflexivity.
  Qed.

  (** what [fill] puts into a field *)
  Definition source (c : cls) (kw : list (string * val)) (d : fdecl) : option val :=
    if fd_init d then match get (fd_name d) kw with Some x => Some x | None => dflt c (fd_name d) end else dflt c (fd_name d).

  Lemma fill_ok c kw : forall ds r, fill dflt c ds kw = Ok r -> NoDup (map fd_name ds) ->
    (forall n x, get n r = Some x <-> exists d, In d ds /\ fd_name d = n /\ source c kw d = Some x) /\
    (forall d, In d ds -> fd_init d = true -> source c kw d <> None).
  Proof.
    induction ds as [|d ds IH]; cbn [fill map]; intros r H ND.
    - injection H as <-. split; [|intros ? []]. intros n x. cbn. split; [discriminate|intros (? & [] & _)].
    - inversion ND as [|? ? NI ND']; subst.
      assert (STEP : exists r', fill dflt c ds kw = Ok r' /\ r = (match source c kw d with Some x => (fd_name d, x) :: r' | None => r' end) /\ (fd_init d = true -> source c kw d <> None)).
      { unfold source. destruct (fd_init d).
        - destruct (get (fd_name d) kw) as [x|]; [|destruct (dflt c (fd_name d)) as [x|]; [|discriminate]];
            (destruct (fill dflt c ds kw) as [r'|]; cbn [bind] in H; [|discriminate]); injection H as <-; exists r'; (split; [reflexivity|split; [reflexivity|discriminate]]).
        - destruct (fill dflt c ds kw) as [r'|]; cbn [bind] in H; [|discriminate]. injection H as <-. exists r'. split; [reflexivity|]. split; [reflexivity|discriminate]. }
      destruct STEP as (r' & HF & -> & HS). destruct (IH r' HF ND') as [G1 G2]. split.
      + intros n x. destruct (String.eqb_spec n (fd_name d)) as [->|NE].
        * assert (EQ : get (fd_name d) (match source c kw d with Some y => (fd_name d, y) :: r' | None => r' end) = source c kw d).
          { destruct (source c kw d) as [y|]; [cbn; rewrite String.eqb_refl; reflexivity|].
            destruct (get (fd_name d) r') as [y|] eqn:E; [|reflexivity]. exfalso. apply G1 in E as (d' & I & E & _). apply NI. rewrite <- E. apply in_map. exact I. }
          rewrite EQ. split; [intros H1; exists d; cbn; auto|]. intros (d' & [<-|I] & E & H1); [exact H1|]. exfalso. apply NI. rewrite <- E. apply in_map. exact I.
        * assert (EQ : get n (match source c kw d with Some y => (fd_name d, y) :: r' | None => r' end) = get n r').
          { destruct (source c kw d) as [y|]; [|reflexivity]. cbn. destruct (String.eqb_spec n (fd_name d)); [contradiction|reflexivity]. }
          rewrite EQ, G1. split; intros (d' & I & E & H1); exists d'; (split; [|auto]); [cbn; auto|]. destruct I as [<-|I]; [congruence|exact I].
      + intros d' [<-|I]; [exact HS|apply G2; exact I].
  Qed.

  Lemma fill_total c kw : forall ds, (forall d, In d ds -> fd_init d = true -> source c kw d <> None) -> exists r, fill dflt c ds kw = Ok r.
  Proof.
    induction ds as [|d ds IH]; cbn [fill]; intros H; [eexists; reflexivity|]. destruct IH as [r E]; [intros d' I; apply H; cbn; auto|]. rewrite E. cbn [bind].
    specialize (H d (or_introl eq_refl)). unfold source in H. destruct (fd_init d); [|eexists; reflexivity].
    destruct (get (fd_name d) kw); [eexists; reflexivity|]. destruct (dflt c (fd_name d)); [eexists; reflexivity|]. exfalso. apply H; reflexivity.
  Qed.

  Lemma construct_iff c kw : (exists r, construct dflt c kw = Ok r) <->
    (forall n, In n (map fst kw) -> param c n) /\ (forall n, param c n -> In n (map fst kw) \/ dflt c n <> None).
  Proof.
    unfold construct. split.
    - intros [r H]. destruct (forallb _ kw) eqn:E; [|discriminate]. rewrite forallb_forall in E. split.
      + intros n I. apply in_map_iff in I as (p & <- & I). apply is_param_iff. apply E. exact I.
      + intros n (d & I & <- & FI).
        assert (NN : source c kw d <> None).
        { clear - H I FI. destruct (fill dflt c (c_fields c) kw) as [l|] eqn:E; [clear H|discriminate]. revert l E. induction (c_fields c) as [|d' ds IH]; [destruct I|].
          cbn [fill]. intros l E. destruct I as [->|I].
          - unfold source. rewrite FI in *. destruct (get (fd_name d) kw); [discriminate|]. destruct (dflt c (fd_name d)); [discriminate|discriminate E].
          - destruct (fill dflt c ds kw) as [l'|]; [exact (IH I l' eq_refl)|]. cbn [bind] in E.
            destruct (fd_init d'); [destruct (get (fd_name d') kw); [discriminate|destruct (dflt c (fd_name d')); discriminate]|discriminate]. }
        unfold source in NN. rewrite FI in NN. destruct (get (fd_name d) kw) as [x|] eqn:G; [left; apply get_In in G; apply (in_map fst) in G; exact G|right; exact NN].
    - intros [H1 H2].
      replace (forallb (fun p => is_param c (fst p)) kw) with true; [|symmetry; apply forallb_forall; intros p I; apply is_param_iff, H1, in_map, I].
      destruct (@fill_total c kw (c_fields c)) as [r E]; [|rewrite E; eexists; reflexivity].
      intros d I FI. unfold source. rewrite FI. destruct (get (fd_name d) kw) eqn:G; [discriminate|].
      destruct (H2 (fd_name d)) as [X|X]; [exists d; auto| |exact X]. apply get_None in G. contradiction.
  Qed.

  Lemma construct_fields c kw r : NoDup (map fd_name (c_fields c)) -> construct dflt c kw = Ok r ->
    (exists fs, r = VObj c fs) /\
    forall n x, field r n = Some x <-> get n kw = Some x \/ (get n kw = None /\ declared c n /\ dflt c n = Some x).
  Proof.
    intros ND. unfold construct. destruct (forallb _ kw) eqn:EF; [|discriminate]. rewrite forallb_forall in EF.
    destruct (fill dflt c (c_fields c) kw) as [l|] eqn:E; [|discriminate]. cbn [bind]. intros [= <-]. split; [eexists; reflexivity|].
    intros n x. cbn [field]. destruct (fill_ok E ND) as [G1 G2]. rewrite G1. split.
    - intros (d & I & <- & H). unfold source in H. destruct (fd_init d) eqn:FI.
      + destruct (get (fd_name d) kw); [left; exact H|right]. split; [reflexivity|]. split; [exists d; auto|exact H].
      + right. split; [|split; [exists d; auto|exact H]]. destruct (get (fd_name d) kw) as [y|] eqn:G; [|reflexivity]. exfalso.
        apply get_In in G. specialize (EF _ G). apply is_param_iff in EF as (d' & I' & E' & FI'). cbn in E'.
        assert (d = d'); [|congruence]. clear - ND I I' E'. induction (c_fields c) as [|a l IH]; [destruct I|]. cbn in ND. inversion ND; subst.
        destruct I as [->|I], I' as [->|I']; auto; exfalso; match goal with H : ~ In _ _ |- _ => apply H end.
        * rewrite <- E'. apply in_map. exact I'.
        * rewrite E'. apply in_map. exact I.
    - intros [G|(G & (d & I & <-) & HD)].
      + apply get_In in G as I. specialize (EF _ I). apply is_param_iff in EF as (d & ID & EN & FI). cbn in EN. subst n. exists d. split; [exact ID|]. split; [reflexivity|].
        unfold source. rewrite FI, G. reflexivity.
      + exists d. split; [exact I|]. split; [reflexivity|]. unfold source. rewrite G. destruct (fd_init d); exact HD.
  Qed.

  (** *** what holds *)
  (** encode_sample: a sample that has the type already is left alone; otherwise every field of the sample is in the result with
      the same value, and the other fields of the result have their defaults *)
  Theorem C71_keeps_fields ty v r : proper_cls ty -> proper_obj v -> encode_sample dflt (Some ty) v = Ok r ->
    (is_instance v ty = true /\ r = v) \/
    (is_instance v ty = false /\ forall n x, field r n = Some x <->
       field v n = Some x \/ (field v n = None /\ c_kind ty <> KDict /\ declared ty n /\ dflt ty n = Some x)).
  Proof.
    intros (ND & _) PV. cbn [encode_sample]. destruct (is_instance v ty); [intros [= <-]; auto|]. intros H. right. split; [reflexivity|].
    destruct v as [|?|c fs|]; try discriminate. cbn [fields_of] in H.
    assert (HM : make dflt ty (VObj c fs) fs = Ok r) by (destruct (c_kind c); try discriminate; exact H). clear H. unfold make in HM.
    destruct (c_kind ty) eqn:EK; try discriminate.
    - assert (ER : forall n, field r n = get n fs) by (destruct (c_kind c); injection HM as <-; reflexivity).
      intros n x. rewrite ER. cbn [field]. split; [auto|]. intros [H|(_ & H & _)]; [exact H|contradiction].
    - intros n x. destruct (construct_fields ND HM) as [_ G]. rewrite G. cbn [field]. split; (intros [H|H]; [left; exact H|right]); [destruct H as (H1 & H2 & H3)|destruct H as (H1 & _ & H2 & H3)]; auto.
      split; [exact H1|]. split; [discriminate|]. auto.
    - intros n x. destruct (construct_fields ND HM) as [_ G]. rewrite G. cbn [field]. split; (intros [H|H]; [left; exact H|right]); [destruct H as (H1 & H2 & H3)|destruct H as (H1 & _ & H2 & H3)]; auto.
      split; [exact H1|]. split; [discriminate|]. auto.
  Qed.

  (** ... it works exactly if every field of the sample is a parameter of the type and every parameter is a field of the sample
      or has a default (for a dict type: always) *)
  Theorem C71_converts_iff ty v : has_fields v -> is_instance v ty = false ->
    ((exists r, encode_sample dflt (Some ty) v = Ok r) <->
     c_kind ty = KDict \/
     ((c_kind ty = KData \/ c_kind ty = KNamed) /\ (forall n, In n (field_names v) -> param ty n) /\
      (forall n, param ty n -> In n (field_names v) \/ dflt ty n <> None))).
  Proof.
    intros (c & fs & -> & HK) HI. unfold encode_sample. rewrite HI. cbn [fields_of field_names].
    assert (EQ : bind (match c_kind c with KDict | KData | KNamed => Ok fs | _ => Err ValueError end) (make dflt ty (VObj c fs)) = make dflt ty (VObj c fs) fs)
      by (destruct HK as [-> | [-> | ->]]; reflexivity).
    rewrite EQ. unfold make. destruct (c_kind ty).
    - split; [auto|]. intros _. eexists. reflexivity.
    - rewrite construct_iff. split; [intros H; right; split; [auto|exact H]|]. intros [H|[_ H]]; [discriminate|exact H].
    - rewrite construct_iff. split; [intros H; right; split; [auto|exact H]|]. intros [H|[_ H]]; [discriminate|exact H].
    - split; [intros [? H]; discriminate|]. intros [H|[[H|H] _]]; discriminate.
    - split; [intros [? H]; discriminate|]. intros [H|[[H|H] _]]; discriminate.
  Qed.

  (** ... and the result has the type, unless the type is a dict class of one's own *)
  Theorem C71_has_type ty v r : proper_cls ty -> c_kind ty <> KDict \/ ty = dict_cls -> encode_sample dflt (Some ty) v = Ok r -> proper_obj v ->
    (forall c fs, v = VObj c fs -> c_kind c = KDict -> In "dict" (c_mro c)) -> is_instance r ty = true.
  Proof.
    intros (ND & IM & _) HT. cbn [encode_sample]. destruct (is_instance v ty) eqn:EI; [intros [= <-] _ _; exact EI|]. intros H PV HD.
    destruct v as [|?|c fs|]; try discriminate. cbn [fields_of] in H.
    assert (HM : make dflt ty (VObj c fs) fs = Ok r) by (destruct (c_kind c); try discriminate; exact H). clear H. unfold make in HM.
    assert (SELF : forall c' fs', c' = ty -> is_instance (VObj c' fs') ty = true).
    { intros c' fs' ->. unfold is_instance. apply existsb_exists. exists (c_name ty). split; [exact IM|apply String.eqb_refl]. }
    destruct (c_kind ty) eqn:EK; try discriminate.
    - destruct HT as [HT|HT]; [contradiction|]. subst ty. destruct (c_kind c) eqn:EC; injection HM as <-; try reflexivity.
      unfold is_instance. apply existsb_exists. exists "dict". split; [eapply HD; eauto|reflexivity].
    - destruct (construct_fields ND HM) as [[l ->] _]. apply SELF. reflexivity.
    - destruct (construct_fields ND HM) as [[l ->] _]. apply SELF. reflexivity.
  Qed.

  (** encode_batch: the same, also for batches that have the type already; a batch of exactly that class, all of whose fields are
      parameters, comes back unchanged *)
  Lemma fill_same c kw : forall ds, Forall (fun d => fd_init d = true) ds -> (forall d, In d ds -> exists x, get (fd_name d) kw = Some x) ->
    exists r, fill dflt c ds kw = Ok r /\ map fst r = map fd_name ds /\ forall n, In n (map fd_name ds) -> get n r = get n kw.
  Proof.
    induction ds as [|d ds IH]; intros F H; cbn [fill]; [exists []; repeat split; intros ? []|].
    inversion F as [|? ? FI F']; subst. destruct (IH F') as (r & E & EM & G); [intros d' I; apply H; cbn; auto|].
    destruct (H d (or_introl eq_refl)) as [x GX]. rewrite FI, GX, E. cbn [bind]. eexists. split; [reflexivity|]. cbn [map fst]. split; [rewrite EM; reflexivity|].
    intros n I. cbn [get]. destruct (String.eqb_spec n (fd_name d)) as [->|NE]; [auto|]. apply G. destruct I as [I|I]; [congruence|exact I].
  Qed.
  Lemma same_fields : forall (a b : list (string * val)), map fst a = map fst b -> NoDup (map fst a) -> (forall n, In n (map fst a) -> get n a = get n b) -> a = b.
  Proof.
    induction a as [|[k x] a IH]; intros [|[k' y] b] E ND G; cbn in E; try discriminate; [reflexivity|]. injection E as <- E. cbn in ND. inversion ND; subst.
    pose proof (G k (or_introl eq_refl)) as X. cbn in X. rewrite String.eqb_refl in X. injection X as <-. f_equal. apply IH; auto.
    intros n I. specialize (G n (or_intror I)). cbn in G. destruct (String.eqb_spec n k); [subst; contradiction|exact G].
  Qed.

  Lemma construct_same c fs : NoDup (map fst fs) -> map fst fs = map fd_name (c_fields c) -> Forall (fun d => fd_init d = true) (c_fields c) ->
    construct dflt c fs = Ok (VObj c fs).
  Proof.
    intros ND EN F. unfold construct.
    replace (forallb _ fs) with true.
    - destruct (@fill_same c fs (c_fields c) F) as (r & E & EM & G).
      + intros d I. destruct (get (fd_name d) fs) eqn:X; [eauto|]. apply get_None in X. exfalso. apply X. rewrite EN. apply in_map. exact I.
      + rewrite E. cbn [bind]. do 2 f_equal. apply same_fields; [congruence|rewrite EM, <- EN; exact ND|]. intros n I. apply G. rewrite <- EM. exact I.
    - symmetry. apply forallb_forall. intros [n x] I. apply is_param_iff. apply (in_map fst) in I. rewrite EN in I. apply in_map_iff in I as (d & E & I).
      exists d. split; [exact I|]. split; [exact E|]. rewrite Forall_forall in F. apply F. exact I.
  Qed.

  Theorem C71_batch_unchanged raw ty fs : proper_obj (VObj ty fs) -> c_kind ty = KDict \/ c_kind ty = KNamed \/ (c_kind ty = KData /\ Forall (fun d => fd_init d = true) (c_fields ty)) ->
    encode_batch dflt raw (Some ty) (VObj ty fs) = Ok (VObj ty fs).
  Proof.
    intros ((ND & IM & HN) & NF & HF) HK. cbn [encode_batch]. destruct (same_cls raw ty); [reflexivity|]. cbn [fields_of].
    destruct HK as [EK|[EK|[EK F]]]; rewrite EK; cbn [bind make]; unfold make; rewrite EK; [reflexivity| |].
    - apply construct_same; auto. specialize (HN EK). eapply Forall_impl; [|exact HN]. intros d [H _]. exact H.
    - apply construct_same; auto.
  Qed.

  (** A batch is converted exactly like a sample, unless raw_batch_type names the batch type: then it is taken as it is. *)
  Theorem C71_batch_converted raw ty v :
    (forall c, raw = Some c -> c_name c = c_name ty -> encode_batch dflt raw (Some ty) v = Ok v) /\
    ((forall c, raw = Some c -> c_name c <> c_name ty) -> is_instance v ty = false -> encode_batch dflt raw (Some ty) v = encode_sample dflt (Some ty) v).
  Proof.
    split.
    - intros c -> E. cbn [encode_batch same_cls]. rewrite E, String.eqb_refl. reflexivity.
    - intros H HI. unfold encode_sample. rewrite HI. cbn [encode_batch].
      replace (same_cls raw ty) with false; [reflexivity|]. symmetry. destruct raw as [c|]; [|reflexivity]. cbn [same_cls].
      apply String.eqb_neq. apply H. reflexivity.
  Qed.

  (** Lists and tuples are never converted: a tuple is only accepted where a tuple (or any object) is wanted, a list where a list is. *)
  Theorem C71_sequences ty (tup : bool) l r :
    encode_sample dflt (Some ty) (VSeq tup l) = Ok r <-> r = VSeq tup l /\ (c_name ty = (if tup then "tuple" else "list") \/ c_name ty = "object").
  Proof.
    unfold encode_sample. destruct (is_instance (VSeq tup l) ty) eqn:E; cbn [fields_of bind].
    - unfold is_instance in E. apply existsb_exists in E. destruct E as (x & I & E). apply String.eqb_eq in E. subst x.
      split; [intros [= <-]|intros [-> _]; reflexivity]. split; [reflexivity|]. destruct tup; cbn [mro In] in I; destruct I as [I|[I|[]]]; auto.
    - split; [discriminate|]. intros [_ H]. exfalso. apply not_true_iff_false in E. apply E. unfold is_instance. apply existsb_exists.
      exists (c_name ty). split; [|apply String.eqb_refl]. destruct tup; destruct H as [-> | ->]; cbn; auto.
  Qed.

  (** *** what does not hold *)
  (** samples cannot be converted to a NamedTuple, although the documentation offers it: the fields of Sample start with an
      underscore, those of a namedtuple cannot *)
  Theorem C71_namedtuple_refuted ty v n : proper_cls ty -> c_kind ty = KNamed -> has_fields v -> is_instance v ty = false ->
    In n (field_names v) -> underscore n = true -> encode_sample dflt (Some ty) v = Err TypeError.
  Proof.
    intros (_ & _ & HN) EK (c & fs & -> & HK) HI I HU. unfold encode_sample. rewrite HI. cbn [fields_of].
    assert (EQ : make dflt ty (VObj c fs) fs = Err TypeError).
    { unfold make. rewrite EK. unfold construct. replace (forallb _ fs) with false; [reflexivity|]. symmetry. apply not_true_is_false. intros X.
      rewrite forallb_forall in X. cbn [field_names] in I. apply in_map_iff in I as (p & <- & I). specialize (X p I). apply is_param_iff in X as (d & ID & E & _).
      specialize (HN EK). rewrite Forall_forall in HN. destruct (HN d ID) as [_ U]. congruence. }
    destruct HK as [-> | [-> | ->]]; exact EQ.
  Qed.

  (** a dataclass with a field that is not a parameter cannot be converted to any type that does not take it, and such a batch
      fails in encode_batch even if it has the type already *)
  Theorem C71_not_a_param_refuted raw ty c fs n : c_kind c = KData -> c_kind ty = KData \/ c_kind ty = KNamed -> In n (map fst fs) -> ~ param ty n ->
    (is_instance (VObj c fs) ty = false -> encode_sample dflt (Some ty) (VObj c fs) = Err TypeError) /\
    (same_cls raw ty = false -> encode_batch dflt raw (Some ty) (VObj c fs) = Err TypeError).
  Proof.
    intros EC EK I NP.
    assert (EQ : make dflt ty (VObj c fs) fs = Err TypeError).
    { assert (X : forallb (fun p => is_param ty (fst p)) fs = false).
      { apply not_true_is_false. intros X. rewrite forallb_forall in X. apply in_map_iff in I as (p & <- & I). specialize (X p I). apply is_param_iff in X. contradiction. }
      unfold make, construct. rewrite X. destruct EK as [-> | ->]; reflexivity. }
    unfold encode_sample, encode_batch. cbn [fields_of]. rewrite EC. cbn [bind]. split; intros ->; exact EQ.
  Qed.

  (** _batch: the result type must take every field of the samples: one that is left out is an error, not ignored *)
  Theorem C71_batch_type_refuted bf ty vs fs n : c_kind ty = KData \/ c_kind ty = KNamed -> bf vs = Ok fs -> In n (map fst fs) -> ~ param ty n ->
    batch_as dflt bf ty vs = Err TypeError.
  Proof.
    intros EK EB I NP. unfold batch_as. rewrite EB. cbn [bind]. unfold make, construct.
    assert (X : forallb (fun p => is_param ty (fst p)) fs = false).
    { apply not_true_is_false. intros X. rewrite forallb_forall in X. apply in_map_iff in I as (p & <- & I). specialize (X p I). apply is_param_iff in X. contradiction. }
    rewrite X. destruct EK as [-> | ->]; reflexivity.
  Qed.
End C71.
Print Assumptions C71_keeps_fields.
Print Assumptions C71_converts_iff.
Print Assumptions C71_has_type.
Print Assumptions C71_batch_unchanged.
Print Assumptions C71_batch_converted.
Print Assumptions C71_sequences.
Print Assumptions C71_namedtuple_refuted.
Print Assumptions C71_not_a_param_refuted.
Print Assumptions C71_batch_type_refuted.

(** a dict class of one's own: the result is a plain dict *)
Theorem C71_dict_class_refuted dflt ty c fs : c_kind ty = KDict -> c_kind c = KData -> is_instance (VObj c fs) ty = false ->
  encode_sample dflt (Some ty) (VObj c fs) = Ok (VObj dict_cls fs).
Proof. intros EK EC HI. unfold encode_sample. rewrite HI. cbn [fields_of]. rewrite EC. cbn [bind]. unfold make. rewrite EK, EC. reflexivity. Qed.
Print Assumptions C71_dict_class_refuted.

(** *** pinning *)
(** [r] is [v] with all tensors in pinned memory *)
Inductive pinned_copy : val -> val -> Prop :=
| pc_atom n : pinned_copy (VAtom n) (VAtom n)
| pc_tensor b n : pinned_copy (VTensor b n) (VTensor true n)
| pc_seq t l l' : Forall2 pinned_copy l l' -> pinned_copy (VSeq t l) (VSeq t l')
| pc_obj c fs fs' : Forall2 (fun p q => fst p = fst q /\ pinned_copy (snd p) (snd q)) fs fs' -> pinned_copy (VObj c fs) (VObj c fs').

(** made of tensors, lists, tuples, dicts, namedtuples and dataclasses without fields outside of __init__ *)
Inductive pinnable : val -> Prop :=
| pn_atom n : pinnable (VAtom n)
| pn_tensor b n : pinnable (VTensor b n)
| pn_seq t l : Forall pinnable l -> pinnable (VSeq t l)
| pn_dict fs : Forall (fun p => pinnable (snd p)) fs -> pinnable (VObj dict_cls fs)
| pn_named c fs : c_kind c = KNamed -> Forall (fun p => pinnable (snd p)) fs -> pinnable (VObj c fs)
| pn_data c fs : c_kind c = KData -> proper_obj (VObj c fs) -> Forall (fun d => fd_init d = true) (c_fields c) ->
    Forall (fun p => pinnable (snd p)) fs -> pinnable (VObj c fs).

Fixpoint size (v : val) : nat :=
  match v with
  | VAtom _ | VTensor _ _ => 0
  | VSeq _ l => S (list_sum (map size l))
  | VObj _ fs => S (list_sum (map (fun p => size (snd p)) fs))
  end.

Section Pin.
  Variable dflt : cls -> string -> option val.
  (** the two loops of [pin] *)
  Definition pin_list := (fix go (l : list val) : result (list val) :=
     match l with [] => Ok [] | x :: l' => bind (pin dflt x) (fun y => bind (go l') (fun ys => Ok (y :: ys))) end).
  Definition pin_fields := (fix go (l : list (string * val)) : result (list (string * val)) :=
     match l with [] => Ok [] | (k, x) :: l' => bind (pin dflt x) (fun y => bind (go l') (fun ys => Ok ((k, y) :: ys))) end).

  Lemma pinned_size : forall n v, size v <= n -> pinnable v -> exists r, pin dflt v = Ok r /\ pinned_copy v r.
  Proof.
    induction n as [n IH] using lt_wf_ind. intros v HS HP.
    assert (LF : forall fs : list (string * val), list_sum (map (fun p => size (snd p)) fs) < n -> Forall (fun p => pinnable (snd p)) fs ->
       exists fs', pin_fields fs = Ok fs' /\ Forall2 (fun p q => fst p = fst q /\ pinned_copy (snd p) (snd q)) fs fs').
    { induction fs as [|[k x] fs IHf]; intros HL HF; [exists []; split; [reflexivity|constructor]|]. cbn [map list_sum fold_right snd] in HL.
      change (fold_right Nat.add 0 (map (fun p => size (snd p)) fs)) with (list_sum (map (fun p : string * val => size (snd p)) fs)) in HL.
      inversion HF as [|? ? HX HF']; subst. cbn [snd] in HX.
      destruct (IH (size x) ltac:(lia) x ltac:(lia) HX) as (y & EY & PY). destruct (IHf ltac:(lia) HF') as (fs' & EF & PF).
      exists ((k, y) :: fs'). cbn [pin_fields]. fold pin_fields. rewrite EY. cbn [bind]. rewrite EF. split; [reflexivity|]. constructor; [split; [reflexivity|exact PY]|exact PF]. }
    assert (LS : forall l : list val, list_sum (map size l) < n -> Forall pinnable l -> exists l', pin_list l = Ok l' /\ Forall2 pinned_copy l l').
    { induction l as [|x l IHl]; intros HL HF; [exists []; split; [reflexivity|constructor]|]. cbn [map list_sum fold_right] in HL.
      change (fold_right Nat.add 0 (map size l)) with (list_sum (map size l)) in HL. inversion HF as [|? ? HX HF']; subst.
      destruct (IH (size x) ltac:(lia) x ltac:(lia) HX) as (y & EY & PY). destruct (IHl ltac:(lia) HF') as (l' & EF & PF).
      exists (y :: l'). cbn [pin_list]. fold pin_list. rewrite EY. cbn [bind]. rewrite EF. split; [reflexivity|]. constructor; assumption. }
    inversion HP as [m|b m|t l F|fs F|c fs EK F|c fs EK PO FI F]; subst; cbn [size] in HS.
    - exists (VAtom m). split; [reflexivity|constructor].
    - exists (VTensor true m). split; [reflexivity|constructor].
    - destruct (LS l ltac:(lia) F) as (l' & E & P). exists (VSeq t l'). cbn [pin]. fold pin_list. rewrite E. split; [reflexivity|constructor; exact P].
    - destruct (LF fs ltac:(lia) F) as (fs' & E & P). exists (VObj dict_cls fs'). cbn [pin dict_cls c_kind]. fold pin_fields. rewrite E. split; [reflexivity|constructor; exact P].
    - destruct (LF fs ltac:(lia) F) as (fs' & E & P). exists (VObj c fs'). cbn [pin]. rewrite EK. fold pin_fields. rewrite E. split; [reflexivity|constructor; exact P].
    - destruct (LF fs ltac:(lia) F) as (fs' & E & P). exists (VObj c fs'). cbn [pin]. rewrite EK. fold pin_fields. rewrite E. cbn [bind].
      assert (EN : map fst fs' = map fst fs) by (clear - P; induction P as [|p q ? ? [E _] _ IHP]; cbn; congruence).
      destruct PO as (_ & NF & HF). rewrite (@construct_same dflt c fs'); [split; [reflexivity|constructor; exact P]| | |exact FI]; rewrite EN; auto.
  Qed.

  (** pin_memory of a batch: everything as before, all tensors in pinned memory *)
  Theorem C71_pins v : pinnable v -> exists r, pin dflt v = Ok r /\ pinned_copy v r.
  Proof. apply pinned_size with (n := size v). lia. Qed.

  (** a dataclass with a field that is not a parameter cannot be pinned; a dict becomes a plain dict *)
  Theorem C71_pin_refuted c fs :
    (forall n, c_kind c = KData -> In n (map fst fs) -> ~ param c n -> forall r, pin dflt (VObj c fs) <> Ok r) /\
    (c_kind c = KDict -> forall r, pin dflt (VObj c fs) = Ok r -> exists fs', r = VObj dict_cls fs').
  Proof.
    split.
    - intros n EK I NP r. cbn [pin]. rewrite EK. fold pin_fields. destruct (pin_fields fs) as [fs'|] eqn:E; [|discriminate]. cbn [bind].
      assert (EN : map fst fs' = map fst fs).
      { clear - E. revert fs' E. induction fs as [|[k x] fs IH]; cbn [pin_fields]; intros fs' E; [injection E as <-; reflexivity|]. fold pin_fields in E.
        destruct (pin dflt x); [|discriminate]. cbn [bind] in E. destruct (pin_fields fs) as [l|]; [|discriminate]. injection E as <-. cbn. f_equal. apply IH. reflexivity. }
      unfold construct. replace (forallb _ fs') with false; [discriminate|]. symmetry. apply not_true_is_false. intros X. rewrite forallb_forall in X.
      rewrite <- EN in I. apply in_map_iff in I as (p & <- & I). specialize (X p I). apply is_param_iff in X. contradiction.
    - intros EK r. cbn [pin]. rewrite EK. fold pin_fields. destruct (pin_fields fs) as [fs'|]; [|discriminate]. cbn [bind]. intros [= <-]. eexists. reflexivity.
  Qed.
End Pin.
Print Assumptions C71_pins.
Print Assumptions C71_pin_refuted.

(** ** Examples *)
Definition params (l : list string) : list fdecl := map (fun n => mkF n true) l.
(** flavors/captioning.py CaptioningSample, and CaptioningRawBatch of docs/source/task_encoders.md *)
Definition captioning_sample : cls := mkC "CaptioningSample" KData ["CaptioningSample"; "Sample"; "ABC"; "object"]
  (params ["__key__"; "__restore_key__"; "__subflavor__"; "__subflavors__"; "image"; "caption"]).
Definition captioning_raw_batch : cls := mkC "CaptioningRawBatch" KData ["CaptioningRawBatch"; "object"] (params ["__key__"; "image"; "caption"]).

(** the documented example fails for every batch: the raw batch has no place for __restore_key__, __subflavor__, __subflavors__ *)
Theorem C71_documented_example_refuted dflt bf vs fs : bf vs = Ok fs -> map fst fs = map fd_name (c_fields captioning_sample) ->
  batch_as dflt bf captioning_raw_batch vs = Err TypeError.
Proof.
  intros EB EN. apply C71_batch_type_refuted with (fs := fs) (n := "__restore_key__"); [left; reflexivity|exact EB|rewrite EN; cbn; tauto|].
  intros (d & I & E & _). cbn in I. repeat (destruct I as [<-|I]; [discriminate E|]). destruct I.
Qed.
Print Assumptions C71_documented_example_refuted.

Definition ex_sample (c : cls) : val := VObj c (combine (map fd_name (c_fields c)) [VAtom 1; VAtom 2; VAtom 3; VObj dict_cls []; VTensor false 5; VAtom 6]).
Definition ex_target : cls := mkC "Mine" KData ["Mine"; "object"] (params ["caption"; "image"; "__key__"; "__restore_key__"; "__subflavor__"; "__subflavors__"; "weight"]).
Definition ex_dflt (c : cls) (n : string) : option val := if String.eqb n "weight" then Some (VAtom 100) else None.
Example C71_nonvacuous :
  proper_cls ex_target /\ proper_obj (ex_sample captioning_sample) /\ is_instance (ex_sample captioning_sample) ex_target = false /\
  encode_sample ex_dflt (Some ex_target) (ex_sample captioning_sample) =
    Ok (VObj ex_target [("caption", VAtom 6); ("image", VTensor false 5); ("__key__", VAtom 1); ("__restore_key__", VAtom 2); ("__subflavor__", VAtom 3);
                        ("__subflavors__", VObj dict_cls []); ("weight", VAtom 100)]) /\
  pinnable (ex_sample captioning_sample) /\
  pin ex_dflt (VSeq false [ex_sample captioning_sample]) = Ok (VSeq false [VObj captioning_sample (combine (map fd_name (c_fields captioning_sample)) [VAtom 1; VAtom 2; VAtom 3; VObj dict_cls []; VTensor true 5; VAtom 6])]).
Proof.
  assert (P1 : proper_cls ex_target).
  { split; [repeat constructor; cbn; intuition discriminate|]. split; [cbn; auto|discriminate]. }
  assert (P2 : proper_cls captioning_sample).
  { split; [repeat constructor; cbn; intuition discriminate|]. split; [cbn; auto|discriminate]. }
  assert (P3 : proper_obj (ex_sample captioning_sample)).
  { split; [exact P2|]. split; [repeat constructor; cbn; intuition discriminate|reflexivity]. }
  split; [exact P1|]. split; [exact P3|]. split; [reflexivity|]. split; [reflexivity|]. split; [|reflexivity].
  apply pn_data; [reflexivity|exact P3|repeat constructor|]. cbn. repeat (apply Forall_cons; [cbn; try constructor; constructor|]). constructor.
Qed.
