(** Proofs about safe_call_function and raw_to_instance. *)
From Coq Require Import String Ascii QArith.
From Verif Require Import Base Typed TypedSpec TypedProofs TypedCallSpec.
Local Close Scope Q_scope.
Local Close Scope Z_scope.
Local Open Scope string_scope.
Local Open Scope list_scope.
Local Open Scope nat_scope.

Lemma dget_dput_same k v d : dget k (dput k v d) = Some v.
Proof. induction d as [|[k' v'] d IH]; cbn; [rewrite String.eqb_refl; reflexivity|]. destruct (String.eqb_spec k k') as [->|N]; cbn; [rewrite String.eqb_refl; reflexivity|]. destruct (String.eqb_spec k k'); [congruence|exact IH]. Qed.
Lemma dget_dput_other k k2 v d : k <> k2 -> dget k2 (dput k v d) = dget k2 d.
Proof.
  intros N. induction d as [|[k' v'] d IH]; cbn; [destruct (String.eqb_spec k2 k); congruence|]. destruct (String.eqb_spec k k') as [->|N']; cbn; [destruct (String.eqb_spec k2 k'); congruence|].
  rewrite IH. reflexivity.
Qed.
Lemma dget_dpop_other k k2 d : k <> k2 -> dget k2 (dpop k d) = dget k2 d.
Proof.
  intros N. induction d as [|[k' v'] d IH]; cbn; [reflexivity|]. destruct (String.eqb_spec k k') as [->|N']; cbn; [destruct (String.eqb_spec k2 k'); congruence|].
  rewrite IH. reflexivity.
Qed.
Lemma dpop_incl k d : incl (map fst (dpop k d)) (map fst d).
Proof. induction d as [|[k' v'] d IH]; cbn; [intros x []|]. destruct (String.eqb k k'); cbn; [apply incl_tl, incl_refl|]. intros x [->|H]; [left; reflexivity|right; apply IH; exact H]. Qed.
Lemma dpop_NoDup k d : NoDup (map fst d) -> NoDup (map fst (dpop k d)).
Proof.
  induction d as [|[k' v'] d IH]; cbn; intros ND; [constructor|]. inversion_clear ND as [|? ? N ND']. destruct (String.eqb k k'); [exact ND'|]. cbn. constructor; [|auto]. intros H. apply N. eapply dpop_incl. exact H.
Qed.
Lemma dget_dpop_same k d : NoDup (map fst d) -> dget k (dpop k d) = None.
Proof.
  induction d as [|[k' v'] d IH]; cbn; intros ND; [reflexivity|]. inversion_clear ND as [|? ? N ND']. destruct (String.eqb_spec k k') as [->|N']; [apply dget_none; exact N|]. cbn. destruct (String.eqb_spec k k'); [congruence|auto].
Qed.
Lemma dget_update_gen k e : forall d, NoDup (map fst e) -> dget k (dict_update d e) = match dget k e with Some v => Some v | None => dget k d end.
Proof.
  unfold dict_update. induction e as [|[k' v'] e IH]; intros d ND; cbn [fold_left dget fst snd map] in *; [reflexivity|]. inversion_clear ND as [|? ? N ND']. rewrite IH by exact ND'.
  destruct (String.eqb_spec k k') as [->|NE].
  - assert (dget k' e = None) as -> by (apply dget_none; exact N). apply dget_dput_same.
  - rewrite dget_dput_other by congruence. reflexivity.
Qed.
Lemma dput_keys k v d x : In x (map fst (dput k v d)) <-> x = k \/ In x (map fst d).
Proof.
  split.
  - intros H. destruct (in_dec string_dec x (map fst d)) as [|N]; [auto|]. left. destruct (string_dec x k) as [|NE]; [assumption|]. exfalso.
    apply dget_none in N. rewrite <- (dget_dput_other v d (k := k) (k2 := x)) in N by congruence. apply dget_none in N. apply N, H.
  - intros H. destruct (in_dec string_dec x (map fst (dput k v d))) as [|N]; [assumption|]. exfalso. apply dget_none in N. destruct (string_dec x k) as [->|NE].
    + rewrite dget_dput_same in N. discriminate.
    + rewrite dget_dput_other in N by congruence. apply dget_none in N. destruct H; contradiction.
Qed.
Lemma dput_NoDup k v d : NoDup (map fst d) -> NoDup (map fst (dput k v d)).
Proof.
  induction d as [|[k' v'] d IH]; cbn; intros ND; [constructor; [intros []|constructor]|]. inversion_clear ND as [|? ? N ND']. destruct (String.eqb_spec k k') as [->|NE]; cbn; constructor; auto.
  intros H. apply dput_keys in H. destruct H as [->|H]; [congruence|contradiction].
Qed.
Lemma update_NoDup e : forall d, NoDup (map fst d) -> NoDup (map fst (dict_update d e)).
Proof. unfold dict_update. induction e as [|[k v] e IH]; intros d ND; cbn [fold_left]; [exact ND|]. apply IH. apply dput_NoDup. exact ND. Qed.

Section Call.
  Variable accepts : string -> list (string * pv) -> bool.
  Variables (strict imports : bool).
  Variable inst : list (string * pv) -> ty -> cres pv.
  Notation conv := (raw_to_typed accepts strict imports inst).
  Notation cv := (fun r t => conv (Some r) t).
  Notation go_kw p := (fix go (d kwargs : list (string * pv)) : cres (list (string * pv)) :=
                      match d with
                      | [] => COk kwargs
                      | (k, v) :: d' => cbind (conv (Some v) (annotation p)) (fun x => go d' (dput k x kwargs))
                      end).

  Lemma go_kw_ok p : forall d kwargs kw, NoDup (map fst d) -> (forall k, In k (map fst d) -> dget k kwargs = None) -> go_kw p d kwargs = COk kw ->
    forall k, match dget k d with Some raw => exists x, conv (Some raw) (annotation p) = COk x /\ dget k kw = Some x | None => dget k kw = dget k kwargs end.
  Proof.
    induction d as [|[k1 v1] d IH]; intros kwargs kw ND HN E k; cbn [dget] in *; [injection E as <-; reflexivity|].
    destruct (conv (Some v1) (annotation p)) as [x| |] eqn:Ex; cbn [cbind] in E; try discriminate. cbn [map fst] in ND. inversion_clear ND as [|? ? N ND'].
    specialize (IH (dput k1 x kwargs) kw ND').
    assert (H1 : forall k, In k (map fst d) -> dget k (dput k1 x kwargs) = None).
    { intros k' HI. rewrite dget_dput_other by (intros ->; contradiction). apply HN. right. exact HI. }
    specialize (IH H1 E k). destruct (String.eqb_spec k k1) as [->|NE].
    - assert (D : dget k1 d = None) by (apply dget_none; exact N). rewrite D in IH. exists x. split; [exact Ex|]. rewrite IH. apply dget_dput_same.
    - destruct (dget k d); [exact IH|]. rewrite IH. apply dget_dput_other. congruence.
  Qed.

  Lemma bind_dict_ok ps : kwargs_last ps -> forall unused kwargs kw,
    NoDup (map p_name (named_params ps)) -> NoDup (map fst unused) ->
    (forall k, In k (map p_name (named_params ps)) \/ In k (map fst unused) -> dget k kwargs = None) ->
    bind_dict accepts strict imports inst ps unused kwargs = COk kw ->
    (forall p, In p (named_params ps) -> exists raw x,
       (dget (p_name p) unused = Some raw \/ (dget (p_name p) unused = None /\ p_default p = Some raw)) /\
       conv (Some raw) (annotation p) = COk x /\ dget (p_name p) kw = Some x) /\
    (forall k, ~ In k (map p_name (named_params ps)) ->
       match dget k unused, var_kw ps with
       | Some raw, Some p => exists x, conv (Some raw) (annotation p) = COk x /\ dget k kw = Some x
       | _, _ => dget k kw = dget k kwargs
       end) /\
    (strict = true -> var_kw ps = None -> forall k raw, dget k unused = Some raw -> In k (map p_name (named_params ps))).
  Proof.
    induction ps as [|p ps IH]; intros HW unused kwargs kw ND NU HN E.
    - cbn [bind_dict] in E. destruct (strict && negb (length unused =? 0)) eqn:ES; [discriminate|]. injection E as <-. split; [intros p []|]. split.
      + intros k _. cbn. destruct (dget k unused); reflexivity.
      + intros -> _ k raw HD. cbn [andb] in ES. destruct unused; [discriminate HD|discriminate ES].
    - destruct HW as (W1 & W2 & W3). cbn [bind_dict] in E. unfold named_params, var_kw in *. cbn [filter find] in *.
      assert (NAMED : is_named p = true -> p_kind p <> VarKw ->
        (exists raw x, (dget (p_name p) unused = Some raw \/ (dget (p_name p) unused = None /\ p_default p = Some raw)) /\ conv (Some raw) (annotation p) = COk x /\
           bind_dict accepts strict imports inst ps (dpop (p_name p) unused) (dput (p_name p) x kwargs) = COk kw) ->
        NoDup (map p_name (p :: filter is_named ps)) -> (forall k, In k (map p_name (p :: filter is_named ps)) \/ In k (map fst unused) -> dget k kwargs = None) ->
        (forall q, In q (p :: filter is_named ps) -> exists raw x,
           (dget (p_name q) unused = Some raw \/ (dget (p_name q) unused = None /\ p_default q = Some raw)) /\ conv (Some raw) (annotation q) = COk x /\ dget (p_name q) kw = Some x) /\
        (forall k, ~ In k (map p_name (p :: filter is_named ps)) ->
           match dget k unused, find (fun p => match p_kind p with VarKw => true | _ => false end) ps with
           | Some raw, Some q => exists x, conv (Some raw) (annotation q) = COk x /\ dget k kw = Some x
           | _, _ => dget k kw = dget k kwargs
           end) /\
        (strict = true -> find (fun p => match p_kind p with VarKw => true | _ => false end) ps = None -> forall k raw, dget k unused = Some raw -> In k (map p_name (p :: filter is_named ps)))).
      { clear E ND HN. intros _ _ (raw & x & HR & HX & E) ND HN. cbn [map] in ND. inversion_clear ND as [|? ? N ND'].
        destruct (IH W3 (dpop (p_name p) unused) (dput (p_name p) x kwargs) kw ND') as (A & B & C); [apply dpop_NoDup; exact NU| |exact E|].
        { intros k HK. destruct (string_dec (p_name p) k) as [<-|NE].
          - exfalso. destruct HK as [HK|HK]; [contradiction|]. apply dget_none in HK; [exact HK|]. apply dget_dpop_same. exact NU.
          - rewrite dget_dput_other by exact NE. apply HN. destruct HK as [HK|HK]; [left; right; exact HK|right; eapply dpop_incl; exact HK]. }
        assert (KW : dget (p_name p) kw = Some x).
        { pose proof (B (p_name p) N) as B1. rewrite (@dget_dpop_same (p_name p) unused NU) in B1. rewrite dget_dput_same in B1. exact B1. }
        split; [|split].
        - intros q [<-|HQ]; [exists raw, x; auto|]. destruct (A q HQ) as (raw' & x' & A1 & A2). exists raw', x'. split; [|exact A2].
          rewrite dget_dpop_other in A1; [exact A1|]. intros EN. apply N. rewrite EN. apply in_map. exact HQ.
        - intros k HK. cbn [map In] in HK. specialize (B k). rewrite dget_dpop_other in B by tauto. rewrite dget_dput_other in B by tauto. apply B. tauto.
        - intros HS HV k raw' HD. cbn [map In]. destruct (string_dec (p_name p) k) as [|NE]; [left; assumption|]. right. apply (C HS HV k raw'). rewrite dget_dpop_other by exact NE. exact HD. }
      assert (IN : is_named p = match p_kind p with PosOrKw | KwOnly => true | _ => false end) by reflexivity.
      destruct (p_kind p) eqn:EK; rewrite IN in *.
      + apply NAMED; auto; [discriminate|]. destruct (dget (p_name p) unused) as [v|] eqn:ED.
        * destruct (conv (Some v) (annotation p)) as [x| |] eqn:EX; cbn [cbind] in E; try discriminate. exists v, x. auto.
        * destruct (p_default p) as [v|] eqn:EDf; [|discriminate]. destruct (conv (Some v) (annotation p)) as [x| |] eqn:EX; cbn [cbind] in E; try discriminate. exists v, x. auto.
      + apply NAMED; auto; [discriminate|]. destruct (dget (p_name p) unused) as [v|] eqn:ED.
        * destruct (conv (Some v) (annotation p)) as [x| |] eqn:EX; cbn [cbind] in E; try discriminate. exists v, x. auto.
        * destruct (p_default p) as [v|] eqn:EDf; [|discriminate]. destruct (conv (Some v) (annotation p)) as [x| |] eqn:EX; cbn [cbind] in E; try discriminate. exists v, x. auto.
      + rewrite (W1 eq_refl) in *. cbn [filter map find]. destruct (go_kw p unused kwargs) as [kw'| |] eqn:EG; cbn [cbind bind_dict] in E; try discriminate.
        assert (kw' = kw) as -> by (destruct (strict && negb (length (@nil (string * pv)) =? 0)); congruence). split; [intros q []|]. split.
        * intros k _. pose proof (@go_kw_ok p unused kwargs kw NU (fun k H => HN k (or_intror H)) EG k) as G. destruct (dget k unused); exact G.
        * discriminate.
      + apply IH; assumption.
      + congruence.
  Qed.

  Lemma go_kw_total p : forall d kwargs, (forall k raw, In (k, raw) d -> exists x, conv (Some raw) (annotation p) = COk x) -> exists kw, go_kw p d kwargs = COk kw.
  Proof.
    induction d as [|[k v] d IH]; intros kwargs H; [eauto|]. destruct (H k v (or_introl eq_refl)) as [x Ex]. rewrite Ex. cbn [cbind]. apply IH. intros k' raw HI. apply (H k' raw). right. exact HI.
  Qed.

  Lemma bind_dict_total ps : kwargs_last ps -> forall unused kwargs,
    NoDup (map p_name (named_params ps)) -> NoDup (map fst unused) ->
    (forall p, In p (named_params ps) -> exists raw x,
       (dget (p_name p) unused = Some raw \/ (dget (p_name p) unused = None /\ p_default p = Some raw)) /\ conv (Some raw) (annotation p) = COk x) ->
    (forall p k raw, var_kw ps = Some p -> dget k unused = Some raw -> ~ In k (map p_name (named_params ps)) -> exists x, conv (Some raw) (annotation p) = COk x) ->
    (strict = true -> var_kw ps = None -> forall k raw, dget k unused = Some raw -> In k (map p_name (named_params ps))) ->
    exists kw, bind_dict accepts strict imports inst ps unused kwargs = COk kw.
  Proof.
    induction ps as [|p ps IH]; intros HW unused kwargs ND NU HA HV HS.
    - cbn [bind_dict]. destruct strict eqn:ES; cbn [andb]; [|eauto]. destruct unused as [|[k v] u]; [cbn; eauto|]. exfalso. apply (HS eq_refl eq_refl k v). cbn. rewrite String.eqb_refl. reflexivity.
    - destruct HW as (W1 & W2 & W3). cbn [bind_dict]. unfold named_params, var_kw in *. cbn [filter find] in *.
      assert (IN : is_named p = match p_kind p with PosOrKw | KwOnly => true | _ => false end) by reflexivity.
      assert (NAMED : is_named p = true -> p_kind p <> VarKw -> exists kw,
        match dget (p_name p) unused, p_default p with
            | None, None => CErr ValueError
            | None, Some v | Some v, _ =>
                cbind (conv (Some v) (annotation p)) (fun x =>
                bind_dict accepts strict imports inst ps (dpop (p_name p) unused) (dput (p_name p) x kwargs))
            end = COk kw).
      { intros HN HK. rewrite HN in *. cbn [map] in ND. inversion_clear ND as [|? ? N ND']. destruct (HA p (or_introl eq_refl)) as (raw & x & HR & HX).
        destruct (IH W3 (dpop (p_name p) unused) (dput (p_name p) x kwargs) ND' (dpop_NoDup (p_name p) NU)) as [kw HB].
        - intros q HQ. destruct (HA q (or_intror HQ)) as (raw' & x' & A1 & A2). exists raw', x'. split; [|exact A2]. rewrite dget_dpop_other; [exact A1|]. intros EN. apply N. rewrite EN. apply in_map. exact HQ.
        - intros q k raw' HF HD HNI. destruct (string_dec (p_name p) k) as [<-|NE]; [rewrite (@dget_dpop_same (p_name p) unused NU) in HD; discriminate|].
          rewrite dget_dpop_other in HD by exact NE. apply (HV q k raw'); [destruct (p_kind p); congruence|exact HD|]. cbn [map In]. tauto.
        - intros S HF k raw' HD. destruct (string_dec (p_name p) k) as [<-|NE]; [rewrite (@dget_dpop_same (p_name p) unused NU) in HD; discriminate|].
          rewrite dget_dpop_other in HD by exact NE. destruct (HS S ltac:(destruct (p_kind p); congruence) k raw' HD) as [HI|HI]; [contradiction|exact HI].
        - exists kw. destruct HR as [->|[-> ->]]; rewrite HX; exact HB. }
      destruct (p_kind p) eqn:EK; rewrite IN in *.
      + apply NAMED; [reflexivity|discriminate].
      + apply NAMED; [reflexivity|discriminate].
      + destruct (@go_kw_total p unused kwargs) as [kw' EG].
        { intros k raw HI. rewrite (W1 eq_refl) in *. apply (HV p k raw); [reflexivity|apply dget_NoDup; assumption|intros []]. }
        rewrite EG. cbn [cbind]. rewrite (W1 eq_refl). cbn [bind_dict length Nat.eqb negb]. rewrite andb_false_r. eauto.
      + apply IH; assumption.
      + congruence.
  Qed.

  Lemma call_receives fn d r : signature_ok (ob_params fn) -> NoDup (map fst d) ->
    safe_call_function accepts strict imports inst (PDict d) fn = COk r ->
    exists kw, ob_call fn [] kw = COk r /\ receives cv strict (ob_params fn) d kw.
  Proof.
    intros [S1 S2] ND E. cbn [safe_call_function] in E. destruct (bind_dict _ _ _ _ (ob_params fn) d []) as [kw| |] eqn:EB; cbn [cbind] in E; try discriminate.
    exists kw. split; [exact E|]. destruct (@bind_dict_ok (ob_params fn) S1 d [] kw S2 ND (fun _ _ => eq_refl) EB) as (A & B & C).
    split; [exact A|exact B|exact C].
  Qed.
End Call.
