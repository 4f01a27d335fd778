(** C76: every delivered sample has its own restore key and is not changed afterwards. *)
From Coq Require Import String.
From Verif Require Import Base Dataset Wrap Wrappers MapModel ObjectKeys WrapSpec.

Section Keys.
  Context {V : Type}.

  (** The keys are right: the j-th sample of the i-th input sample, whose key is [k], has the key that the rest of the model gives it *)
  Definition keys_right (i : nat) (k : rkey) (ds : list (nat * obj V)) : Prop :=
    map (fun d => o_key (snd d)) ds = map (fun j => mapgen_key i j k) (seq 0 (length ds)).

  (** Nothing is changed after its delivery *)
  Definition kept (h : list (obj V)) (ds : list (nat * obj V)) : Prop := Forall (fun d => nth_error h (fst d) = Some (snd d)) ds.

  (** The function yields a new object every time, made with the key of its input; it may yield its input itself, but only last *)
  Definition fresh_each (ys : list (yielded V)) : Prop :=
    forall j y, nth_error ys j = Some y ->
      match y with YNew _ None => True | YOld 0 _ => S j = length ys | _ => False end.

  Lemma fresh_cons y ys : fresh_each (y :: ys) ->
    match y with YNew _ None => fresh_each ys | YOld 0 _ => ys = [] | _ => False end.
  Proof.
    intros H. pose proof (H 0 y eq_refl) as H0. destruct y as [[|r] f|f [k|]]; try contradiction.
    - cbn in H0. destruct ys; [reflexivity|discriminate].
    - intros j y E. specialize (H (S j) y E). destruct y as [[|r] g|g [k|]]; auto.
  Qed.

  Lemma fresh_run i a ys : fresh_each ys -> forall j h, hd_error h = Some a -> 
    exists h' ds, yield_all i j h ys = Some (h', ds) /\
      map (fun d => o_key (snd d)) ds = map (fun j => mapgen_key i j (o_key a)) (seq j (length ys)) /\ length ds = length ys /\
      kept h' ds /\ (forall r o, 0 < r -> nth_error h r = Some o -> nth_error h' r = Some o) /\ length h <= length h'.
  Proof.
    induction ys as [|y ys IH]; intros HF j h HD.
    - exists h, []. cbn. repeat split; auto. constructor.
    - destruct h as [|a0 h]; [discriminate|]. cbn in HD. injection HD as ->. pose proof (fresh_cons HF) as H1.
      destruct y as [[|r] f|f [k|]]; try contradiction.
      + subst ys. cbn [yield_all yield_one nth_error upd].
        eexists _, _. split; [reflexivity|]. split; [reflexivity|]. split; [reflexivity|]. split.
        * constructor; [reflexivity|constructor].
        * split; [|cbn; lia]. intros [|r] o Hr E; [lia|exact E].
      + cbn [yield_all yield_one]. set (o' := mkO (f (o_val a)) (mapgen_key i j (o_key a))).
        destruct (IH H1 (S j) ((a :: h) ++ [o']) eq_refl) as (h' & ds & E & HK & HL & HKp & HO & HLen). rewrite E.
        eexists _, _. split; [reflexivity|]. split; [cbn; f_equal; exact HK|]. split; [cbn; f_equal; exact HL|]. rewrite app_length in HLen. cbn in HLen.
        split; [|split].
        * constructor; [|exact HKp]. cbn [fst snd]. apply HO; [cbn; lia|]. rewrite nth_error_app2 by lia. rewrite Nat.sub_diag. reflexivity.
        * intros r o Hr Er. apply HO; [exact Hr|]. rewrite nth_error_app1; [exact Er|]. apply nth_error_Some. congruence.
        * cbn. lia.
  Qed.

  (** a length of restore keys that no explicit key of the function has *)
  Definition longer (ys : list (yielded V)) : nat :=
    S (fold_right (fun y n => match y with YNew _ (Some k) => length k + n | _ => n end) 0 ys).
  Lemma longer_lt ys f k : In (YNew f (Some k)) ys -> length k < longer ys.
  Proof.
    unfold longer. induction ys as [|y ys IH]; [intros []|]. cbn [fold_right]. intros [-> |I]; [lia|].
    specialize (IH I). destruct y as [r g|g [k'|]]; lia.
  Qed.

  Lemma right_fresh i n ys : (forall f k, In (YNew f (Some k)) ys -> length k <> n) -> forall j (h h' : list (obj V)) ds,
    (exists a l, h = a :: l /\ length (o_key a) = n /\ Forall (fun o : obj V => length (o_key o) = 3 + n) l) ->
    yield_all i j h ys = Some (h', ds) -> Forall (fun d => length (o_key (snd d)) = 3 + n) ds -> fresh_each ys.
  Proof.
    induction ys as [|y ys IH]; intros HN j h h' ds (a & l & -> & HA & HL) E HR; [intros [|j'] y; discriminate|].
    assert (HN' : forall f k, In (YNew f (Some k)) ys -> length k <> n) by (intros f k I; apply (HN f k); right; exact I).
    cbn [yield_all] in E. destruct (yield_one i j (a :: l) y) as [[h1 d]|] eqn:E1; [|discriminate].
    destruct (yield_all i (S j) h1 ys) as [[h2 ds']|] eqn:E2; [|discriminate]. injection E as <- <-.
    pose proof (Forall_inv HR) as H1. pose proof (Forall_inv_tail HR) as H2. destruct y as [r f|f own].
    - cbn [yield_one] in E1. destruct (nth_error (a :: l) r) as [o|] eqn:Er; [|discriminate]. injection E1 as <- <-. cbn in H1.
      destruct r as [|r].
      + cbn in Er. injection Er as <-. destruct ys as [|y2 ys].
        * intros [|[|j']] y; cbn; intros [= <-]; reflexivity.
        * exfalso. cbn [upd] in E2. cbn [yield_all] in E2. destruct (yield_one i (S j) _ y2) as [[h3 d]|] eqn:E3; [|discriminate].
          destruct (yield_all i (S (S j)) h3 ys) as [[h4 ds'']|]; [|discriminate]. injection E2 as _ <-. pose proof (Forall_inv H2) as H3.
          destruct y2 as [r2 f2|f2 [k2|]]; cbn [yield_one] in E3.
          -- destruct r2 as [|r2]; cbn [nth_error] in E3; [injection E3 as _ <-; cbn in H3; lia|].
             destruct (nth_error l r2) as [o2|] eqn:Eo; [|discriminate]. injection E3 as _ <-. cbn in H3.
             rewrite Forall_forall in HL. pose proof (HL o2 (nth_error_In _ _ Eo)). lia.
          -- injection E3 as _ <-. cbn in H3. apply (HN f2 k2); [right; left; reflexivity|lia].
          -- injection E3 as _ <-. cbn in H3. lia.
      + exfalso. cbn in Er. rewrite Forall_forall in HL. pose proof (HL o (nth_error_In _ _ Er)). lia.
    - cbn [yield_one] in E1. injection E1 as <- <-. cbn in H1. destruct own as [k|].
      + exfalso. apply (HN f k); [left; reflexivity|lia].
      + assert (F : fresh_each ys).
        { eapply (IH HN'); [|exact E2|exact H2]. exists a, (l ++ [mkO (f (o_val a)) (mapgen_key i j (o_key a))]). split; [reflexivity|].
          split; [exact HA|]. apply Forall_app. split; [exact HL|]. constructor; [cbn; lia|constructor]. }
        intros [|j'] y Ey; cbn in Ey; [injection Ey as <-; exact I|]. specialize (F _ _ Ey). destruct y as [[|r] g|g [k|]]; auto. cbn. lia.
  Qed.

  (** Whatever the generator function does: all keys are right for every input sample if and only if it yields a new object with its
      input's key each time, or its input itself at the very end *)
  Theorem C76_own_keys (v : V) i ys :
    (forall k, exists h ds, yield_all i 0 [mkO v k] ys = Some (h, ds) /\ keys_right i k ds) <-> fresh_each ys.
  Proof.
    split.
    - intros H. destruct (H (repeat (AInt 0) (longer ys))) as (h & ds & E & K).
      eapply (@right_fresh i (longer ys)); [intros f k I; pose proof (longer_lt I); lia| |exact E|].
      + exists (mkO v (repeat (AInt 0) (longer ys))), []. split; [reflexivity|]. split; [apply repeat_length|constructor].
      + apply Forall_forall. intros d I. unfold keys_right in K.
        assert (I2 : In (o_key (snd d)) (map (fun d => o_key (snd d)) ds)) by (apply (in_map (fun d => o_key (snd d))); exact I).
        rewrite K in I2. apply in_map_iff in I2 as (j & <- & _). cbn [mapgen_key length]. rewrite repeat_length. reflexivity.
    - intros HF k. destruct (@fresh_run i (mkO v k) ys HF 0 [mkO v k] eq_refl) as (h & ds & E & HK & HL & _).
      exists h, ds. split; [exact E|]. unfold keys_right. rewrite HL. exact HK.
  Qed.

  (** and then no delivered sample is changed later *)
  Theorem C76_not_changed (v : V) i ys k : fresh_each ys ->
    exists h ds, yield_all i 0 [mkO v k] ys = Some (h, ds) /\ length ds = length ys /\ kept h ds.
  Proof.
    intros HF. destruct (@fresh_run i (mkO v k) ys HF 0 [mkO v k] eq_refl) as (h & ds & E & _ & HL & HK & _). eauto.
  Qed.

  (** A function that returns one object for every sample (a placeholder for broken samples, say): its key gets longer without end,
      and what was delivered before is changed *)
  Theorem C76_shared_object_refuted i (o : obj V) n : length (shared i o n) = n /\
    forall j o', nth_error (shared i o n) j = Some o' -> length (o_key o') = 2 * S j + length (o_key o).
  Proof.
    revert i o. induction n as [|n IH]; intros i o; cbn [shared].
    - split; [reflexivity|]. intros [|j] o'; discriminate.
    - destruct (IH (S i) (mkO (o_val o) (map_key i (o_key o)))) as [H1 H2]. split; [cbn [length]; rewrite H1; reflexivity|].
      intros [|j] o'; cbn [nth_error].
      + intros [= <-]. cbn. lia.
      + intros E. rewrite (H2 _ _ E). cbn [o_key map_key length]. lia.
  Qed.
End Keys.
Print Assumptions C76_own_keys.
Print Assumptions C76_not_changed.
Print Assumptions C76_shared_object_refuted.

(** two new samples and then the changed input *)
Example C76_nonvacuous :
  let ys := [YNew (fun x => x + 1) None; YNew (fun x => x + 2) None; YOld 0 (fun x => x + 3)] in
  fresh_each ys /\
  exists h, yield_all 5 0 [mkO 10 [AInt 8]] ys =
    Some (h, [(1, mkO 11 [AStr "MapDataset"; AInt 5; AInt 0; AInt 8]); (2, mkO 12 [AStr "MapDataset"; AInt 5; AInt 1; AInt 8]);
              (0, mkO 13 [AStr "MapDataset"; AInt 5; AInt 2; AInt 8])]).
Proof.
  cbv zeta. split.
  - intros [|[|[|[|j]]]] y E; cbn in E; try discriminate; injection E as <-; cbn; auto.
  - eexists. vm_compute. reflexivity.
Qed.

(** "yield sample" twice, to train with every sample two times: the second delivery changes the sample delivered first, and its key
    does not bring it back: the dataset below is asked for a key that is not one of its own *)
Theorem C76_yield_twice_refuted : let ys := [YOld 0 (fun x => x); YOld 0 (fun x => x)] in
  let f := (fun w i x => ([x; x], GEnd)) : nat -> nat -> nat -> list nat * gend in
  exists h o1 o2, yield_all 0 0 [mkO 0 (src_key 0)] ys = Some (h, [(0, o1); (0, o2)]) /\
    nth_error h 0 <> Some o1 /\
    ds_restore_sample (wrap (mapgen_ds 1 f) (stream_ds (fun i => i))) 0 (o_key o1) = Ok (mkS 0 (o_key o1)) /\
    (exists e, ds_restore_sample (wrap (mapgen_ds 1 f) (stream_ds (fun i => i))) 0 (o_key o2) = Err e).
Proof.
  cbv zeta. eexists _, _, _. split; [vm_compute; reflexivity|]. split; [vm_compute; discriminate|].
  split; [vm_compute; reflexivity|]. eexists. vm_compute. reflexivity.
Qed.
Print Assumptions C76_yield_twice_refuted.
