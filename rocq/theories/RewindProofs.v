(** Proof technique for rewinding: a congruence on dataset objects that restore_state establishes whatever the object was before. *)
From Coq Require Import QArith.
From Verif Require Import Base Dataset DatasetProofs Wrap WrapProofs Rng Multi Buffer ShuffleBuffer Wrappers MapModel Batch Packing IterMap Blend Concat
  SampleLoader Sharder WrapSpec Rewind.
Local Close Scope Q_scope.
Local Close Scope Z_scope.
Local Open Scope nat_scope.

Definition cong {P} (D : dataset P) (E : ds_obj D -> ds_obj D -> Prop) : Prop :=
  (forall w o1 o2 g, E o1 o2 ->
     let '(o1', g1, e1) := ds_step D w o1 g in let '(o2', g2, e2) := ds_step D w o2 g in E o1' o2' /\ g1 = g2 /\ e1 = e2) /\
  (forall m o1 o2, E (ds_restore D (Some m) o1) (ds_restore D (Some m) o2)).
Definition forgetful {P} (D : dataset P) : Prop := exists E, @cong P D E.

Section Stream.
  Context {P : Type} (D : dataset P) (w : nat) (E : ds_obj D -> ds_obj D -> Prop) (C : cong E).

  Lemma cong_nextn n : forall o1 o2 g e s1, E o1 o2 -> nextn w n (o1, g) = Some (e, s1) ->
    exists o2', nextn w n (o2, g) = Some (e, (o2', snd s1)) /\ E (fst s1) o2'.
  Proof.
    destruct C as (CS & _). induction n as [|n IH]; intros o1 o2 g e s1 HE H; [discriminate|]. cbn [nextn fst snd] in *.
    specialize (CS w o1 o2 g HE). destruct (ds_step D w o1 g) as [[o1' g1] e1]. destruct (ds_step D w o2 g) as [[o2' g2] e2].
    destruct CS as (E' & <- & <-).
    destruct e1; try (injection H as <- <-; exists o2'; split; [reflexivity|exact E']).
    eapply IH; eassumption.
  Qed.

  Lemma cong_stream o1 o2 g : E o1 o2 -> same_stream w (o1, g) (o2, g).
  Proof.
    assert (F : forall (Rel : ds_obj D -> ds_obj D -> Prop),
      (forall n o1 o2 g e s1, Rel o1 o2 -> nextn w n (o1, g) = Some (e, s1) ->
         exists o2', nextn w n (o2, g) = Some (e, (o2', snd s1)) /\ Rel (fst s1) o2') ->
      fsim w (fun s1 s2 : st D => Rel (fst s1) (fst s2) /\ snd s1 = snd s2)).
    { intros Rel H s1 s2 [HE HG] e s1' [n N]. destruct s1 as [a g1], s2 as [b g2]. cbn [fst snd] in *. subst g2.
      destruct (H _ _ _ _ _ _ HE N) as (o2' & N2 & E2). exists (o2', snd s1'). split; [exists n; exact N2|].
      destruct e; cbn [fst snd]; auto. }
    intros HE. apply (@bisim_same_stream _ D w (fun s1 s2 : st D => E (fst s1) (fst s2) /\ snd s1 = snd s2)); [| |split; auto].
    - apply F. exact cong_nextn.
    - intros s1 s2 [HE1 HG] e s1' N.
      assert (G : fsim w (fun s1 s2 : st D => E (fst s2) (fst s1) /\ snd s1 = snd s2)).
      { apply (F (fun a b => E b a)). intros n a b g' e' s1'' HR N'.
        clear - C HR N'. destruct C as (CS & _). revert a b g' HR N'. induction n as [|n IH]; intros; [discriminate|]. cbn [nextn fst snd] in *.
        specialize (CS w b a g' HR). destruct (ds_step D w a g') as [[o1' g1] e1]. destruct (ds_step D w b g') as [[o2' g2] e2].
        destruct CS as (E' & -> & ->).
        destruct e1; try (injection N' as <- <-; exists o2'; split; [reflexivity|exact E']).
        eapply IH; eassumption. }
      destruct (G s1 s2 (conj HE1 (eq_sym HG)) e s1' N) as (s2' & N2 & H2). exists s2'. split; [exact N2|].
      destruct e; auto; unfold flip_rel; destruct H2 as [H2a H2b]; cbn [fst snd] in *; split; auto.
  Qed.
End Stream.

Lemma forgetful_stream {P} (D : dataset P) w m o1 o2 : forgetful D ->
  same_stream w (ds_restore D (Some m) o1, ds_iter D) (ds_restore D (Some m) o2, ds_iter D).
Proof. intros (E & C). apply (cong_stream w C). apply C. Qed.


(** ** rng *)
Section RngEq.
  Context (R : rng_ops).
  Definition req (a b : wrng R) : Prop := g_pend a = g_pend b /\ (g_cur a = g_cur b \/ g_pend a <> None).
  Lemma req_refl a : req a a. Proof. split; auto. Qed.
  Lemma req_force w a b : req a b -> fst (wrng_force w a) = fst (wrng_force w b).
  Proof.
    intros [H1 H2]. unfold wrng_force. cbn [fst]. rewrite <- H1. destruct H2 as [->|H2]; [reflexivity|].
    destruct (g_pend a) as [l|]; [|congruence]. destruct (g_cur a), (g_cur b); reflexivity.
  Qed.
  Lemma req_restore l a b : req (wrng_restore (Some l) a) (wrng_restore (Some l) b).
  Proof. split; [reflexivity|right; cbn; congruence]. Qed.
  Lemma req_below w n a b : req a b -> fst (wrng_below w n a) = fst (wrng_below w n b) /\ req (snd (wrng_below w n a)) (snd (wrng_below w n b)).
  Proof.
    intros H. unfold wrng_below. pose proof (req_force w H) as F. destruct (wrng_force w a) as [x ?], (wrng_force w b) as [y ?]. cbn in F. subst y.
    destruct (rng_below R n x). cbn. split; [reflexivity|apply req_refl].
  Qed.
  Lemma req_choice w ps a b : req a b -> fst (wrng_choice_idx w ps a) = fst (wrng_choice_idx w ps b) /\ req (snd (wrng_choice_idx w ps a)) (snd (wrng_choice_idx w ps b)).
  Proof.
    intros H. unfold wrng_choice_idx. pose proof (req_force w H) as F. destruct ps as [|p [|q ps]]; [|split; auto|];
      (destruct (wrng_force w a) as [x ?], (wrng_force w b) as [y ?]; cbn in F; subst y; destruct (rng_mult R _ x); cbn; split; [reflexivity|apply req_refl]).
  Qed.
  Lemma req_shuffle {X} w (l : list X) a b : req a b -> fst (wrng_shuffle w l a) = fst (wrng_shuffle w l b) /\ req (snd (wrng_shuffle w l a)) (snd (wrng_shuffle w l b)).
  Proof.
    intros H. unfold wrng_shuffle. pose proof (req_force w H) as F. destruct (wrng_force w a) as [x ?], (wrng_force w b) as [y ?]. cbn in F. subst y.
    destruct (rng_perm R _ x). cbn. split; [reflexivity|apply req_refl].
  Qed.
End RngEq.

(** ** single wrappers *)
Definition alike {O G A B} (E : O -> O -> Prop) (x y : action O G A B) : Prop :=
  match x, y with
  | Local o g e, Local o' g' e' => E o o' /\ g = g' /\ e = e'
  | Pull k, Pull k' => forall r, let '(o, g, e) := k r in let '(o', g', e') := k' r in E o o' /\ g = g' /\ e = e'
  | _, _ => False
  end.
Definition tcong {A B} (T : trans A B) (E : t_obj T -> t_obj T -> Prop) : Prop :=
  t_keep T = false /\
  (forall rs w o1 o2 g, E o1 o2 -> alike E (t_act T rs w o1 g) (t_act T rs w o2 g)) /\
  (forall m o1 o2, E (t_restore T (Some m) o1) (t_restore T (Some m) o2)).

Lemma wrap_forgetful {A B} (T : trans A B) (D : dataset A) : (exists E, @tcong A B T E) -> forgetful D -> forgetful (wrap T D).
Proof.
  intros (ET & K & TA & TR) (ED & DS & DR).
  exists (fun x y => ET (w_loc x) (w_loc y) /\ ED (w_in x) (w_in y) /\ w_it x = w_it y). split.
  - intros w x y g (HL & HI & HT). cbn [ds_step wrap]. unfold wrap_step. specialize (TA (ds_restore_sample D w) w _ _ g HL).
    destruct (t_act T (ds_restore_sample D w) w (w_loc x) g) as [o g' e|k|o g'], (t_act T (ds_restore_sample D w) w (w_loc y) g) as [o2 g2 e2|k2|o2 g2];
      cbn [alike] in TA; try contradiction.
    + destruct TA as (HO & -> & ->). cbn. rewrite HT. auto.
    + rewrite HT. specialize (DS w _ _ (cur_it (w_it y)) HI).
      destruct (ds_step D w (w_in x) (cur_it (w_it y))) as [[io ig] ie], (ds_step D w (w_in y) (cur_it (w_it y))) as [[io2 ig2] ie2].
      destruct DS as (HI' & <- & <-). destruct ie.
      * specialize (TA (Some a)). destruct (k (Some a)) as [[o g'] e], (k2 (Some a)) as [[o2 g2] e2]. destruct TA as (HO & -> & ->). cbn. auto.
      * cbn. auto.
      * specialize (TA None). destruct (k None) as [[o g'] e], (k2 None) as [[o2 g2] e2]. destruct TA as (HO & -> & ->). cbn. auto.
      * cbn. auto.
  - intros m x y. cbn [ds_restore wrap w_loc w_in w_it option_map]. rewrite K. auto.
Qed.

(** wrappers whose restore_state replaces everything, and which do not reset the inner dataset *)
Lemma plain_tcong {A B} (T : trans A B) : t_keep T = false -> (forall m o1 o2, t_restore T (Some m) o1 = t_restore T (Some m) o2) ->
  no_reset T -> exists E, @tcong A B T E.
Proof.
  intros K TR NR. exists eq. split; [exact K|]. split; [|exact TR]. intros rs w o1 o2 g <-.
  destruct (t_act T rs w o1 g) as [o g' e|k|o g'] eqn:E; cbn; auto; [|exact (NR _ _ _ _ _ _ E)]. intros r. destruct (k r) as [[? ?] ?]. auto.
Qed.

Lemma shuffle_tcong {A} R nw size : exists E, @tcong A A (shuffle_buffer R nw size) E.
Proof.
  exists (fun a b => sb_buf a = sb_buf b /\ req (sb_rng a) (sb_rng b)). split; [reflexivity|]. split.
  - intros rs w [b1 r1] [b2 r2] g [H1 H2]. cbn [sb_buf sb_rng] in *. subst b2. cbn [t_act shuffle_buffer]. unfold sb_act.
    assert (Y : forall g', alike (fun a b => sb_buf a = sb_buf b /\ req (sb_rng a) (sb_rng b)) (sb_yield w (mkSb b1 r1) g' (A := A)) (sb_yield w (mkSb b1 r2) g')).
    { intros g'. unfold sb_yield. cbn [sb_buf sb_rng]. pose proof (req_below w (buf_len w b1) H2) as [F1 F2].
      destruct (wrng_below w (buf_len w b1) r1) as [i r1'], (wrng_below w (buf_len w b1) r2) as [i2 r2']. cbn [fst snd] in F1, F2. subst i2.
      destruct (buf_pop w i b1) as [[a b]|]; cbn; auto. }
    destruct g; cbn [sb_buf sb_rng].
    + destruct (buf_start rs w b1); cbn; auto.
    + destruct (size <=? buf_len w b1); [apply Y|]. cbn. intros [a|]; cbn; auto.
    + destruct (0 <? buf_len w b1); [apply Y|]. cbn; auto.
  - intros m o1 o2. cbn. split; [reflexivity|apply req_restore].
Qed.

(** ** several inner datasets *)
Lemma dupd_rel {F : nat -> Type} (Q : forall i, F i -> F i -> Prop) (f g : forall i, F i) i (x y : F i) :
  (forall j, Q j (f j) (g j)) -> Q i x y -> forall j, Q j (dupd f x j) (dupd g y j).
Proof. intros H HX j. unfold dupd. destruct (nat_dec i j) as [e|]; [|apply H]. destruct e. exact HX. Qed.

Lemma family_cong {A} n (D : nat -> dataset A) : (forall i, i < n -> forgetful (D i)) ->
  exists E : forall i, ds_obj (D i) -> ds_obj (D i) -> Prop, forall i, i < n -> cong (@E i).
Proof.
  intros H.
  (* for each i < n some congruence; choose by taking the union of all of them *)
  exists (fun i a b => exists E, @cong A (D i) E /\ E a b). intros i L. split.
  - intros w o1 o2 g (E & C & HE). pose proof (proj1 C w o1 o2 g HE) as K.
    destruct (ds_step (D i) w o1 g) as [[o1' g1] e1], (ds_step (D i) w o2 g) as [[o2' g2] e2]. destruct K as (K & K2 & K3). split; [exists E; auto|auto].
  - intros m o1 o2. destruct (H i L) as (E & C). exists E. split; [exact C|apply C].
Qed.

Lemma live_lt n has w k i : nth_error (@live n has w) k = Some i -> i < n.
Proof. intros H. apply nth_error_In in H. unfold live in H. apply filter_In in H. destruct H as [H _]. apply in_seq in H. lia. Qed.

Lemma blend_forgetful {A} R n (D : nat -> dataset A) weight has : (forall i, i < n -> forgetful (D i)) -> forgetful (blend_ds R n D weight has).
Proof.
  intros H. destruct (family_cong H) as (E & C).
  exists (fun a b : bl_obj R D => req (bl_rng a) (bl_rng b) /\ forall i, i < n -> E i (bl_in a i) (bl_in b i)). split.
  - intros w [r1 i1] [r2 i2] g [HR HI]. cbn [bl_rng bl_in] in *. cbn [ds_step blend_ds]. unfold bl_step. destruct g as [|its|its k].
    + destruct (live n has w); cbn; auto.
    + destruct (drawable n weight has w); [|cbn; auto]. cbn [bl_rng bl_in].
      pose proof (req_choice w (probs n weight has w) HR) as [F1 F2].
      destruct (wrng_choice_idx w _ r1) as [k r1'], (wrng_choice_idx w _ r2) as [k2 r2']. cbn [fst snd] in F1, F2. subst k2. cbn. auto.
    + destruct (nth_error (live n has w) k) as [i|] eqn:EK; [|cbn; auto]. pose proof (live_lt EK) as L. cbn [bl_rng bl_in].
      pose proof (proj1 (C i L) w _ _ (Multi.running (its i)) (HI i L)) as K.
      destruct (ds_step (D i) w (i1 i) (Multi.running (its i))) as [[io ig] ie], (ds_step (D i) w (i2 i) (Multi.running (its i))) as [[io2 ig2] ie2].
      destruct K as (K & <- & <-).
      assert (DU : forall j, j < n -> E j (dupd i1 io j) (dupd i2 io2 j)).
      { intros j. apply (@dupd_rel (fun i => ds_obj (D i)) (fun j a b => j < n -> E j a b)); auto. }
      destruct ie; cbn; auto.
  - intros m o1 o2. cbn. split; [apply req_restore|]. intros i L. apply (C i L).
Qed.

Lemma concat_forgetful {A} n (D : nat -> dataset A) : (forall i, i < n -> forgetful (D i)) -> forgetful (concat_ds n D).
Proof.
  intros H. destruct (family_cong H) as (E & C).
  exists (fun a b : cc_obj D => forall i, i < n -> E i (a i) (b i)). split.
  - intros w i1 i2 [i it] HI. cbn [ds_step concat_ds cc_step]. destruct (Nat.ltb_spec i n) as [L|L]; [|auto].
    pose proof (proj1 (C i L) w _ _ (Multi.running it) (HI i L)) as K.
    destruct (ds_step (D i) w (i1 i) (Multi.running it)) as [[io ig] ie], (ds_step (D i) w (i2 i) (Multi.running it)) as [[io2 ig2] ie2].
    destruct K as (K & <- & <-).
    assert (DU : forall j, j < n -> E j (dupd i1 io j) (dupd i2 io2 j)).
    { intros j. apply (@dupd_rel (fun i => ds_obj (D i)) (fun j a b => j < n -> E j a b)); auto. }
    destruct ie; auto.
  - intros m o1 o2 i L. apply (C i L).
Qed.

(** ** the loader *)
Section Loader.
  Context {X : Type} (R : rng_ops) (shards : list (list shseq)) (content : shseq -> list (sample X)) (par : nat) (shuffle : shuffling)
    (loop : bool) (rsample : nat -> rkey -> result (sample X)).

  Lemma req_draw w ws (a b : wrng R) : req a b -> fst (draw w ws a) = fst (draw w ws b) /\ req (snd (draw w ws a)) (snd (draw w ws b)).
  Proof.
    intros H. unfold draw. pose proof (req_below w (length ws) H) as [F1 F2].
    destruct (wrng_below w (length ws) a), (wrng_below w (length ws) b). cbn [fst snd] in *. subst. auto.
  Qed.
  Lemma req_draws n w ws : forall a b : wrng R, req a b -> fst (draws n w ws a) = fst (draws n w ws b) /\ req (snd (draws n w ws a)) (snd (draws n w ws b)).
  Proof.
    induction n as [|n IH]; intros a b H; cbn [draws]; [auto|]. pose proof (req_draw w ws H) as [F1 F2].
    destruct (draw w ws a) as [s1 r1], (draw w ws b) as [s2 r2]. cbn [fst snd] in F1, F2. subst s2. pose proof (IH _ _ F2) as [G1 G2].
    destruct (draws n w ws r1) as [l1 q1], (draws n w ws r2) as [l2 q2]. cbn [fst snd] in *. subst l2. auto.
  Qed.
  Lemma req_once w ws (a b : wrng R) : req a b ->
    fst (shards_once par shuffle w ws a) = fst (shards_once par shuffle w ws b) /\ req (snd (shards_once par shuffle w ws a)) (snd (shards_once par shuffle w ws b)).
  Proof.
    intros H. unfold shards_once. destruct shuffle; [auto|now apply req_draws|].
    pose proof (req_shuffle w (concat (repeat ws k)) H) as [F1 F2].
    destruct (wrng_shuffle w _ a), (wrng_shuffle w _ b). cbn [fst snd] in *. subst. auto.
  Qed.

  Lemma loader_forgetful : forgetful (loader_ds R shards content par shuffle loop rsample).
  Proof.
    exists (fun a b : sl_obj R => req (so_rng a) (so_rng b) /\ so_slots a = so_slots b). split.
    - intros w [r1 sl] [r2 sl2] g [HR HS]. cbn [so_rng so_slots] in *. subst sl2. cbn [ds_step loader_ds]. unfold slot_at. cbn [so_slots so_rng].
      set (s := nth w sl (empty_slot par)). destruct g as [| |probs].
      + destruct (sl_bad s); [cbn; auto|]. destruct (worker_shards shards w); cbn; auto.
      + unfold sl_head. destruct (existsb _ (sl_act s) || (0 <? length (sl_pend s))).
        * destruct (length (sl_act s) =? par); cbn; auto.
        * pose proof (req_once w (worker_shards shards w) HR) as [F1 F2].
          destruct (shards_once par shuffle w (worker_shards shards w) r1) as [x1 q1], (shards_once par shuffle w (worker_shards shards w) r2) as [x2 q2].
          cbn [fst snd] in F1, F2. subst x2. destruct x1; cbn; auto.
      + unfold sl_loop. destruct (forallb _ probs); [cbn; auto|].
        assert (F : exists i q1 q2, match shuffle with NoShuffle => (0, r1) | _ => wrng_choice_idx w probs r1 end = (i, q1) /\
                                    match shuffle with NoShuffle => (0, r2) | _ => wrng_choice_idx w probs r2 end = (i, q2) /\ req q1 q2).
        { pose proof (req_choice w probs HR) as [F1 F2]. destruct (wrng_choice_idx w probs r1) as [i q1], (wrng_choice_idx w probs r2) as [i2 q2].
          cbn [fst snd] in F1, F2. subst i2. destruct shuffle; eauto 6. }
        destruct F as (i & q1 & q2 & -> & -> & HQ).
        destruct (match shuffle with NoShuffle => negb (par =? 1) | _ => false end); [cbn; auto|].
        destruct (nth_error (sl_act s) i) as [[[sh k]|]|]; [|cbn; auto|cbn; auto].
        destruct (nth_error (content sh) k); [cbn; auto|]. destruct (sl_pend s); [|cbn; auto].
        destruct shuffle; [cbn; auto| |cbn; auto].
        pose proof (req_draw w (worker_shards shards w) HQ) as [F1 F2].
        destruct (draw w (worker_shards shards w) q1) as [t1 p1], (draw w (worker_shards shards w) q2) as [t2 p2].
        cbn [fst snd] in F1, F2. subst t2. destruct t1; cbn; auto.
    - intros [rs slots] o1 o2. cbn. split; [apply req_restore|reflexivity].
  Qed.
End Loader.
