(** Stage by stage: what the wrappers that a task encoder stacks up do to the epochs. *)
From Coq Require Import String QArith.
From Verif Require Import Base Dataset DatasetProofs Wrap WrapProofs WrapSpec WrapLib Rng Sharder Wrappers MapModel IdxProofs MapGenProofs Batch BatchSpec BatchProofs
  GroupBatch Packing ShuffleBuffer Blend BlendSpec Concat TaskEncoder TaskEncoderSpec P_Wrappers P_Batch P_Blend P_GroupBatch.
Local Close Scope Q_scope.
Local Close Scope Z_scope.
Local Open Scope string_scope.
Local Open Scope list_scope.
Local Open Scope nat_scope.

Section Events.
  Context {A B : Type} (g : nat -> sample A -> list (sample B)) (ev : nat -> list (event (sample A)) -> list (event (sample B))).
  Hypothesis ev_nil : forall i, ev i [] = [].
  Hypothesis ev_yield : forall i a l, ev i (Yield a :: l) = map Yield (g i a) ++ ev (S i) l.
  Hypothesis ev_done : forall i l, ev i (Done :: l) = Done :: ev i l.

  Lemma ev_epoch xs : forall i l, ev i (epoch xs ++ l) = epoch (each g i xs) ++ ev (i + length xs) l.
  Proof.
    induction xs as [|a xs IH]; intros i l.
    - cbn [epoch map app each length]. rewrite ev_done, Nat.add_0_r. reflexivity.
    - change (epoch (a :: xs) ++ l) with (Yield a :: (epoch xs ++ l)). rewrite ev_yield, IH. cbn [each length].
      unfold epoch. rewrite map_app, <- !app_assoc. replace (S i + length xs) with (i + S (length xs)) by lia. reflexivity.
  Qed.
  Lemma ev_epochs_each xss : forall i, ev i (concat (map epoch xss)) = concat (map epoch (each_epoch g i xss)).
  Proof.
    induction xss as [|xs xss IH]; intros i; cbn [map concat each_epoch]; [apply ev_nil|]. rewrite ev_epoch, IH. reflexivity.
  Qed.
End Events.

Lemma each_pl {A B} (g : nat -> sample A -> list (sample B)) (h : nat -> A -> list B) :
  (forall i a, map pl (g i a) = h i (pl a)) -> forall l i, map pl (each g i l) = each h i (map pl l).
Proof. intros H. induction l as [|a l IH]; intros i; cbn [each map]; [reflexivity|]. rewrite map_app, H, IH. reflexivity. Qed.
Lemma each_epoch_pl {A B} (g : nat -> sample A -> list (sample B)) (h : nat -> A -> list B) :
  (forall i a, map pl (g i a) = h i (pl a)) -> forall l i, map (map pl) (each_epoch g i l) = each_epoch h i (map (map pl) l).
Proof.
  intros H. induction l as [|a l IH]; intros i; cbn [each_epoch map]; [reflexivity|].
  rewrite (each_pl H), IH, map_length. reflexivity.
Qed.

Lemma clean_all {A} (xss : list (list (sample A))) : clean (concat (map epoch xss)).
Proof. rewrite <- (app_nil_r (concat _)). apply (@clean_epochs _ xss []). Qed.

Lemma runs_map {A B} nw (f : nat -> nat -> A -> ures B) (D : dataset A) w eps :
  w < nw -> no_failure (Fn f) -> runs w D eps -> runs w (wrap (map_ds nw f) D) (each_epoch (outputs (Fn f) w) 0 eps).
Proof.
  intros Hw HF (xss & E & <-).
  set (g := fun i (a : sample A) => match f w i (pl a) with UOk b => [mkS b (AStr "MapDataset" :: AInt i :: rk a)] | _ => [] end).
  exists (each_epoch g 0 xss). split.
  - rewrite <- (@ev_epochs_each _ _ g (fun i l => mapped f w i l)).
    + apply C34_map_in_order; auto. apply clean_all.
    + reflexivity.
    + intros i a l. cbn [mapped]. unfold g. destruct (f w i (pl a)); reflexivity.
    + reflexivity.
  - apply each_epoch_pl. intros i a. unfold g. cbn [outputs]. destruct (f w i (pl a)); reflexivity.
Qed.

Lemma mg_outs_pl {A B} (f : nat -> nat -> A -> list B * gend) w i a : map pl (mg_outs f w i a) = fst (f w i (pl a)).
Proof.
  unfold mg_outs. rewrite map_map. cbn [pl].
  assert (G : forall (l : list B) k, map (fun x : nat * B => snd x) (combine (seq k (length l)) l) = l).
  { induction l as [|x l IH]; intros k; cbn; [reflexivity|]. rewrite IH. reflexivity. }
  apply G.
Qed.

Lemma runs_mapgen {A B} nw (f : nat -> nat -> A -> list B * gend) (D : dataset A) w eps :
  w < nw -> no_failure (GenFn f) -> runs w D eps -> runs w (wrap (mapgen_ds nw f) D) (each_epoch (outputs (GenFn f) w) 0 eps).
Proof.
  intros Hw HF (xss & E & <-). exists (each_epoch (mg_outs f w) 0 xss). split.
  - rewrite <- (@ev_epochs_each _ _ _ (mg_events f w)); try reflexivity. apply C34_mapgen_in_order; auto. apply clean_all.
  - apply each_epoch_pl. intros i a. apply mg_outs_pl.
Qed.

Lemma groups_map {X Y} (h : X -> Y) size drop xs gs : groups size drop xs gs -> groups size drop (map h xs) (map (map h) gs).
Proof.
  intros (full & tail & HF & HT & -> & ->). exists (map (map h) full), (map h tail).
  split; [apply Forall_map; eapply Forall_impl; [|exact HF]; cbn; intros g <-; apply map_length|].
  split; [rewrite map_length; exact HT|]. split; [rewrite map_app, concat_map; reflexivity|].
  destruct drop; [reflexivity|]. destruct tail; [reflexivity|]. rewrite map_app. reflexivity.
Qed.

Lemma epl_epochs {A} (cs : list (list A)) : forall outs : list (event (sample A)),
  map epl outs = concat (map (fun c => map Yield c ++ [Done]) cs) ->
  exists yss, outs = concat (map epoch yss) /\ map (map pl) yss = cs.
Proof.
  induction cs as [|c cs IH]; intros outs H; cbn [map concat] in H.
  - destruct outs; [exists []; auto|discriminate].
  - revert outs H. induction c as [|x c IHc]; intros outs H; cbn [map app] in H.
    + destruct outs as [|e outs]; [discriminate|]. cbn [map] in H. injection H as He H. destruct (IH _ H) as (yss & -> & <-).
      destruct e; try discriminate. exists ([] :: yss). auto.
    + destruct outs as [|e outs]; [discriminate|]. cbn [map] in H. injection H as He H. destruct (IHc _ H) as (yss & -> & E2).
      destruct e as [a| | |]; try discriminate. injection He as He. destruct yss as [|ys yss]; [discriminate|].
      exists ((a :: ys) :: yss). split; [reflexivity|]. cbn [map] in *. injection E2 as E2 E3. congruence.
Qed.

Lemma batch_contents_each {A B} (f : nat -> nat -> list A -> ures B) w gs : forall i,
  batch_contents (f w) i gs = each (outputs (Fn f) w) i gs.
Proof. induction gs as [|g gs IH]; intros i; cbn [batch_contents each]; [reflexivity|]. rewrite IH. reflexivity. Qed.
Lemma batched_contents_each {A B} (f : nat -> nat -> list A -> ures B) w gss : forall i,
  batched_contents (f w) i gss =
  concat (map (fun c => map Yield c ++ [Done]) (each_epoch (outputs (Fn f) w) i (map (map (map pl)) gss))).
Proof.
  induction gss as [|gs gss IH]; intros i; cbn [batched_contents each_epoch map concat]; [reflexivity|].
  rewrite batch_contents_each, map_length, IH, <- app_assoc. reflexivity.
Qed.

Lemma runs_batch {A B} nw size drop (f : nat -> nat -> list A -> ures B) (D : dataset A) w eps :
  w < nw -> 0 < size -> no_failure (Fn f) -> runs w D eps ->
  exists gss, Forall2 (groups size drop) eps gss /\ runs w (wrap (batch_ds nw size drop f) D) (each_epoch (outputs (Fn f) w) 0 gss).
Proof.
  intros Hw Hs HF (xss & E & <-). destruct (groups_exist2 drop xss Hs) as [gss G].
  destruct (C30_batches_skipping Hw Hs HF E G) as (outs & EO & HO). exists (map (map (map pl)) gss). split.
  - clear - G. induction G; cbn [map]; constructor; auto. apply groups_map. assumption.
  - rewrite batched_contents_each in HO. destruct (epl_epochs HO) as (yss & -> & HY). exists yss. auto.
Qed.

Lemma runs_log {A} nw (D : dataset A) w eps : w < nw -> (runs w (wrap (log_ds nw) D) eps <-> runs w D eps).
Proof.
  intros Hw. split; intros (xss & E & <-); exists xss; (split; [|reflexivity]);
    apply (@C36_log_transparent A nw D w _ Hw (clean_all xss)); exact E.
Qed.

(** the numbering of epochs: any two observations of as many epochs agree *)
Lemma epochs_prefix_eq {A} (l1 : list (list (sample A))) : forall l2 r, length l1 = length l2 ->
  concat (map epoch l1) = concat (map epoch l2) ++ r -> l1 = l2.
Proof.
  induction l1 as [|x l1 IH]; intros [|y l2] r HL E; try discriminate; [reflexivity|]. injection HL as HL.
  cbn [map concat] in E. unfold epoch in E at 1 3. rewrite <- !app_assoc in E. cbn [app] in E.
  assert (x = y /\ concat (map epoch l1) = concat (map epoch l2) ++ r) as [-> E2].
  { clear IH HL. revert y E. induction x as [|a x IHx]; intros [|b y] E; cbn [map app] in E; try discriminate.
    - injection E as E. auto.
    - injection E as -> E. destruct (IHx _ E) as [-> ?]. auto. }
  f_equal. eapply IH; eauto.
Qed.
Lemma runs_det {A} (D : dataset A) w e1 e2 : runs w D e1 -> runs w D e2 -> length e1 = length e2 -> e1 = e2.
Proof.
  intros (x1 & E1 & <-) (x2 & E2 & <-) HL. rewrite !map_length in HL. f_equal.
  assert (G : forall l1 l2 : list (event (sample A)), emits w (fresh D) l1 -> emits w (fresh D) l2 -> length l1 <= length l2 -> exists r, l2 = l1 ++ r).
  { intros l1 l2 H1 H2 H. exists (skipn (length l1) l2). rewrite <- (firstn_skipn (length l1) l2) at 1. f_equal.
    symmetry. eapply emits_det; [exact H1| |rewrite firstn_length; lia]. eapply emits_prefix. rewrite firstn_skipn. exact H2. }
  destruct (Nat.le_ge_cases (length (concat (map epoch x1))) (length (concat (map epoch x2)))) as [L|L].
  - destruct (G _ _ E1 E2 L) as [r Hr]. symmetry. eapply epochs_prefix_eq; eauto.
  - destruct (G _ _ E2 E1 L) as [r Hr]. eapply epochs_prefix_eq; eauto.
Qed.

(** *** restore_state(None) brings the pipeline back to its beginning *)
From Verif Require Import ResetProofs.

Definition keyless {A B} (_ : rkey -> result (sample A)) (_ : nat) (_ : sample B) : Prop := True.

Section Resettable.
  Context {A B : Type} (nw : nat).

  Lemma map_resettable (f : nat -> nat -> A -> ures B) (D : dataset A) :
    resettable D true nw -> resettable (wrap (map_ds nw f) D) true nw.
  Proof.
    intros H. eapply (@wrap_resettable A B _ D nw false false keyless); [reflexivity|apply idx_no_reset|intros; reflexivity|discriminate|discriminate| |exact H].
    intros w rs Hw. eexists _, _. apply idx_local_ok; [exact Hw|intros; apply map_h_not_done|intros; exact I].
  Qed.

  Lemma mapgen_resettable (f : nat -> nat -> A -> list B * gend) (D : dataset A) :
    resettable D true nw -> resettable (wrap (mapgen_ds nw f) D) true nw.
  Proof.
    intros H. eapply (@wrap_resettable A B _ D nw false false keyless True); [reflexivity|apply mg_no_reset|intros; reflexivity|discriminate|discriminate| |exact H].
    intros w rs Hw. exists (fun _ _ => True), (fun _ _ => True). constructor; auto.
      + intros b [o g] o' g' e _ Ha. unfold act in Ha. cbn [mapgen_ds t_act fst snd] in Ha.
        destruct g as [|a i j t| |a i j]; try discriminate.
        * destruct (nth w (mg_key o) None); [|injection Ha as <- <- <-; exact I]. destruct (nth w (mg_off o) None); [|injection Ha as <- <- <-; exact I].
          destruct (rs r); injection Ha as <- <- <-; exact I.
        * destruct (f w i (pl a)) as [ys e0]. destruct (nth_error ys j); [destruct (t <=? j); injection Ha as <- <- <-; cbn; unfold keyless; auto|].
          destruct e0; injection Ha as <- <- <-; exact I.
        * destruct (f w i (pl a)) as [ys e0]. destruct (nth_error ys j); [injection Ha as <- <- <-; cbn; unfold keyless; auto|].
          destruct e0; injection Ha as <- <- <-; exact I.
      + intros b [o g] k r _ Ha _. unfold act in Ha. cbn [mapgen_ds t_act fst snd] in Ha.
        destruct g as [|a i j t| |a i j].
        * destruct (nth w (mg_key o) None); [|discriminate]. destruct (nth w (mg_off o) None); [|discriminate]. destruct (rs r0); discriminate.
        * destruct (f w i (pl a)) as [ys e0]. destruct (nth_error ys j); [destruct (t <=? j); discriminate|]. destruct e0; discriminate.
        * injection Ha as <-. destruct r; cbn; auto.
        * destruct (f w i (pl a)) as [ys e0]. destruct (nth_error ys j); [discriminate|]. destruct e0; discriminate.
  Qed.

  Lemma batch_resettable size drop (f : nat -> nat -> list A -> ures B) (D : dataset A) :
    resettable D true nw -> resettable (wrap (batch_ds nw size drop f) D) true nw.
  Proof.
    intros H. eapply (@wrap_resettable A B _ D nw false false keyless True); [reflexivity|apply bt_no_reset|intros; reflexivity|discriminate|discriminate| |exact H].
    intros w rs Hw. exists (fun b x => snd x = BEnd -> b = true), (fun b x => snd x = BEnd -> b = true). constructor; auto.
      + intros b [o g] o' g' e HI Ha. unfold act in Ha. cbn [batch_ds t_act fst snd] in *. destruct g as [bt ks|]; [discriminate|].
        injection Ha as <- <- <-. cbn. split; [exact I|]. split; [auto|discriminate].
      + intros b [o g] k r HI Ha _. unfold act in Ha. cbn [batch_ds t_act fst snd] in *. destruct g as [bt ks|]; [|discriminate].
        injection Ha as <-. destruct r as [a|]; cbn [is_none].
        * destruct (_ =? size); [unfold bt_flush; destruct (f _ _ _)|]; cbn; unfold keyless; auto; try discriminate; split; auto; discriminate.
        * destruct (_ && _); [unfold bt_flush; destruct (f _ _ _)|]; cbn; unfold keyless; auto.
  Qed.

  Lemma batchgen_resettable size drop (f : nat -> nat -> list A -> list B * gend) (D : dataset A) :
    resettable D true nw -> resettable (wrap (batchgen_ds nw size drop f) D) true nw.
  Proof.
    assert (NR : no_reset (batchgen_ds nw size drop f)).
    { intros rs w o g o' g' Ha. cbn [batchgen_ds t_act fst snd] in Ha. destruct g as [|bt ks i j t|bt ks|l bt ks i j|]; try discriminate.
      - destruct (nth w (bg_key o) None); [|discriminate]. destruct (nth w (bg_off o) None); [|discriminate]. destruct (sequence _); discriminate.
      - destruct (f _ _ _) as [ys e]. destruct (nth_error ys j); [destruct (_ <=? _); discriminate|]. destruct e; discriminate.
      - destruct (f _ _ _) as [ys e]. destruct (nth_error ys j); [discriminate|]. destruct e; discriminate. }
    intros H. eapply (@wrap_resettable A B _ D nw false false keyless True); [reflexivity|exact NR|intros; reflexivity|discriminate|discriminate| |exact H].
    intros w rs Hw.
    set (I0 := fun (b : bool) (x : lst (batchgen_ds nw size drop f)) => match snd x with BgEnd | BgGen true _ _ _ _ => b = true | _ => True end).
    exists I0, I0. constructor; unfold I0; cbn [batchgen_ds t_iter snd]; auto.
    - intros b [o g] o' g' e HI Ha. unfold act in Ha. cbn [batchgen_ds t_act fst snd] in *. destruct g as [|bt ks i j t|bt ks|l bt ks i j|]; try discriminate.
      + destruct (nth w (bg_key o) None); [|injection Ha as <- <- <-; exact I]. destruct (nth w (bg_off o) None); [|injection Ha as <- <- <-; exact I].
        destruct (sequence _); injection Ha as <- <- <-; exact I.
      + destruct (f _ _ _) as [ys e0]. destruct (nth_error ys j); [destruct (_ <=? _); injection Ha as <- <- <-; cbn; unfold keyless; auto|].
        destruct e0; injection Ha as <- <- <-; exact I.
      + destruct (f _ _ _) as [ys e0]. destruct (nth_error ys j); [injection Ha as <- <- <-; cbn; unfold keyless; auto|].
        destruct e0; injection Ha as <- <- <-; cbn; auto; destruct l; cbn; auto.
      + injection Ha as <- <- <-. cbn. auto.
    - intros b [o g] k r HI Ha _. unfold act in Ha. cbn [batchgen_ds t_act fst snd] in *. destruct g as [|bt ks i j t|bt ks|l bt ks i j|]; try discriminate.
      + destruct (nth w (bg_key o) None); [|discriminate]. destruct (nth w (bg_off o) None); [|discriminate]. destruct (sequence _); discriminate.
      + destruct (f _ _ _) as [ys e]. destruct (nth_error ys j); [destruct (_ <=? _); discriminate|]. destruct e; discriminate.
      + injection Ha as <-. destruct r as [a|]; cbn [is_none].
        * destruct (_ =? size); cbn; auto.
        * destruct (_ && _); cbn; auto.
      + destruct (f _ _ _) as [ys e]. destruct (nth_error ys j); [discriminate|]. destruct e; discriminate.
    - intros b [o g] o' g' _ Ha. exfalso. eapply NR; exact Ha.
  Qed.

  Section Pack.
    Variables (size : nat) (pre : nat -> nat -> list (sample A) -> ures (list (list (sample A)))).

    Lemma read_step_local {G} (rs : rkey -> result (sample A)) w o r (loop : nat -> G) drain o' g' e :
      pk_read_step (B := B) size pre rs w o r loop drain = Local o' g' e -> (e = Tau /\ g' = loop (S r)) \/ exists x, e = Raise x.
    Proof.
      unfold pk_read_step. destruct (_ <? size); [discriminate|]. destruct (negb _); [intros E; injection E as <- <- <-; eauto|].
      match goal with |- context [match (if ?c then ?a else ?b) with _ => _ end] => destruct (if c then a else b) end; [|intros E; injection E as <- <- <-; eauto].
      destruct (10 <? S r); intros E; injection E as <- <- <-; eauto.
    Qed.
    Lemma read_step_reset {G} (rs : rkey -> result (sample A)) w o r (loop : nat -> G) drain o' g' :
      pk_read_step (B := B) size pre rs w o r loop drain <> Reset o' g'.
    Proof.
      unfold pk_read_step. destruct (_ <? size); [discriminate|]. destruct (negb _); [discriminate|].
      match goal with |- context [match (if ?c then ?a else ?b) with _ => _ end] => destruct (if c then a else b) end; [|discriminate]. destruct (10 <? S r); discriminate.
    Qed.
    Lemma read_step_pull {G} (rs : rkey -> result (sample A)) w o r (loop : nat -> G) drain k x :
      pk_read_step (B := B) size pre rs w o r loop drain = Pull k ->
      match k x with
      | (_, g, Tau) => match x with Some _ => g = loop r | None => g = drain end
      | (_, _, Raise _) => True
      | _ => False
      end.
    Proof.
      unfold pk_read_step. destruct (_ <? size); [intros E; injection E as <-|].
      - destruct x; [reflexivity|]. destruct (0 <? _); [|reflexivity]. destruct (_ =? 0); [|exact I]. destruct (pk_prepack _ _ _); auto.
      - destruct (negb _); [discriminate|]. match goal with |- context [match (if ?c then ?a else ?b) with _ => _ end] => destruct (if c then a else b) end; [|discriminate]. destruct (10 <? S r); discriminate.
    Qed.

    Lemma pack_resettable (f : nat -> nat -> list A -> ures B) (D : dataset A) :
      resettable D true nw -> resettable (wrap (pack_ds nw size pre f) D) true nw.
    Proof.
      assert (NR : no_reset (pack_ds nw size pre f)).
      { intros rs w o g o' g' Ha. cbn [pack_ds t_act fst snd] in Ha. destruct g as [|r|].
        - destruct (pk_start rs w o); discriminate.
        - destruct (nth w (pk_len o) []); [eapply read_step_reset; exact Ha|]. unfold pk_final in Ha. cbn in Ha. destruct (f _ _ _); discriminate.
        - destruct (nth w (pk_len o) []); [discriminate|]. unfold pk_final in Ha. cbn in Ha. destruct (f _ _ _); discriminate. }
      intros H. eapply (@wrap_resettable A B _ D nw false false keyless True); [reflexivity|exact NR|intros; reflexivity|discriminate|discriminate| |exact H].
      intros w rs Hw.
      set (I0 := fun (b : bool) (x : lst (pack_ds nw size pre f)) => match snd x with PkDrain => b = true | _ => True end).
      exists I0, I0. constructor; unfold I0; cbn [pack_ds t_iter snd]; auto.
      - intros b [o g] o' g' e HI Ha. unfold act in Ha. cbn [pack_ds t_act fst snd] in *. destruct g as [|r|].
        + destruct (pk_start rs w o); injection Ha as <- <- <-; exact I.
        + destruct (nth w (pk_len o) []) as [|k rest].
          * apply read_step_local in Ha. destruct Ha as [[-> ->]|[x ->]]; exact I.
          * unfold pk_final in Ha. cbn in Ha. destruct (f _ _ _); injection Ha as <- <- <-; cbn; unfold keyless; auto.
        + destruct (nth w (pk_len o) []) as [|k rest]; [injection Ha as <- <- <-; cbn; auto|].
          unfold pk_final in Ha. cbn in Ha. destruct (f _ _ _); injection Ha as <- <- <-; cbn; unfold keyless; auto.
      - intros b [o g] k r HI Ha _. unfold act in Ha. cbn [pack_ds t_act fst snd] in *. destruct g as [|r0|].
        + destruct (pk_start rs w o); discriminate.
        + destruct (nth w (pk_len o) []) as [|q rest].
          * pose proof (read_step_pull r Ha) as P. destruct (k r) as [[o' g'] [y| | |x]]; try contradiction; [|exact I].
            destruct r as [a|]; subst g'; cbn; auto.
          * unfold pk_final in Ha. cbn in Ha. destruct (f _ _ _); discriminate.
        + destruct (nth w (pk_len o) []) as [|q rest]; [discriminate|]. unfold pk_final in Ha. cbn in Ha. destruct (f _ _ _); discriminate.
      - intros b [o g] o' g' _ Ha. exfalso. eapply NR; exact Ha.
    Qed.

    Lemma packgen_resettable (f : nat -> nat -> list A -> list B * gend) (D : dataset A) :
      resettable D true nw -> resettable (wrap (packgen_ds nw size pre f) D) true nw.
    Proof.
      assert (NR : no_reset (packgen_ds nw size pre f)).
      { intros rs w o g o' g' Ha. cbn [packgen_ds t_act fst snd] in Ha. destruct g as [|r| |pk i j d].
        - destruct (pk_start rs w o); discriminate.
        - destruct (nth w (pk_len o) []); [eapply read_step_reset; exact Ha|discriminate].
        - destruct (nth w (pk_len o) []); discriminate.
        - destruct (f _ _ _) as [ys e]. destruct (nth_error ys j); [discriminate|]. destruct e; discriminate. }
      intros H. eapply (@wrap_resettable A B _ D nw false false keyless True); [reflexivity|exact NR|intros; reflexivity|discriminate|discriminate| |exact H].
      intros w rs Hw.
      set (I0 := fun (b : bool) (x : lst (packgen_ds nw size pre f)) => match snd x with PgDrain | PgGen _ _ _ true => b = true | _ => True end).
      exists I0, I0. constructor; unfold I0; cbn [packgen_ds t_iter snd]; auto.
      - intros b [o g] o' g' e HI Ha. unfold act in Ha. cbn [packgen_ds t_act fst snd] in *. destruct g as [|r| |pk i j d].
        + destruct (pk_start rs w o); injection Ha as <- <- <-; exact I.
        + destruct (nth w (pk_len o) []) as [|k rest].
          * apply read_step_local in Ha. destruct Ha as [[-> ->]|[x ->]]; exact I.
          * injection Ha as <- <- <-. exact I.
        + destruct (nth w (pk_len o) []) as [|k rest]; injection Ha as <- <- <-; cbn; auto.
        + destruct (f _ _ _) as [ys e0]. destruct (nth_error ys j); [injection Ha as <- <- <-; cbn; unfold keyless; auto|].
          destruct e0; injection Ha as <- <- <-; cbn; auto; destruct d; cbn; auto.
      - intros b [o g] k r HI Ha _. unfold act in Ha. cbn [packgen_ds t_act fst snd] in *. destruct g as [|r0| |pk i j d].
        + destruct (pk_start rs w o); discriminate.
        + destruct (nth w (pk_len o) []) as [|q rest]; [|discriminate].
          pose proof (read_step_pull r Ha) as P. destruct (k r) as [[o' g'] [y| | |x]]; try contradiction; [|exact I].
          destruct r as [a|]; subst g'; cbn; auto.
        + destruct (nth w (pk_len o) []) as [|q rest]; discriminate.
        + destruct (f _ _ _) as [ys e]. destruct (nth_error ys j); [discriminate|]. destruct e; discriminate.
      - intros b [o g] o' g' _ Ha. exfalso. eapply NR; exact Ha.
    Qed.
  End Pack.
End Resettable.

(** *** limiting and concatenating *)
From Verif Require Import WrapRun LimitProofs.

Lemma runs_one {A} (D : dataset A) w ys : runs w D [ys] <-> exists xs, emits w (fresh D) (epoch xs) /\ map pl xs = ys.
Proof.
  split.
  - intros (xss & E & H). destruct xss as [|xs [|]]; try discriminate. injection H as <-. exists xs. cbn in E. rewrite app_nil_r in E. auto.
  - intros (xs & E & <-). exists [xs]. cbn. rewrite app_nil_r. auto.
Qed.

Lemma emits_repeat {A} (D : dataset A) w l s' : goes w (fresh D) l s' -> same_stream w s' (fresh D) ->
  forall m, emits w (fresh D) (concat (repeat l m)).
Proof.
  intros G S. induction m as [|m IH]; cbn; [constructor|]. eapply goes_emits; [exact G|]. apply S. exact IH.
Qed.

Lemma runs_limit {A} nw len (D : dataset A) w ys : w < nw -> resettable D true nw -> runs w D [ys] ->
  forall m, runs w (wrap (limit_ds nw len) D) (repeat (firstn (local_share nw len w) ys) m).
Proof.
  intros Hw HR H m. apply runs_one in H. destruct H as (xs & E & <-).
  assert (G : exists s', goes w (fresh (wrap (limit_ds nw len) D)) (epoch (firstn (local_share nw len w) xs)) s' /\
             same_stream w s' (fresh (wrap (limit_ds nw len) D))).
  { destruct (Nat.le_gt_cases (length xs) (local_share nw len w)) as [L|L].
    - apply (@C27_limit_takes_first A nw len D w xs [Done] Hw HR); auto.
    - destruct (@C27_limit_takes_first A nw len D w (firstn (S (local_share nw len w)) xs) [] Hw HR) as (s' & G & S).
      + right. split; [reflexivity|]. rewrite firstn_length. lia.
      + rewrite app_nil_r. apply emits_prefix with (l2 := map Yield (skipn (S (local_share nw len w)) xs) ++ [Done]).
        rewrite app_assoc, <- map_app, firstn_skipn. exact E.
      + exists s'. split; [|exact S]. rewrite firstn_firstn in G. replace (Nat.min _ _) with (local_share nw len w) in G by lia. exact G. }
  destruct G as (s' & G & S). exists (repeat (firstn (local_share nw len w) xs) m). split.
  - replace (map epoch (repeat (firstn (local_share nw len w) xs) m)) with (repeat (epoch (firstn (local_share nw len w) xs)) m)
      by (clear; induction m; cbn; congruence).
    eapply emits_repeat; eassumption.
  - clear. induction m; cbn; [reflexivity|]. rewrite IHm, firstn_map. reflexivity.
Qed.

Lemma map_nth_seq {X} (l : list X) d : map (fun t => nth t l d) (seq 0 (length l)) = l.
Proof.
  induction l as [|x l IH]; cbn [length seq map]; [reflexivity|]. f_equal. rewrite <- seq_shift, map_map. exact IH.
Qed.

Lemma Forall2_nth {X Y} (P : X -> Y -> Prop) l1 l2 dx dy i : Forall2 P l1 l2 -> i < length l1 -> P (nth i l1 dx) (nth i l2 dy).
Proof. intros F. revert i. induction F; intros [|i] Hi; cbn in *; try lia; auto. apply IHF. lia. Qed.

Lemma runs_concat {V} (bs : list (@built V)) w m (eps : list (list (list V))) :
  Forall2 (fun b ep => runs w (b_ds b) ep /\ length ep = m) bs eps ->
  runs w (concat_ds (length bs) (nth_built bs)) (joined_epochs m eps).
Proof.
  intros F.
  assert (HX : exists xsss : list (list (list (sample V))), Forall2 (fun b xss => emits w (fresh (b_ds b)) (concat (map epoch xss)) /\ length xss = m) bs xsss /\
    map (map (map pl)) xsss = eps).
  { induction F as [|b ep bs eps [(xss & E & <-) HL] F (xsss & F2 & <-)]; [exists []; auto|].
    rewrite map_length in HL. exists (xss :: xsss). split; [constructor; auto|reflexivity]. }
  destruct HX as (xsss & F2 & <-). clear F.
  assert (HL : length bs = length xsss) by (clear - F2; induction F2; cbn; congruence).
  exists (map (fun e => flat_map (fun i => map (of_concat i) (nth e (nth i xsss []) [])) (seq 0 (length bs))) (seq 0 m)). split.
  - rewrite map_map. apply (@C29_concat_epochs V (length bs) (nth_built bs) w m (fun i e => nth e (nth i xsss []) [])).
    intros i Hi. destruct (Forall2_nth nothing [] F2 Hi) as [E HLi].
    replace (map (fun e => epoch (nth e (nth i xsss []) [])) (seq 0 m)) with (map epoch (nth i xsss [])); [exact E|].
    rewrite <- (map_nth_seq (nth i xsss []) []) at 1. rewrite HLi, map_map. reflexivity.
  - unfold joined_epochs. rewrite map_map. apply map_ext. intros t.
    rewrite HL. clear. 
    rewrite flat_map_concat_map, concat_map, map_map, <- flat_map_concat_map.
    rewrite <- (map_nth_seq xsss []) at 2. rewrite map_map, !flat_map_concat_map, !map_map. f_equal. apply map_ext. intros i.
    rewrite map_map. change (map (fun x => pl (of_concat i x)) (nth t (nth i xsss []) []) = nth t (map (map pl) (nth i xsss [])) []).
    change (@nil V) with (map (@pl V) []). rewrite map_nth. reflexivity.
Qed.

Lemma joined_single {V} (ep : list (list V)) : joined_epochs (length ep) [ep] = ep.
Proof. unfold joined_epochs. cbn [flat_map]. rewrite <- (map_nth_seq ep []) at 2. apply map_ext. intros; apply app_nil_r. Qed.

(** groups are determined by the samples *)
Lemma cut_unique {X} size (f1 : list (list X)) : 0 < size -> forall f2 t1 t2,
  Forall (fun g => length g = size) f1 -> Forall (fun g => length g = size) f2 -> length t1 < size -> length t2 < size ->
  concat f1 ++ t1 = concat f2 ++ t2 -> f1 = f2 /\ t1 = t2.
Proof.
  intros Hs. induction f1 as [|g f1 IH]; intros [|h f2] t1 t2 F1 F2 L1 L2 E; cbn [concat app] in E.
  - auto.
  - exfalso. apply Forall_inv in F2. apply (f_equal (@length X)) in E. rewrite !app_length in E. lia.
  - exfalso. apply Forall_inv in F1. apply (f_equal (@length X)) in E. rewrite !app_length in E. lia.
  - inversion F1 as [|? ? Lg F1']; inversion F2 as [|? ? Lh F2']; subst. rewrite <- !app_assoc in E.
    assert (g = h).
    { apply (f_equal (firstn (length g))) in E. rewrite <- Lh in E at 2. rewrite !firstn_app, !Nat.sub_diag, !firstn_all in E. cbn in E. rewrite !app_nil_r in E. exact E. }
    subst h. apply app_inv_head in E. destruct (IH _ _ _ F1' F2' L1 L2 E) as [-> ->]. auto.
Qed.
Lemma groups_unique {X} size drop (xs : list X) g1 g2 : 0 < size -> groups size drop xs g1 -> groups size drop xs g2 -> g1 = g2.
Proof.
  intros Hs (f1 & t1 & A1 & B1 & C1 & ->) (f2 & t2 & A2 & B2 & C2 & ->). subst xs.
  destruct (cut_unique Hs A1 A2 B1 B2 C2) as [-> ->]. reflexivity.
Qed.
Lemma groups_unique2 {X} size drop (eps : list (list X)) : 0 < size -> forall g1 g2, Forall2 (groups size drop) eps g1 -> Forall2 (groups size drop) eps g2 -> g1 = g2.
Proof.
  intros Hs. induction eps as [|x eps IH]; intros g1 g2 F1 F2; inversion F1; inversion F2; subst; [reflexivity|]. f_equal; [eapply groups_unique|]; eauto.
Qed.

Lemma each_epoch_length {A B} (f : nat -> A -> list B) eps : forall i, length (each_epoch f i eps) = length eps.
Proof. induction eps; intros i; cbn; auto. Qed.
