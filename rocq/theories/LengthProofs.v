(** Numbers of samples per epoch (C66): what each wrapper does to the epochs of its inner dataset. *)
From Coq Require Import String QArith.
From Verif Require Import Base Dataset DatasetProofs Wrap WrapProofs WrapRun WrapTrace WrapSpec WrapLib Rng RngProofs Sharder SharderSpec SampleLoader SampleLoaderSpec
  SampleLoaderProofs3 EndToEndProofs Buffer ShuffleBuffer ShuffleProofs Wrappers MapModel IdxProofs Batch BatchSpec GroupBatch GroupBatchSpec TaskEncoder TaskEncoderSpec
  TaskEncoderProofs ValSpec ValProofs P_SampleLoader P_Wrappers P_Batch P_Blend Concat BlendSpec Config Length LengthSpec.
Local Close Scope Q_scope.
Local Close Scope Z_scope.
Local Open Scope list_scope.
Local Open Scope nat_scope.

(** ** epochs from a state *)
Lemma epoch_reach {P} (D : dataset P) w rst nw xs : forall s : st D, reach w rst nw s -> @emits P D w s (epoch xs) ->
  exists s', reach w rst nw s' /\ forall l, @emits P D w s' l -> @emits P D w s (epoch xs ++ l).
Proof.
  induction xs as [|x xs IH]; intros s Rs Em.
  - apply emits_done_inv in Em as (s1 & N & _). exists (fst s1, ds_iter D). split; [eapply r_done; eauto|].
    intros l El. cbn. eapply em_done; eauto.
  - change (epoch (x :: xs)) with (Yield x :: epoch xs) in *. apply emits_yield_inv in Em as (s1 & N & Em).
    destruct (IH s1) as (s' & Rs' & H); [eapply r_yield; eauto|exact Em|].
    exists s'. split; [exact Rs'|]. intros l El. cbn [app]. eapply em_yield; eauto.
Qed.

Lemma many_epochs {P} (D : dataset P) w nw : (forall s : st D, reach w false nw s -> exists xs, @emits P D w s (epoch xs)) ->
  forall m (s : st D), reach w false nw s -> exists es, length es = m /\ @emits P D w s (concat (map epoch es)).
Proof.
  intros H. induction m as [|m IH]; intros s Rs; [exists []; split; [reflexivity|constructor]|].
  destruct (H s Rs) as [xs Ex]. destruct (epoch_reach Rs Ex) as (s' & Rs' & HL). destruct (IH s' Rs') as (es & L & Em).
  exists (xs :: es). cbn [length map concat]. split; [congruence|]. apply HL. exact Em.
Qed.

Lemma clean_no_raise {P} (l : list (event (sample P))) : clean l -> forall e, ~ In (Raise e) l.
Proof. intros C e HI. unfold clean in C. rewrite Forall_forall in C. exact (C _ HI). Qed.

Lemma epochs_no_part {P} (es es' : list (list (sample P))) part : concat (map epoch es) = concat (map epoch es') ++ map Yield part -> es = es' /\ part = [].
Proof.
  revert es'. induction es as [|x es IH]; intros [|y es'] H; cbn [map concat] in H.
  - cbn in H. destruct part; [auto|discriminate].
  - exfalso. destruct y; discriminate.
  - exfalso. cbn in H. unfold epoch in H. rewrite <- app_assoc in H. cbn in H.
    assert (In Done (map Yield part)) as I. { rewrite <- H. apply in_or_app. right. left. reflexivity. }
    apply in_map_iff in I as (? & ? & _). discriminate.
  - unfold epoch in H at 1 3. rewrite <- !app_assoc in H. cbn [app] in H.
    assert (x = y /\ concat (map epoch es) = concat (map epoch es') ++ map Yield part) as [-> E2].
    { clear IH. revert y H. induction x as [|a x IHx]; intros [|b y] E; cbn [map app] in E; try discriminate.
      - injection E as E. auto.
      - injection E as -> E. destruct (IHx _ E) as [-> ?]. auto. }
    destruct (IH _ E2) as [-> ->]. auto.
Qed.

(** the epochs of the sample loader *)
Lemma loader_epochs X R shards (content : shseq -> list (sample X)) par shuffle rs w m :
  rng_ok R -> proper_shards shards -> par >= 1 -> w < length shards ->
  (shuffle = NoShuffle /\ par = 1) \/ shuffle = Over 1 ->
  exists es, length es = m /\ emits w (fresh (loader_ds R shards content par shuffle false rs)) (concat (map epoch es)) /\
    Forall (fun e => Permutation e (flat_map content (nth w shards []))) es.
Proof.
  intros OK HP Hpar W M.
  destruct (nth w shards []) as [|t0 ts] eqn:Ew.
  { exists (repeat [] m). split; [apply repeat_length|]. split; [|apply Forall_forall; intros e He; apply repeat_spec in He; subst e; constructor].
    replace (concat (map epoch (repeat (@nil (sample X)) m))) with (repeat (@Done (sample X)) m).
    - apply C12_no_shards. exact Ew.
    - clear. induction m; cbn; [reflexivity|]. rewrite IHm. reflexivity. }
  assert (NE : nth w shards [] <> []) by (rewrite Ew; discriminate). rewrite <- Ew.
  set (D := loader_ds R shards content par shuffle false rs).
  destruct (@many_epochs X D w (length shards)) with (m := m) (s := fresh D) as (es & L & Em).
  { intros s Rs. unfold epoch. eapply C12_epochs_complete; eauto.
    - destruct M as [(-> & _)| ->]; discriminate.
    - destruct M as [(-> & ->)| ->]; [auto|discriminate]. }
  { apply r_init. }
  exists es. split; [exact L|]. split; [exact Em|].
  destruct (@emits_history X D w (length shards) (concat (map epoch es)) [] (fresh D)) as [s' HH];
    [apply h_init|apply clean_no_raise; apply clean_all|exact Em|]. cbn [app] in HH.
  destruct M as [(-> & ->)| ->].
  - destruct (C12_in_order HP W NE HH) as (es' & part & zs & A & B & _). apply epochs_no_part in A as [-> ->].
    eapply Forall_impl; [|exact B]. intros e <-. reflexivity.
  - destruct (C12_shuffled_epochs OK HP Hpar W NE HH) as (es' & part & zs & A & B & _). apply epochs_no_part in A as [-> ->].
    eapply Forall_impl; [|exact B]. intros e He. apply C12_epoch_is_permutation in He. cbn [repeat concat] in He. rewrite app_nil_r in He. exact He.
Qed.

(** ** the wrappers *)
Lemma per_epoch_all {P Q} (Full : list (sample P) -> list (sample Q) -> Prop) i o : per_epoch Full i o ->
  exists xss yss, i = concat (map epoch xss) /\ o = concat (map epoch yss) /\ Forall2 Full xss yss.
Proof.
  induction 1 as [|i o xs ys H (xss & yss & -> & -> & F) HF]; [exists [], []; auto|].
  exists (xss ++ [xs]), (yss ++ [ys]). rewrite !map_app, !concat_app. cbn [map concat]. rewrite !app_nil_r.
  split; [reflexivity|]. split; [reflexivity|]. apply Forall2_app; auto.
Qed.

Lemma inp_epochs {P} (xss : list (list (sample P))) : map inp (concat (map (fun xs => map Some xs ++ [None]) xss)) = concat (map epoch xss).
Proof. induction xss as [|xs xss IH]; cbn; [reflexivity|]. rewrite map_app, inp_epoch, IH. reflexivity. Qed.

Lemma shuffle_epochs {A} (R : rng_ops) nw size w (D : dataset A) xss : rng_ok R -> w < nw -> 0 < size ->
  emits w (fresh D) (concat (map epoch xss)) ->
  exists yss, emits w (fresh (wrap (shuffle_buffer R nw size) D)) (concat (map epoch yss)) /\ Forall2 (fun ys xs => Permutation ys xs) yss xss.
Proof.
  intros OK Hw Hs HP. set (T := @shuffle_buffer A R nw size). rewrite <- inp_epochs in HP.
  destruct (@wrap_forward _ _ T D w _ (@sb_trace_ok A R nw size w D Hw) _ (@sb_progress A R nw size w D Hw OK Hs) (fresh (wrap T D)) true _
    (@sb_J_init A R nw size w Hw) (@fresh_it_ok _ _ T D true) HP)
      as (outs & b & [o g] & Em & (i & ou & xs' & ys' & l & E1 & E2 & PE & B & Hl & P & EA & Hg) & Pu).
  rewrite inp_epochs in E1. cbn [fst snd] in *.
  assert (G : match g with SbDrain => [Done] | _ => [] end = @nil (event (sample A))).
  { destruct g; auto. exfalso. unfold pulls, act in Pu. cbn [T shuffle_buffer t_act sb_act fst snd] in Pu.
    destruct (sb_yield_local (R := R) w o SbDrain) as (? & ? & X). revert Pu. rewrite X.
    destruct (0 <? buf_len w (sb_buf o)); exact (fun x => x). }
  rewrite G, app_nil_r in E1. destruct (per_epoch_all PE) as (xs2 & ys2 & -> & -> & F).
  apply epochs_no_part in E1 as [-> ->]. apply Permutation_nil in P. apply app_eq_nil in P as [-> ->].
  cbn in E2. rewrite app_nil_r in E2. subst outs. exists ys2. split; [exact Em|].
  clear - F. induction F; constructor; auto.
Qed.

Lemma Forall2_len_of {X Y} (l : list (list X)) (l' : list (list Y)) (R : nat -> nat -> Prop) :
  Forall2 (fun a b => R (length a) (length b)) l l' -> Forall2 R (map (@length X) l) (map (@length Y) l').
Proof. induction 1; cbn; constructor; auto. Qed.

Lemma map_len_pl {A} (xss : list (list (sample A))) : map (@length A) (map (map pl) xss) = map (@length _) xss.
Proof. rewrite map_map. apply map_ext. intros. apply map_length. Qed.

Lemma sizes_shuffle {A} (R : rng_ops) nw size w (D : dataset A) ns : rng_ok R -> w < nw -> 0 < size ->
  epoch_sizes w D ns -> epoch_sizes w (wrap (shuffle_buffer R nw size) D) ns.
Proof.
  intros OK Hw Hs (eps & (xss & Em & <-) & <-). destruct (shuffle_epochs OK Hw Hs Em) as (yss & Ey & F).
  exists (map (map pl) yss). split; [exists yss; auto|]. rewrite !map_len_pl. clear - F.
  induction F; cbn; [reflexivity|]. f_equal; [apply Permutation_length; assumption|assumption].
Qed.

Lemma sizes_gc {A} n w (D : dataset A) ns : epoch_sizes w D ns -> epoch_sizes w (wrap (gc_ds true n) D) ns.
Proof.
  intros (eps & (xss & Em & <-) & <-). exists (map (map pl) xss). split; [|reflexivity]. exists xss. split; [|reflexivity].
  apply C36_gc_transparent; [apply clean_all|exact Em].
Qed.

Lemma sizes_log {A} nw w (D : dataset A) ns : w < nw -> epoch_sizes w D ns -> epoch_sizes w (wrap (log_ds nw) D) ns.
Proof. intros Hw (eps & Hr & <-). exists eps. split; [|reflexivity]. apply runs_log; auto. Qed.

Lemma each_len {A B} (f : nat -> A -> list B) (c : nat) : (forall i a, length (f i a) <= c) -> forall l i, length (each f i l) <= c * length l.
Proof.
  intros H. induction l as [|a l IH]; intros i; cbn [each length]; [lia|]. rewrite app_length. specialize (H i a). specialize (IH (S i)). nia.
Qed.
Lemma each_len_eq {A B} (f : nat -> A -> list B) : (forall i a, length (f i a) = 1) -> forall l i, length (each f i l) = length l.
Proof. intros H. induction l as [|a l IH]; intros i; cbn [each length]; [lia|]. rewrite app_length, H, IH. lia. Qed.
Lemma each_epoch_eq {A B} (f : nat -> A -> list B) : (forall i a, length (f i a) = 1) -> forall l i, map (@length _) (each_epoch f i l) = map (@length _) l.
Proof. intros H. induction l as [|a l IH]; intros i; cbn [each_epoch map]; [reflexivity|]. rewrite IH, (each_len_eq H). reflexivity. Qed.
Lemma each_epoch_le {A B} (f : nat -> A -> list B) : (forall i a, length (f i a) <= 1) -> forall l i,
  Forall2 le (map (@length _) (each_epoch f i l)) (map (@length _) l).
Proof.
  intros H. induction l as [|a l IH]; intros i; cbn [each_epoch map]; constructor; [|apply IH]. pose proof (each_len H a i). lia.
Qed.

Lemma out_one {A B} (g : nat -> nat -> A -> ures B) w : (forall i x, exists y, g w i x = UOk y) -> forall i x, length (outputs (Fn g) w i x) = 1.
Proof. intros H i x. cbn. destruct (H i x) as [y ->]. reflexivity. Qed.
Lemma out_le {A B} (g : nat -> nat -> A -> ures B) w i x : length (outputs (Fn g) w i x) <= 1.
Proof. cbn. destruct (g w i x); cbn; lia. Qed.

Lemma sizes_map {A B} nw (g : nat -> nat -> A -> ures B) (D : dataset A) w ns : w < nw -> (forall w i x, exists y, g w i x = UOk y) ->
  epoch_sizes w D ns -> epoch_sizes w (wrap (map_ds nw g) D) ns.
Proof.
  intros Hw HG (eps & Hr & <-). assert (NF : no_failure (Fn g)) by (intros w0 i a; destruct (HG w0 i a) as [y ->]; discriminate).
  exists (each_epoch (outputs (Fn g) w) 0 eps). split; [apply runs_map; auto|]. apply each_epoch_eq. apply out_one. apply HG.
Qed.
Lemma sizes_map_le {A B} nw (g : nat -> nat -> A -> ures B) (D : dataset A) w ns : w < nw -> (forall w i x, g w i x <> UFatal) ->
  epoch_sizes w D ns -> exists ns', epoch_sizes w (wrap (map_ds nw g) D) ns' /\ Forall2 le ns' ns.
Proof.
  intros Hw HG (eps & Hr & <-). exists (map (@length _) (each_epoch (outputs (Fn g) w) 0 eps)). split.
  - eexists. split; [apply runs_map; eauto|reflexivity].
  - apply each_epoch_le. apply out_le.
Qed.

Lemma runs_filter {A} nw (p : nat -> nat -> A -> result bool) (D : dataset A) w eps : w < nw -> (forall w i x, exists b, p w i x = Ok b) ->
  runs w D eps -> runs w (wrap (filter_ds nw p) D) (each_epoch (fun i x => match p w i x with Ok true => [x] | _ => [] end) 0 eps).
Proof.
  intros Hw HP (xss & Em & <-).
  set (g := fun i (a : sample A) => match p w i (pl a) with Ok true => [a] | _ => [] end).
  exists (each_epoch g 0 xss). split.
  - rewrite <- (@ev_epochs_each _ _ g (idx_events (fun w i (a : sample A) => match p w i (pl a) with Ok true => Yield a | Ok false => Tau | Err e => Raise e end) w)).
    + apply idx_forward; auto.
      * intros w0 i a. destruct (p w0 i (pl a)) as [[|]|]; discriminate.
      * intros w0 i a e. destruct (HP w0 i (pl a)) as [b ->]. destruct b; discriminate.
      * apply clean_all.
    + reflexivity.
    + intros i a l. cbn [idx_events]. unfold g. destruct (p w i (pl a)) as [[|]|]; reflexivity.
    + reflexivity.
  - apply each_epoch_pl. intros i a. unfold g. destruct (p w i (pl a)) as [[|]|]; reflexivity.
Qed.
Lemma sizes_filter_le {A} nw (p : nat -> nat -> A -> result bool) (D : dataset A) w ns : w < nw -> (forall w i x, exists b, p w i x = Ok b) ->
  epoch_sizes w D ns -> exists ns', epoch_sizes w (wrap (filter_ds nw p) D) ns' /\ Forall2 le ns' ns.
Proof.
  intros Hw HP (eps & Hr & <-). eexists. split; [eexists; split; [apply runs_filter; eauto|reflexivity]|].
  apply each_epoch_le. intros i a. destruct (p w i a) as [[|]|]; cbn; lia.
Qed.

Lemma sizes_batch {A B} nw size drop (g : nat -> nat -> list A -> ures B) (D : dataset A) w ns : w < nw -> 0 < size -> (forall w i x, exists y, g w i x = UOk y) ->
  epoch_sizes w D ns -> epoch_sizes w (wrap (batch_ds nw size drop g) D) (map (group_count size drop) ns).
Proof.
  intros Hw Hs HG (eps & Hr & <-). assert (NF : no_failure (Fn g)) by (intros w0 i a; destruct (HG w0 i a) as [y ->]; discriminate).
  destruct (@runs_batch A B nw size drop g D w eps Hw Hs NF Hr) as (gss & F & Hr').
  eexists. split; [exact Hr'|]. rewrite (each_epoch_eq (@out_one _ _ g w (HG w))). clear - F Hs.
  induction F as [|x y l l' Hx F IH]; cbn [map]; [reflexivity|]. rewrite IH. f_equal.
  apply (proj2 (C30_group_count drop x Hs)). exact Hx.
Qed.

Lemma sizes_repeat {A} nw n has (D : dataset A) w ns : w < nw -> length ns = n -> epoch_sizes w D ns ->
  epoch_sizes w (wrap (repeat_ds nw (Some n) has) D) [list_sum ns].
Proof.
  intros Hw L (eps & (xss & Em & <-) & <-). rewrite map_len_pl in *. rewrite map_length in L.
  exists [map pl (concat xss)]. split.
  - exists [concat xss]. split; [|reflexivity]. cbn [map concat]. rewrite app_nil_r. exact (@C25_repeat_n_times A nw n has D w xss Hw L Em).
  - cbn [map]. rewrite map_length. f_equal. clear. induction xss as [|x xss IH]; [reflexivity|]. cbn [concat map]. rewrite app_length, IH. reflexivity.
Qed.

Lemma epochs_samples {A} (full : list (list (sample A))) part : length (concat full ++ part) = list_sum (map (@length _) full) + length part.
Proof.
  rewrite app_length. f_equal. induction full as [|x full IH]; [reflexivity|]. cbn [concat map]. rewrite app_length, IH. reflexivity.
Qed.

Lemma list_sum_all n ns : Forall (fun x => x = n) ns -> list_sum ns = length ns * n.
Proof. induction 1 as [|x l -> F IH]; [reflexivity|]. change (n + list_sum l = S (length l) * n). rewrite IH. lia. Qed.

Lemma all_repeat {X} (a : X) l : Forall (fun x => x = a) l -> l = repeat a (length l).
Proof. induction 1 as [|x l -> F IH]; cbn; [reflexivity|]. f_equal. exact IH. Qed.

Lemma sizes_epochize_0 {A} nw len (D : dataset A) w m : w < nw -> local_share nw len w = 0 ->
  epoch_sizes w (wrap (epochize_ds nw len) D) (repeat 0 m).
Proof.
  intros Hw HL. set (W := wrap (epochize_ds nw len) D).
  assert (Em : forall k (s : st W), w_loc (fst s) = repeat 0 nw -> snd s = EpStart -> @emits _ W w s (repeat Done k)).
  { induction k as [|k IH]; intros [[lo ii it] g] E1 E2; cbn [fst snd w_loc] in *; subst; [constructor|]. cbn [repeat].
    assert (S1 : ds_step W w (@mkW _ _ (@epochize_ds A nw len) D (repeat 0 nw) ii it) EpStart = (@mkW _ _ (@epochize_ds A nw len) D (repeat 0 nw) ii it, EpHead (nth w (repeat 0 nw) 0), Tau))
      by reflexivity.
    assert (S2 : ds_step W w (@mkW _ _ (@epochize_ds A nw len) D (repeat 0 nw) ii it) (EpHead 0) = (@mkW _ _ (@epochize_ds A nw len) D (repeat 0 nw) ii it, EpHead 0, Done)).
    { cbn [W wrap ds_step]. unfold wrap_step. cbn [epochize_ds t_act w_loc w_in w_it]. rewrite HL. reflexivity. }
    rewrite nth_repeat in S1.
    eapply em_done; [eapply next_tau; [exact S1|apply next_now; [exact S2|discriminate]]|]. apply IH; reflexivity. }
  exists (repeat [] m). split; [|clear; induction m; cbn; congruence]. exists (repeat [] m). split; [|clear; induction m; cbn; congruence].
  replace (concat (map epoch (repeat (@nil (sample A)) m))) with (repeat (@Done (sample A)) m) by (clear; induction m; cbn; congruence).
  apply Em; reflexivity.
Qed.

Lemma sizes_epochize {A} nw len (D : dataset A) w m : w < nw -> (0 < local_share nw len w -> keeps_going w D) ->
  epoch_sizes w (wrap (epochize_ds nw len) D) (repeat (local_share nw len w) m).
Proof.
  intros Hw HK. destruct (local_share nw len w) as [|L'] eqn:HL; [apply sizes_epochize_0; auto|]. rewrite <- HL in *. set (L := local_share nw len w) in *.
  destruct (HK ltac:(lia) (S m * L)) as (ins & Em & C & Hk).
  destruct (@C26_epochize_complete A nw len D w ins Hw ltac:(fold L; lia) C Em) as (outs & Eo & full & part & -> & F & Hp & Hs).
  rewrite Hs, epochs_samples in Hk. fold L in F, Hp.
  assert (FL : Forall (fun x => x = L) (map (@length _) full)) by (apply Forall_map; exact F).
  rewrite (list_sum_all FL), map_length in Hk. assert (Hm : m <= length full) by nia.
  exists (map (map pl) (firstn m full)). split.
  - exists (firstn m full). split; [|reflexivity]. eapply emits_prefix with (l2 := concat (map epoch (skipn m full)) ++ map Yield part).
    rewrite app_assoc, <- concat_app, <- map_app, firstn_skipn. exact Eo.
  - rewrite map_len_pl. rewrite (@all_repeat _ L (map (@length _) (firstn m full))).
    + rewrite map_length, firstn_length, Nat.min_l by exact Hm. reflexivity.
    + apply Forall_map. rewrite <- (firstn_skipn m full) in F. apply Forall_app in F. apply F.
Qed.

Lemma sizes_limit {A} nw len (D : dataset A) w n m : w < nw -> resettable D true nw -> epoch_sizes w D [n] ->
  epoch_sizes w (wrap (limit_ds nw len) D) (repeat (Nat.min (local_share nw len w) n) m).
Proof.
  intros Hw HR (eps & Hr & E1). destruct eps as [|ys [|? ?]]; try discriminate. injection E1 as E1.
  exists (repeat (firstn (local_share nw len w) ys) m). split; [apply runs_limit; auto|].
  clear - E1. induction m; cbn [repeat map]; [reflexivity|]. rewrite firstn_length, E1. f_equal. exact IHm.
Qed.

Lemma epochs_as_seq {A} (xss : list (list (sample A))) m : length xss = m -> xss = map (fun e => nth e xss []) (seq 0 m).
Proof.
  intros <-. induction xss as [|x xss IH]; [reflexivity|]. cbn [length seq map nth]. f_equal. rewrite <- seq_shift, map_map. exact IH.
Qed.

Lemma nth_sizes {A} (xss : list (list (sample A))) e : length (nth e xss []) = nth e (map (@length _) xss) 0.
Proof. exact (eq_sym (map_nth (@length (sample A)) xss [] e)). Qed.

(** ConcatDataset: [nss i]: the sizes of the epochs of the i-th dataset *)
Lemma sizes_concat {A} n (D : nat -> dataset A) w m (nss : nat -> list nat) :
  (forall i, i < n -> length (nss i) = m /\ epoch_sizes w (D i) (nss i)) ->
  epoch_sizes w (concat_ds n D) (map (fun e => list_sum (map (fun i => nth e (nss i) 0) (seq 0 n))) (seq 0 m)).
Proof.
  intros H.
  destruct (@finite_choice (list (list (sample A))) [] (fun i xss => emits w (fresh (D i)) (concat (map epoch xss)) /\ map (@length _) xss = nss i) n) as (f & Hf).
  { intros i Hi. destruct (H i Hi) as [_ (eps & (xss & Em & <-) & E1)]. rewrite map_len_pl in E1. eauto. }
  set (xs := fun i e => nth e (f i) []).
  assert (X : forall i, i < n -> emits w (fresh (D i)) (concat (map (fun e => epoch (xs i e)) (seq 0 m)))).
  { intros i Hi. destruct (Hf i Hi) as [Em E1]. destruct (H i Hi) as [L _]. rewrite <- E1, map_length in L.
    rewrite (epochs_as_seq L) in Em. rewrite map_map in Em. exact Em. }
  pose proof (C29_concat_epochs X) as EC.
  exists (map (map pl) (map (fun e => flat_map (fun i => map (of_concat i) (xs i e)) (seq 0 n)) (seq 0 m))). split.
  - eexists. split; [|reflexivity]. rewrite map_map. exact EC.
  - rewrite map_len_pl, map_map. apply map_ext. intros e. rewrite flat_map_concat_map.
    assert (G : forall l, (forall i, In i l -> i < n) -> length (concat (map (fun i => map (of_concat i) (xs i e)) l)) = list_sum (map (fun i => nth e (nss i) 0) l)).
    { induction l as [|i l IH]; intros HI; [reflexivity|]. cbn [map concat]. rewrite app_length, map_length, IH by (intros; apply HI; right; assumption).
      change (list_sum (?a :: ?b)) with (a + list_sum b). f_equal. unfold xs. rewrite nth_sizes. f_equal. apply Hf. apply HI. left. reflexivity. }
    apply G. intros i Hi. apply in_seq in Hi. lia.
Qed.

(** grouping: not more groups than samples *)
Lemma of_key_cons {K X} (keq : K -> K -> bool) k p (l : list (K * X)) : of_key keq k (p :: l) = if keq (fst p) k then snd p :: of_key keq k l else of_key keq k l.
Proof. unfold of_key. cbn [filter]. destruct (keq (fst p) k); reflexivity. Qed.
Lemma of_key_app {K X} (keq : K -> K -> bool) k (l1 l2 : list (K * X)) : of_key keq k (l1 ++ l2) = of_key keq k l1 ++ of_key keq k l2.
Proof. unfold of_key. rewrite filter_app, map_app. reflexivity. Qed.

Lemma keyed_count {K X Y} (keq : K -> K -> bool) (Hk : forall a b, keq a b = true <-> a = b) : forall (l : list (K * X)) (l' : list (K * Y)),
  (forall k, length (of_key keq k l) <= length (of_key keq k l')) -> length l <= length l'.
Proof.
  induction l as [|[k x] l IH]; intros l' H; [cbn; lia|].
  assert (I : exists a y b, l' = a ++ (k, y) :: b).
  { specialize (H k). rewrite of_key_cons in H. cbn [fst snd] in H. rewrite (proj2 (Hk k k) eq_refl) in H. cbn [length] in H.
    clear IH. induction l' as [|[k' y] l' IH]; [cbn in H; lia|]. rewrite of_key_cons in H. cbn [fst snd] in H.
    destruct (keq k' k) eqn:Ek.
    - apply Hk in Ek as ->. exists [], y, l'. reflexivity.
    - destruct (IH H) as (a & y' & b & ->). exists ((k', y) :: a), y', b. reflexivity. }
  destruct I as (a & y & b & ->). specialize (IH (a ++ b)). rewrite app_length in *. cbn [length]. enough (length l <= length a + length b) by lia.
  apply IH. intros k0. specialize (H k0). rewrite of_key_app in *. rewrite !of_key_cons in H. cbn [fst snd] in H. rewrite app_length in *.
  destruct (keq k k0); cbn [length] in H; lia.
Qed.

Lemma sorted_len {V K} (cls : nat -> V -> option K) xs : forall i, length (sorted_out cls i xs) <= length xs.
Proof. induction xs as [|x xs IH]; intros i; cbn [sorted_out length]; [lia|]. rewrite app_length. specialize (IH (S i)). destruct (cls i x); cbn [length]; lia. Qed.

Lemma groups_le {X} size drop (xs : list X) gs : 0 < size -> groups size drop xs gs -> length gs <= length xs.
Proof.
  intros Hs Hg. apply (proj2 (C30_group_count drop xs Hs)) in Hg. rewrite Hg. unfold group_count. set (n := length xs) in *. clearbody n.
  destruct drop; [apply Nat.div_le_upper_bound; nia|]. destruct n as [|n]; [rewrite Nat.div_small; lia|].
  enough ((S n + size - 1) / size < S (S n)) by lia. apply Nat.div_lt_upper_bound; nia.
Qed.

Lemma sizes_group_le {A B K} keq nw fixed drop (kf : nat -> nat -> A -> ures (K * option nat)) (f : nat -> nat -> list A -> ures B) (D : dataset A) w cls size ns :
  w < nw -> (forall a b, keq a b = true <-> a = b) -> groups_by fixed (kf w) cls size -> (forall k, 0 < size k) -> (forall w i l, f w i l <> UFatal) ->
  epoch_sizes w D ns -> exists ns', epoch_sizes w (wrap (groupbatch_ds keq nw fixed drop false kf f) D) ns' /\ Forall2 le ns' ns.
Proof.
  intros Hw Hk Hb Hs Hf (eps & Hr & <-).
  destruct (@runs_group A B K keq nw fixed drop kf f D w cls size eps Hw Hk Hb Hs Hf Hr) as (kgss & G & Hr').
  eexists. split; [eexists; split; [exact Hr'|reflexivity]|].
  pose proof (@each_epoch_le _ _ (outputs (Fn f) w) (out_le f w) (map (map snd) kgss) 0) as Le.
  assert (Le2 : Forall2 le (map (@length _) (map (map snd) kgss)) (map (@length A) eps)).
  { clear - G Hk Hs. revert kgss G. generalize 0. induction eps as [|xs eps IH]; intros i [|kgs kgss] G; cbn [grouped_epochs] in G; try contradiction; [constructor|].
    destruct G as (G1 & _ & G2). cbn [map]. constructor; [|eapply IH; exact G2]. rewrite map_length.
    etransitivity; [|apply (@sorted_len _ _ cls xs i)]. apply (keyed_count Hk). intros k. apply (groups_le (Hs k) (G1 k)). }
  clear - Le Le2. revert Le Le2. generalize (map (@length B) (each_epoch (outputs (Fn f) w) 0 (map (map snd) kgss))) (map (@length A) eps).
  generalize (map (@length (list A)) (map (map snd) kgss)). intros a. induction a as [|x a IH]; intros b c H1 H2; inversion H1; subst; inversion H2; subst; constructor; [lia|auto].
Qed.
