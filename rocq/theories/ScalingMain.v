(** The global batches of two layouts (Scaling.v). *)
From Coq Require Import String QArith.
From Verif Require Import Base Dataset DatasetProofs Wrap WrapProofs WrapSpec Rng RngProofs Sharder SharderSpec SharderProofs2 EndToEndProofs SampleLoader Tar TarSpec Joined JoinedSpec WebProofs
  Wrappers ShuffleBuffer MapModel Batch Packing IterMap IterMapProofs Blend P_SampleLoader Pipeline P_Pipeline
  Loader LoaderSpec LoaderProofs LoaderSys LoaderSysProofs LoaderGlobal Scaling Lockstep ScalingProofs.
Local Close Scope Q_scope.
Local Close Scope Z_scope.
Local Open Scope list_scope.
Local Open Scope nat_scope.

Lemma prepared_are_whole {Dat} (F : files Dat) shards : prepared F shards -> Forall whole_shard shards.
Proof.
  intros (_ & H & _). eapply Forall_impl; [|exact H]. intros p (H1 & H2 & H3). split.
  - rewrite Forall_forall in H1. pose proof (H1 (fst p) (or_introl eq_refl)) as (_ & _ & C0). unfold count0. rewrite C0. lia.
  - apply Forall_forall. intros sh I. rewrite Forall_forall in H3. split; [auto|].
    rewrite Forall_forall in H1. pose proof (H1 sh I) as (_ & _ & C). pose proof (H1 (fst p) (or_introl eq_refl)) as (_ & _ & C0).
    unfold count0. rewrite C, C0. f_equal. rewrite <- (map_length base_of), (H2 sh I). apply map_length.
Qed.

(** ** the sharder *)
Section Shards.
  Variables (shards : list shseq) (maxs : option Z) (rot : Z) (ll : list (list shseq)) (world n : nat).
  Hypothesis HW : Forall whole_shard shards.
  Hypothesis HA : shard_all_ranks shards (world * n) 1 maxs rot = Ok ll.
  Hypothesis Hn : 0 < n.

  Lemma all_here : shard_all_ranks shards world n maxs rot = Ok ll.
  Proof. rewrite <- HA. apply shard_reshape; [exact HW|]. rewrite !Nat.max_r by lia. lia. Qed.

  Lemma each_rank r : r < world -> shard_workers shards (mkWcfg r world n) maxs rot = Ok (shards_of shards maxs rot world n r).
  Proof.
    intros Hr. pose proof all_here as E. unfold shard_all_ranks in E. destruct (sequence _) as [l|e] eqn:ES; cbn in E; [|discriminate].
    apply sequence_nth in ES. destruct ES as [L N]. rewrite map_length, seq_length in L.
    destruct (nth_error l r) as [v|] eqn:EV; [|apply nth_error_None in EV; lia]. pose proof (N _ _ EV) as X.
    rewrite (@map_nth_error _ _ _ r (seq 0 world) r) in X.
    - injection X as X. unfold shards_of. rewrite X. reflexivity.
    - rewrite (nth_error_nth' _ 0) by (rewrite seq_length; exact Hr). rewrite seq_nth by exact Hr. reflexivity.
  Qed.

  Lemma ll_concat : ll = concat (map (shards_of shards maxs rot world n) (seq 0 world)).
  Proof.
    pose proof all_here as E. unfold shard_all_ranks in E.
    rewrite (@sequence_map_ok _ _ _ (shards_of shards maxs rot world n)) in E.
    - cbn in E. injection E as <-. reflexivity.
    - intros r I. apply in_seq in I. apply each_rank. lia.
  Qed.
End Shards.

Lemma nth_concat_blocks {X} (d : X) n (f : nat -> list X) : forall world b r w,
  (forall r, b <= r < b + world -> length (f r) = n) -> r < world -> w < n ->
  nth (r * n + w) (concat (map f (seq b world))) d = nth w (f (b + r)) d.
Proof.
  induction world as [|world IH]; intros b r w HL Hr Hw; [lia|]. cbn [seq map concat].
  destruct r as [|r].
  - cbn [Nat.mul Nat.add]. rewrite app_nth1 by (rewrite HL by lia; exact Hw). rewrite Nat.add_0_r. reflexivity.
  - assert (LB : length (f b) = n) by (apply HL; lia).
    rewrite app_nth2 by (rewrite LB; cbn; lia). rewrite LB. replace (S r * n + w - n) with (r * n + w) by (cbn; lia).
    rewrite IH; [f_equal; f_equal; lia| |lia|exact Hw]. intros r' Hr'. apply HL. lia.
Qed.

Lemma rng_at_ok R n r : rng_ok R -> rng_ok (rng_at R n r).
Proof. intros [A B C]. constructor; [exact A|exact B|exact C]. Qed.

(** ** every rank's dataset is a training pipeline *)
Lemma build_training {A} (p : pipe A) world n rank : 0 < n -> rank < world -> trainable (world * n) p -> training n (build world n rank p).
Proof.
  intros Hn Hr. induction p as [Dat F pfilter R shards maxs rot par shuffle|A B f p IH|A B f p IH|A R size p IH|A B size drop f p IH|A q p IH|A p IH|A ev p IH
    |A R m weight ps IH|A B size pre f p IH|A B fn p IH]; cbn [trainable build].
  - intros (HP & HT & HM & OK & Hpar & HNS & ll & HA & HNE).
    assert (HW : Forall whole_shard shards) by (exact (prepared_are_whole HP)).
    assert (HS := fun r => @each_rank shards maxs rot ll world n HW HA Hn r).
    destruct (@C15_sharder_web_ok _ F shards world n maxs rot (shards_of shards maxs rot world n) HP HT HM ltac:(lia) HS rank Hr) as [WO L].
    rewrite Nat.max_r in L by lia. apply tr_web; auto; [|apply rng_at_ok, OK].
    rewrite (ll_concat HW HA Hn) in HNE. apply Forall_forall. intros ws I. apply (proj1 (Forall_forall _ _) HNE). apply in_concat.
    exists (shards_of shards maxs rot world n rank). split; [|exact I]. apply in_map. apply in_seq. lia.
  - intros H. apply tr_map, IH, H.
  - intros [Hf H]. apply tr_mapgen; [|apply IH, H]. intros w i a. apply Hf.
  - intros [OK H]. apply tr_shuffle; [apply rng_at_ok, OK|apply IH, H].
  - intros [Hf H]. apply tr_batch; [|apply IH, H]. intros w i l. apply Hf.
  - intros H. apply tr_filter, IH, H.
  - intros H. apply tr_log, IH, H.
  - intros H. apply tr_gc, IH, H.
  - intros H. apply tr_blend; [auto|]. intros i Hi. apply IH, H, Hi.
  - intros (Hs & Hp & H). apply tr_pack; [exact Hs| |apply IH, H]. intros w i l gs E. eapply Hp. exact E.
  - intros (H1 & H2 & H3 & H4 & H). apply tr_itermap; [| | | |apply IH, H].
    + split; [intros w i; apply H1|intros w i; apply H1].
    + intros w i. apply H2.
    + intros w i. apply H3.
    + split; [intros w i; apply H4|intros w i; apply H4].
Qed.

(** ** workers with the same global id *)
Section Two.
  Variables (world1 n1 world2 n2 r1 r2 w1 w2 : nat).
  Hypothesis HWn : world1 * n1 = world2 * n2.
  Hypothesis Hr1 : r1 < world1.
  Hypothesis Hr2 : r2 < world2.
  Hypothesis Hw1 : w1 < n1.
  Hypothesis Hw2 : w2 < n2.
  Hypothesis HG : gwid n1 r1 w1 = gwid n2 r2 w2.

  Lemma build_locked {A} (p : pipe A) : trainable (world1 * n1) p -> fresh_locked w1 w2 (build world1 n1 r1 p) (build world2 n2 r2 p).
  Proof.
    induction p as [Dat F pfilter R shards maxs rot par shuffle|A B f p IH|A B f p IH|A R size p IH|A B size drop f p IH|A q p IH|A p IH|A ev p IH
      |A R m weight ps IH|A B size pre f p IH|A B fn p IH]; cbn [trainable build].
    - intros (HP & HT & HM & OK & Hpar & HNS & ll & HA & HNE).
      assert (HW : Forall whole_shard shards) by (exact (prepared_are_whole HP)).
      assert (HA2 : shard_all_ranks shards (world2 * n2) 1 maxs rot = Ok ll) by (rewrite <- HWn; exact HA).
      assert (Hn1 : 0 < n1) by lia. assert (Hn2 : 0 < n2) by lia.
      assert (L1 : forall r, r < world1 -> length (shards_of shards maxs rot world1 n1 r) = n1).
      { intros r Hr. destruct (@C15_sharder_web_ok _ F shards world1 n1 maxs rot (shards_of shards maxs rot world1 n1) HP HT HM ltac:(lia) (@each_rank shards maxs rot ll world1 n1 HW HA Hn1) r Hr) as [_ L].
        rewrite L. lia. }
      assert (L2 : forall r, r < world2 -> length (shards_of shards maxs rot world2 n2 r) = n2).
      { intros r Hr. destruct (@C15_sharder_web_ok _ F shards world2 n2 maxs rot (shards_of shards maxs rot world2 n2) HP HT HM ltac:(lia) (@each_rank shards maxs rot ll world2 n2 HW HA2 Hn2) r Hr) as [_ L].
        rewrite L. lia. }
      assert (E1 : nth (gwid n1 r1 w1) ll [] = nth w1 (shards_of shards maxs rot world1 n1 r1) []).
      { rewrite (ll_concat HW HA Hn1). unfold gwid. rewrite (@nth_concat_blocks _ [] n1); [reflexivity| |exact Hr1|exact Hw1]. intros r Hr. apply L1. lia. }
      assert (E2 : nth (gwid n2 r2 w2) ll [] = nth w2 (shards_of shards maxs rot world2 n2 r2) []).
      { rewrite (ll_concat HW HA2 Hn2). unfold gwid. rewrite (@nth_concat_blocks _ [] n2); [reflexivity| |exact Hr2|exact Hw2]. intros r Hr. apply L2. lia. }
      unfold web_ds. apply web_locked; auto.
      + rewrite <- E1, <- E2, HG. reflexivity.
      + rewrite <- E1. apply (proj1 (Forall_forall _ _) HNE). apply nth_In.
        assert (LL : length ll = world1 * n1).
        { rewrite (ll_concat HW HA Hn1). clear - L1. assert (G : forall k b, (forall r, b <= r < b + k -> length (shards_of shards maxs rot world1 n1 r) = n1) ->
            length (concat (map (shards_of shards maxs rot world1 n1) (seq b k))) = k * n1).
          { induction k as [|k IH]; intros b H; [reflexivity|]. cbn [seq map concat]. rewrite app_length, IH, H; [cbn; lia|lia|intros; apply H; lia]. }
          apply G. intros r Hr. apply L1. lia. }
        rewrite LL. unfold gwid. nia.
    - intros H. eapply wrap_locked; [apply map_closed; assumption|apply slots_repeat; assumption|apply IH, H].
    - intros [_ H]. eapply wrap_locked; [apply mapgen_closed; assumption| |apply IH, H].
      unfold mgR. cbn. rewrite nth_repeat. auto 10 using slots_repeat.
    - intros [_ H]. eapply wrap_locked; [apply shuffle_closed; assumption| |apply IH, H].
      split; [apply bufR_init; assumption|]. split; [apply rngR_init|]. split; [reflexivity|discriminate].
    - intros [_ H]. eapply wrap_locked; [apply batch_closed; assumption| |apply IH, H].
      split; [apply slots_repeat; assumption|]. split; [reflexivity|discriminate].
    - intros H. eapply wrap_locked; [apply filter_closed; assumption|apply slots_repeat; assumption|apply IH, H].
    - intros H. eapply wrap_locked; [apply log_closed; assumption|apply slots_repeat; assumption|apply IH, H].
    - intros H. eapply wrap_locked; [apply gc_closed; assumption|reflexivity|apply IH, H].
    - intros H. apply blend_locked; try assumption. intros i Hi. apply IH, H, Hi.
    - intros (_ & _ & H). eapply wrap_locked; [apply pack_closed; assumption| |apply IH, H].
      split; [|split; [reflexivity|discriminate]]. unfold pkOR. cbn. auto 10 using bufR_init, slots_repeat.
    - intros (_ & _ & GR & _ & H). eapply wrap_locked; [apply itermap_closed; [assumption|exact GR]| |apply IH, H].
      split; [apply slots_repeat; assumption|]. cbn. auto.
  Qed.
End Two.

(** ** the loader of a rank *)
Lemma loader_worker {P} (D : dataset P) rank n prefetch min_n n_cp outs p : 0 < prefetch <= min_n -> 2 <= n_cp -> p < n ->
  returns rank n prefetch min_n n_cp (s_fresh D) outs ->
  exists evs, clean evs /\ emits p (ds_init D, ds_iter D) evs /\ sub n 0 p outs = map snd (number (gid rank n p) 0 (ysamples evs)).
Proof.
  intros [HP0 HP1] HC Hp H. assert (Hn : 0 < n) by lia.
  destruct (returns_pds Hn HP0 HP1 HC H Hn Hp) as (ys & (l & r & Dl & E) & ES). cbn [s_fresh y_q y_wk y_off y_next app] in *. subst l.
  apply delivers_prefix in Dl.
  assert (EL : lw n 0 p = p). { unfold lw. replace (p + n - 0) with (p + 1 * n) by lia. rewrite Nat.mod_add by lia. apply Nat.mod_small, Hp. }
  rewrite EL in Dl. apply delivers_fresh in Dl. destruct Dl as (evs & C & EM & ->). exists evs. auto.
Qed.

(** ** taking turns *)
Lemma sub_app {X} n p (l1 l2 : list X) : 0 < n -> forall cur, cur < n ->
  sub n cur p (l1 ++ l2) = sub n cur p l1 ++ sub n ((cur + length l1) mod n) p l2.
Proof.
  intros Hn. induction l1 as [|x l1 IH]; intros cur Hc.
  - cbn [app length sub]. rewrite Nat.add_0_r, Nat.mod_small by exact Hc. reflexivity.
  - cbn [app sub length]. rewrite IH by (apply Nat.mod_upper_bound; lia). rewrite Nat.add_mod_idemp_l by lia.
    replace (cur + 1 + length l1) with (cur + S (length l1)) by lia. destruct (cur =? p); reflexivity.
Qed.

Lemma sub_short {X} n p (l : list X) : forall cur, cur + length l <= n ->
  length (sub n cur p l) = if (cur <=? p) && (p <? cur + length l) then 1 else 0.
Proof.
  induction l as [|x l IH]; intros cur Hc; cbn [sub length] in *.
  - destruct (Nat.leb_spec cur p), (Nat.ltb_spec p (cur + 0)); cbn; lia.
  - destruct l as [|y l].
    + cbn [sub]. destruct (Nat.eqb_spec cur p); cbn [length]; destruct (Nat.leb_spec cur p), (Nat.ltb_spec p (cur + 1)); cbn; lia.
    + assert (E : (cur + 1) mod n = cur + 1) by (apply Nat.mod_small; cbn [length] in Hc; lia). rewrite E.
      assert (L := IH (cur + 1) ltac:(lia)). destruct (Nat.eqb_spec cur p); cbn [length]; rewrite L; cbn [length] in *;
        destruct (Nat.leb_spec (cur + 1) p), (Nat.ltb_spec p (cur + 1 + S (length l))), (Nat.leb_spec cur p), (Nat.ltb_spec p (cur + S (S (length l)))); cbn; lia.
Qed.

Lemma sub_length {X} n p m : forall l : list X, p < n -> length l = m * n -> length (sub n 0 p l) = m.
Proof.
  induction m as [|m IH]; intros l Hp HL.
  - destruct l; [reflexivity|discriminate].
  - rewrite <- (firstn_skipn n l). assert (L1 : length (firstn n l) = n) by (rewrite firstn_length; cbn in HL; lia).
    rewrite sub_app, app_length by lia. rewrite sub_short by lia. rewrite L1.
    replace ((0 + n) mod n) with 0 by (cbn; rewrite Nat.mod_same; lia). rewrite IH; [|exact Hp|rewrite skipn_length; cbn in HL; lia].
    cbn [Nat.leb andb Nat.add]. destruct (Nat.ltb_spec p n); lia.
Qed.

Lemma flat_map_one {X} cur (x : X) (f : nat -> list X) l : NoDup l -> In cur l ->
  Permutation (flat_map (fun p => if cur =? p then x :: f p else f p) l) (x :: flat_map f l).
Proof.
  induction l as [|q l IH]; intros ND I; [destruct I|]. inversion_clear ND as [|? ? NI ND']. cbn [flat_map]. destruct (Nat.eqb_spec cur q) as [<-|NE].
  - cbn [app]. apply perm_skip, Permutation_app_head.
    assert (E : flat_map (fun p => if cur =? p then x :: f p else f p) l = flat_map f l).
    { clear - NI. induction l as [|q l IH]; [reflexivity|]. cbn. rewrite IH by (intros H; apply NI; right; exact H).
      destruct (Nat.eqb_spec cur q) as [->|]; [exfalso; apply NI; left; reflexivity|reflexivity]. }
    rewrite E. reflexivity.
  - destruct I as [->|I]; [congruence|]. rewrite IH by assumption. rewrite <- Permutation_middle. reflexivity.
Qed.

Lemma turns_perm {X} n (l : list X) : 0 < n -> forall cur, cur < n -> Permutation l (flat_map (fun p => sub n cur p l) (seq 0 n)).
Proof.
  intros Hn. induction l as [|x l IH]; intros cur Hc.
  - assert (E : forall k, flat_map (fun p => sub n cur p (@nil X)) k = []) by (induction k; auto). rewrite E. constructor.
  - cbn [sub]. rewrite (@flat_map_one X cur x (fun p => sub n ((cur + 1) mod n) p l)); [|apply seq_NoDup|apply in_seq; lia].
    apply perm_skip, IH, Nat.mod_upper_bound. lia.
Qed.

Lemma Permutation_refl' {X} (a b : list X) : a = b -> Permutation a b.
Proof. intros ->. reflexivity. Qed.
Lemma flat_map_in_ext {X Y} (f g : X -> list Y) l : (forall x, In x l -> f x = g x) -> flat_map f l = flat_map g l.
Proof. induction l as [|x l IH]; intros H; [reflexivity|]. cbn. rewrite H by (left; reflexivity). rewrite IH; [reflexivity|]. intros y I. apply H. right. exact I. Qed.

(** one global step of a rank, in terms of its workers *)
Lemma step_perm {X} n m s (l : list X) : 0 < n -> (s + 1) * (m * n) <= length l ->
  Permutation (firstn (m * n) (skipn (s * (m * n)) l)) (flat_map (fun p => firstn m (skipn (s * m) (sub n 0 p l))) (seq 0 n)).
Proof.
  intros Hn HL. set (a := firstn (s * (m * n)) l). set (b := firstn (m * n) (skipn (s * (m * n)) l)). set (c := skipn (m * n) (skipn (s * (m * n)) l)).
  assert (E : l = a ++ b ++ c). { unfold a, b, c. rewrite firstn_skipn, firstn_skipn. reflexivity. }
  assert (LA : length a = (s * m) * n) by (unfold a; rewrite firstn_length; nia).
  assert (LB : length b = m * n) by (unfold b; rewrite firstn_length, skipn_length; nia).
  rewrite (turns_perm b Hn Hn). apply Permutation_refl'. apply flat_map_in_ext. intros p Hp. apply in_seq in Hp.
  rewrite E, !sub_app by (try apply Nat.mod_upper_bound; lia). rewrite LA, LB. cbn [Nat.add]. rewrite (Nat.mod_mul (s * m) n) by lia. cbn [Nat.add]. rewrite (Nat.mod_mul m n) by lia.
  rewrite skipn_app. rewrite (@sub_length _ n p (s * m) a) by (lia || exact LA). rewrite skipn_all2 by (rewrite (@sub_length _ n p (s * m) a) by (lia || exact LA); lia).
  rewrite Nat.sub_diag. cbn [app skipn]. rewrite firstn_app. rewrite (@sub_length _ n p m b) by (lia || exact LB). rewrite Nat.sub_diag.
  cbn [firstn]. rewrite app_nil_r. rewrite firstn_all2; [reflexivity|]. rewrite (@sub_length _ n p m b) by (lia || exact LB). lia.
Qed.

Lemma flat_map_blocks {X} n (f : nat -> list X) : forall world b,
  flat_map (fun r => flat_map (fun w => f (r * n + w)) (seq 0 n)) (seq b world) = flat_map f (seq (b * n) (world * n)).
Proof.
  induction world as [|world IH]; intros b; [reflexivity|]. cbn [seq flat_map]. rewrite IH.
  replace (S world * n) with (n + world * n) by lia. rewrite seq_app, flat_map_app. f_equal.
  - assert (E : forall k i, flat_map (fun w => f (b * n + w)) (seq i k) = flat_map f (seq (b * n + i) k)).
    { induction k as [|k IHk]; intros i; [reflexivity|]. cbn [seq flat_map]. rewrite IHk. do 3 f_equal. lia. }
    rewrite E. f_equal. f_equal. lia.
  - f_equal. f_equal. lia.
Qed.

(** slices of two beginnings of the same list *)
Lemma slice_same {X} (l1 l2 l3 : list X) k m : (l2 = l1 ++ l3) -> k + m <= length l1 -> firstn m (skipn k l1) = firstn m (skipn k l2).
Proof.
  intros -> H. rewrite skipn_app, firstn_app, skipn_length. replace (m - (length l1 - k)) with 0 by lia. cbn [firstn]. rewrite app_nil_r. reflexivity.
Qed.

Lemma number_app {P} g (x y : list (sample P)) : forall i, number g i (x ++ y) = number g i x ++ number g (i + length x) y.
Proof.
  induction x as [|a x IH]; intros i; cbn [app number length]; [rewrite Nat.add_0_r; reflexivity|]. rewrite IH. do 3 f_equal. lia.
Qed.

(** ** the global batches *)
(** gradient accumulation steps: how many micro batches a rank contributes to a global batch *)
Definition grad_steps (gbs mbs world : nat) : nat := gbs / (mbs * world).
(** all the micro batches of global batch number [s], if every rank [r] gets the micro batches [outs r] from its loader *)
Definition global_batch {X} (world acc s : nat) (outs : nat -> list X) : list X :=
  flat_map (fun r => firstn acc (skipn (s * acc) (outs r))) (seq 0 world).

Lemma grad_steps_mul gbs mbs world n m : 0 < mbs -> 0 < world -> gbs = m * (mbs * world * n) -> grad_steps gbs mbs world = m * n.
Proof. intros H1 H2 ->. unfold grad_steps. replace (m * (mbs * world * n)) with ((m * n) * (mbs * world)) by lia. apply Nat.div_mul. nia. Qed.

Section Layout.
  Context {A : Type} (p : pipe A).
  Variables (world n prefetch min_n n_cp m s : nat) (outs : nat -> list (sample A)).
  Hypothesis Hn : 0 < n.
  Hypothesis Hpre : 0 < prefetch <= min_n.
  Hypothesis Hcp : 2 <= n_cp.
  Hypothesis HO : forall r, r < world -> returns r n prefetch min_n n_cp (s_fresh (build world n r p)) (outs r).
  Hypothesis HL : forall r, r < world -> (s + 1) * (m * n) <= length (outs r).

  (** the micro batches that global worker [g] has contributed so far *)
  Definition contrib (g : nat) : list (sample A) := sub n 0 (g mod n) (outs (g / n)).

  Lemma batch_by_worker : Permutation (global_batch world (m * n) s outs) (flat_map (fun g => firstn m (skipn (s * m) (contrib g))) (seq 0 (world * n))).
  Proof.
    unfold global_batch. etransitivity; [|apply Permutation_refl'; exact (flat_map_blocks n (fun g => firstn m (skipn (s * m) (contrib g))) world 0)].
    assert (G : forall l, (forall r, In r l -> r < world) ->
      Permutation (flat_map (fun r => firstn (m * n) (skipn (s * (m * n)) (outs r))) l)
                  (flat_map (fun r => flat_map (fun w => firstn m (skipn (s * m) (contrib (r * n + w)))) (seq 0 n)) l)).
    { induction l as [|r l IH]; intros H; [constructor|]. cbn [flat_map]. apply Permutation_app; [|apply IH; intros; apply H; right; assumption].
      rewrite step_perm by (auto; apply HL, H; left; reflexivity). apply Permutation_refl'. apply flat_map_in_ext. intros w I. apply in_seq in I.
      unfold contrib. replace ((r * n + w) mod n) with w by (rewrite Nat.add_comm, Nat.mod_add, Nat.mod_small by lia; reflexivity).
      replace ((r * n + w) / n) with r by (rewrite Nat.add_comm, Nat.div_add, Nat.div_small by lia; reflexivity). reflexivity. }
    apply G. intros r I. apply in_seq in I. lia.
  Qed.

  Lemma contrib_spec g : g < world * n ->
    length (contrib g) >= (s + 1) * m /\
    exists evs, clean evs /\ emits (g mod n) (ds_init (build world n (g / n) p), ds_iter (build world n (g / n) p)) evs /\
      contrib g = map snd (number g 0 (ysamples evs)).
  Proof.
    intros Hg. assert (Hr : g / n < world) by (apply Nat.div_lt_upper_bound; lia). assert (Hw : g mod n < n) by (apply Nat.mod_upper_bound; lia).
    split.
    - unfold contrib. pose proof (HL Hr) as L. set (l := outs (g / n)) in *.
      rewrite <- (firstn_skipn ((s + 1) * m * n) l), sub_app, app_length by lia.
      rewrite (@sub_length _ n (g mod n) ((s + 1) * m)); [lia|exact Hw|]. rewrite firstn_length. nia.
    - destruct (loader_worker Hpre Hcp Hw (HO Hr)) as (evs & C & E & EQ). exists evs. split; [exact C|]. split; [exact E|].
      unfold contrib. rewrite EQ. do 2 f_equal. unfold gid. rewrite (Nat.div_mod g n) at 3 by lia. lia.
  Qed.
End Layout.

Theorem same_global_batches {A} (p : pipe A) world1 n1 world2 n2 pre1 min1 cp1 pre2 min2 cp2 m s (outs1 outs2 : nat -> list (sample A)) :
  0 < n1 -> 0 < n2 -> world1 * n1 = world2 * n2 -> trainable (world1 * n1) p ->
  0 < pre1 <= min1 -> 2 <= cp1 -> 0 < pre2 <= min2 -> 2 <= cp2 ->
  (forall r, r < world1 -> returns r n1 pre1 min1 cp1 (s_fresh (build world1 n1 r p)) (outs1 r)) ->
  (forall r, r < world2 -> returns r n2 pre2 min2 cp2 (s_fresh (build world2 n2 r p)) (outs2 r)) ->
  (forall r, r < world1 -> (s + 1) * (m * n1) <= length (outs1 r)) ->
  (forall r, r < world2 -> (s + 1) * (m * n2) <= length (outs2 r)) ->
  Permutation (global_batch world1 (m * n1) s outs1) (global_batch world2 (m * n2) s outs2).
Proof.
  intros Hn1 Hn2 HWn HT P1 C1 P2 C2 O1 O2 L1 L2.
  rewrite (batch_by_worker Hn1 P1 C1 O1 L1), (batch_by_worker Hn2 P2 C2 O2 L2), HWn. apply Permutation_refl'. apply flat_map_in_ext. intros g I. apply in_seq in I.
  destruct (contrib_spec Hn1 P1 C1 O1 L1 (g := g) ltac:(lia)) as (G1 & e1 & K1 & M1 & E1).
  destruct (contrib_spec Hn2 P2 C2 O2 L2 (g := g) ltac:(lia)) as (G2 & e2 & K2 & M2 & E2).
  assert (M1' : emits (g mod n2) (ds_init (build world2 n2 (g / n2) p), ds_iter (build world2 n2 (g / n2) p)) e1).
  { eapply locked_emits; [|exact M1]. apply build_locked; auto.
    - apply Nat.div_lt_upper_bound; lia.
    - apply Nat.div_lt_upper_bound; lia.
    - apply Nat.mod_upper_bound; lia.
    - apply Nat.mod_upper_bound; lia.
    - unfold gwid. pose proof (Nat.div_mod g n1 ltac:(lia)). pose proof (Nat.div_mod g n2 ltac:(lia)). lia. }
  rewrite E1 in *. rewrite E2 in *. destruct (emits_comparable M1' M2) as [[l ->]|[l ->]].
  - rewrite ysamples_app, number_app, map_app. eapply slice_same; [reflexivity|lia].
  - rewrite ysamples_app, number_app, map_app. symmetry. eapply slice_same; [reflexivity|lia].
Qed.
