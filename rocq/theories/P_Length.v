(** Property C66: len() is the number of samples of an epoch. *)
From Coq Require Import String QArith.
From Verif Require Import Base Dataset DatasetProofs Wrap WrapSpec WrapLib Rng RngProofs Sharder SharderSpec SampleLoader SampleLoaderSpec Wrappers Batch BatchSpec
  MapModel IterMap TaskEncoder TaskEncoderSpec EndToEndProofs SharderProofs2 ResetProofs P_Sharder P_SampleLoader P_Wrappers P_Batch P_Blend EpochLoader EpochLoaderSpec P_EpochLoader LoaderProofs
  Blend Config ConfigProofs P_Config Length LengthSpec LengthProofs LengthProofs2.
Local Close Scope Q_scope.
Local Close Scope Z_scope.
Local Open Scope string_scope.
Local Open Scope list_scope.
Local Open Scope nat_scope.

(** *** where len() is exact *)

(** every epoch that worker [w] reads has [ns w] samples, and these numbers add up to len() *)
Theorem C66_len_exact V K (keq : K -> K -> bool) (E : env (V := V) (K := K)) len_map wc p m :
  rng_ok (gen E wc) -> exact keq E len_map wc p m ->
  exists ns : nat -> nat,
    (forall w, w < nworkers wc -> epoch_sizes w (denote keq E wc p) (repeat (ns w) m)) /\
    list_sum (map ns (seq 0 (nworkers wc))) = pipe_len len_map wc p.
Proof. intros OK X. exists (worker_len wc p). split; [intros w Hw; eapply exact_sizes; eauto|eapply exact_len; eauto]. Qed.
Print Assumptions C66_len_exact.

Lemma epoch_unique V (D : dataset V) w xs ys : emits w (fresh D) (epoch xs) -> emits w (fresh D) (epoch ys) -> xs = ys.
Proof.
  intros H1 H2. destruct (emits_comparable H1 H2) as [(l & HE)|(l & HE)].
  - unfold epoch in HE at 2. rewrite <- app_assoc in HE. apply epoch_app_inj in HE. symmetry. apply HE.
  - unfold epoch in HE at 2. rewrite <- app_assoc in HE. apply epoch_app_inj in HE. apply HE.
Qed.

Lemma concat_length {X} (l : list (list X)) : length (concat l) = list_sum (map (@length X) l).
Proof. induction l as [|x l IH]; [reflexivity|]. cbn [concat map]. rewrite app_length, IH. reflexivity. Qed.

(** a loader with worker processes has returned len() samples when it stops, however the processes are scheduled *)
Theorem C66_loader_len V K (keq : K -> K -> bool) (E : env (V := V) (K := K)) len_map wc p (xs : nat -> list (sample V)) f o s :
  let n := wc_workers wc in
  rng_ok (gen E wc) -> exact keq E len_map wc p 1 -> 0 < n -> 0 < f ->
  (forall w, w < n -> emits w (fresh (denote keq E wc p)) (epoch (xs w))) ->
  eruns n (e_start n f xs) o s -> e_stops s -> length o = loader_len len_map wc p.
Proof.
  intros n OK X Hn Hf HX HR HS. destruct (C52_epoch_each_once Hn Hf HR HS) as [P _].
  apply Permutation_length in P. rewrite map_length, concat_length, map_map in P. rewrite P.
  destruct (C66_len_exact OK X) as (ns & H1 & H2). unfold loader_len. rewrite <- H2. replace (nworkers wc) with n by (unfold nworkers; lia).
  f_equal. apply map_ext_in. intros w Hw. apply in_seq in Hw.
  destruct (H1 w ltac:(unfold nworkers; lia)) as (eps & (xss & HE & HM) & HL). cbn [repeat] in HL.
  destruct eps as [|e [|? ?]]; try discriminate. injection HL as HL. destruct xss as [|e' [|? ?]]; try discriminate. injection HM as HM.
  cbn [map concat] in HE. rewrite app_nil_r in HE. rewrite (epoch_unique (HX w ltac:(lia)) HE), <- HL, <- HM, map_length. reflexivity.
Qed.
Print Assumptions C66_loader_len.

(** repeating forever keeps going: the usual source of an EpochizeDataset *)
Theorem C66_repeat_keeps_going V K (keq : K -> K -> bool) (E : env (V := V) (K := K)) len_map wc p w :
  rng_ok (gen E wc) -> (forall m, exact keq E len_map wc p m) -> w < nworkers wc -> 0 < worker_len wc p w -> has_samples p w = true ->
  keeps_going w (denote keq E wc (PRepeat None p)).
Proof.
  intros OK X Hw HL HS k. destruct (exact_sizes OK (X k) Hw) as (eps & (xss & HE & HM) & HN).
  exists (map Yield (samples (concat (map epoch xss)))). cbn [denote]. split; [|split].
  - apply C25_repeat_forever; auto. clear. unfold clean. apply Forall_forall. intros e He. apply in_concat in He. destruct He as (l & Hl & He). apply in_map_iff in Hl. destruct Hl as (xs & <- & _).
    unfold epoch in He. apply in_app_iff in He. destruct He as [He | [<- | []]]; [|exact I]. apply in_map_iff in He. destruct He as (x & <- & _). exact I.
  - apply clean_Yields.
  - assert (SY : forall l : list (sample V), samples (map Yield l) = l) by (induction l as [|x l IH]; [reflexivity|cbn; rewrite IH; reflexivity]). rewrite SY.
    assert (HX : Forall (fun xs => 0 < length xs) xss /\ length xss = k).
    { subst eps. rewrite map_map in HN. split.
      - apply Forall_forall. intros xs Hxs. apply (in_map (fun x => length (map pl x))) in Hxs. rewrite HN in Hxs. apply repeat_spec in Hxs. rewrite map_length in Hxs. lia.
      - apply (f_equal (@length nat)) in HN. rewrite map_length, repeat_length in HN. exact HN. }
    clear - HX. destruct HX as [F <-]. induction F as [|xs l Hx F IH]; [cbn; lia|]. cbn [map concat length].
    assert (SA : forall a b : list (event (sample V)), samples (a ++ b) = samples a ++ samples b) by (induction a as [|[x| | |x] a IHa]; intros b; cbn [app samples]; rewrite ?IHa; reflexivity).
    rewrite SA, app_length. unfold epoch at 1. rewrite SA, app_length.
    assert (SY : forall l : list (sample V), samples (map Yield l) = l) by (induction l0 as [|x l0 IH0]; [reflexivity|cbn; rewrite IH0; reflexivity]). rewrite SY. lia.
Qed.
Print Assumptions C66_repeat_keeps_going.

(** ... but not over a dataset that is limited to no samples at all: iterating fails at once, instead of searching forever *)
Theorem C66_repeat_of_nothing V K (keq : K -> K -> bool) (E : env (V := V) (K := K)) wc limit_sc p w outs :
  emits w (fresh (denote keq E wc (PRepeat None (PLimit 0 limit_sc p)))) outs <-> outs = [] \/ outs = [Raise AssertionError].
Proof.
  set (D := denote keq E wc (PRepeat None (PLimit 0 limit_sc p))).
  assert (HS : has_samples (PLimit 0 limit_sc p) w = false) by (cbn [has_samples]; destruct (has_samples p w); reflexivity).
  assert (HN : exists s1, nextn w 1 (fresh D) = Some (Raise AssertionError, s1)).
  { unfold D. cbn [denote]. cbn [nextn]. unfold wrap, fresh. cbn [ds_step ds_init ds_iter fst snd]. unfold wrap_step. cbn [t_act repeat_ds t_iter]. cbv beta iota zeta. rewrite HS. eexists. reflexivity. }
  destruct HN as [s1 HN].
  split.
  - intros H. destruct H as [|s a s' l N H|s s' l N H|s e s' N]; [auto| | |].
    + exfalso. pose proof (next_det N (ex_intro _ 1 HN)) as [Q _]. discriminate.
    + exfalso. pose proof (next_det N (ex_intro _ 1 HN)) as [Q _]. discriminate.
    + right. pose proof (next_det N (ex_intro _ 1 HN)) as [Q _]. injection Q as ->. reflexivity.
  - intros [-> | ->]; [constructor|]. econstructor. exists 1. exact HN.
Qed.
Print Assumptions C66_repeat_of_nothing.

(** *** where len() is an upper bound *)
Theorem C66_len_upper_bound_partial V K (keq : K -> K -> bool) (E : env (V := V) (K := K)) len_map wc p m :
  rng_ok (gen E wc) -> bounded keq E wc p m ->
  exists ns : nat -> nat -> nat,
    (forall w, w < nworkers wc -> epoch_sizes w (denote keq E wc p) (map (ns w) (seq 0 m))) /\
    (forall j, j < m -> list_sum (map (fun w => ns w j) (seq 0 (nworkers wc))) <= pipe_len len_map wc p).
Proof.
  intros OK X.
  destruct (@finite_choice (list nat) [] (fun w ns => epoch_sizes w (denote keq E wc p) ns /\ length ns = m /\ Forall (fun x => x <= worker_len wc p w) ns) (nworkers wc)) as (f & Hf).
  { intros w Hw. exact (bounded_sizes len_map OK X Hw). }
  exists (fun w j => nth j (f w) 0). split.
  - intros w Hw. destruct (Hf w Hw) as (H1 & H2 & _). rewrite <- H2. replace (map _ _) with (f w); [exact H1|]. symmetry. apply map_nth_seq.
  - intros j Hj. etransitivity; [|exact (bounded_len len_map X)]. apply sum_le. intros w Hw. apply in_seq in Hw. destruct (Hf w ltac:(lia)) as (_ & H2 & H3).
    rewrite Forall_forall in H3. apply H3. apply nth_In. lia.
Qed.
Print Assumptions C66_len_upper_bound_partial.

(** *** the dataset as a whole: len() of the factory counts the samples of all ranks *)
Lemma rows_length s : length (rows s) = Z.to_nat (count0 s).
Proof. unfold rows. rewrite map_length, seq_length. reflexivity. Qed.
Lemma all_rows_length l : length (all_rows l) = list_sum (map (fun s => Z.to_nat (count0 s)) l).
Proof. induction l as [|s l IH]; [reflexivity|]. unfold all_rows in *. cbn [flat_map map]. rewrite app_length, rows_length, IH. reflexivity. Qed.
Lemma sublist_length {A} (a b : list A) : sublist a b -> length a <= length b.
Proof. induction 1; cbn; lia. Qed.
Lemma load_len len_map wc shards exclude loop shuffle par pf h :
  pipe_len len_map wc (PLoad shards exclude loop shuffle par pf h) = length (all_rows (concat (infos shards))).
Proof.
  cbn [pipe_len]. rewrite all_rows_length. unfold infos. induction shards as [|ws l IH]; [reflexivity|]. cbn [map concat].
  rewrite map_app, list_sum_app, <- IH. cbn [map]. rewrite sum_cons. f_equal. rewrite map_map. reflexivity.
Qed.

Theorem C66_factory_len len_map wc (cs : nat -> list (list (cshard * list cshard))) exclude loop shuffle par pf h shards world n maxs rot :
  shards <> [] -> Forall whole_shard shards -> (total_samples shards < 2 ^ 51)%Z -> match maxs with Some m => (0 < m)%Z | None => True end -> 0 < world ->
  (forall r, r < world -> shard_workers shards (mkWcfg r world n) maxs rot = Ok (infos (cs r))) ->
  let total := list_sum (map (fun r => pipe_len len_map (wc r) (PLoad (cs r) exclude loop shuffle par pf h)) (seq 0 world)) in
  total <= factory_len shards /\ (maxs = None -> total = factory_len shards).
Proof.
  intros Hne HW Ht Hm Hw HS total. destruct (@used_rows shards world n maxs rot (fun r => infos (cs r)) Hne HW Ht Hm Hw HS) as (used & U1 & U2 & U3).
  assert (T : total = length used).
  { unfold total. rewrite U3. clear. induction (seq 0 world) as [|r l IH]; [reflexivity|]. cbn [map concat]. rewrite sum_cons, IH, load_len. unfold all_rows. rewrite flat_map_app, app_length. reflexivity. }
  rewrite T. unfold factory_len. rewrite <- all_rows_length. split; [apply sublist_length; exact U1|]. intros HN. rewrite (U2 HN). reflexivity.
Qed.
Print Assumptions C66_factory_len.

(** the sharder gives the workers of a rank such shares that len() of batches is exact (the hypothesis on the workers' shares in
    [exact]) *)
Theorem C66_even_shares len_map wc (cs : nat -> list (list (cshard * list cshard))) exclude loop shuffle par pf h shards world rot r w :
  shards <> [] -> Forall whole_shard shards -> (total_samples shards < 2 ^ 53)%Z ->
  (forall r, r < world -> shard_workers shards (mkWcfg r world (wc_workers wc)) None rot = Ok (infos (cs r))) ->
  r < world -> w < nworkers wc ->
  let p := PLoad (cs r) exclude loop shuffle par pf h in
  pipe_len len_map wc p / nworkers wc <= worker_len wc p w <= pipe_len len_map wc p / nworkers wc + 1.
Proof.
  intros Hne HW Ht HS Hr Hw p.
  assert (Hworld : 0 < world) by lia.
  destruct (@C02_sharding_balance shards world (wc_workers wc) rot Hne HW Ht Hworld) as (ll & E1 & F & _).
  assert (AE : shard_all_ranks shards world (wc_workers wc) None rot = Ok (concat (map (fun r => infos (cs r)) (seq 0 world)))).
  { unfold shard_all_ranks. rewrite (@sequence_map_ok _ _ _ (fun r => infos (cs r))); [reflexivity|]. intros r0 Hr0. apply in_seq in Hr0. apply HS. lia. }
  rewrite AE in E1. injection E1 as <-.
  set (q := Z.to_nat (total_samples shards / Z.of_nat (world * Nat.max 1 (wc_workers wc)))).
  assert (L : length (infos (cs r)) = nworkers wc).
  { pose proof (HS r Hr) as E. rewrite shard_workers_closed in E; auto using csum_whole_nonneg. apply sequence_length in E. rewrite map_length, seq_length in E. rewrite E. unfold nworkers. lia. }
  assert (HQ : forall v, In v (infos (cs r)) -> q <= length (all_rows v) <= q + 1).
  { intros v Hv. unfold loads in F. rewrite Forall_map, Forall_forall in F. specialize (F v). unfold q.
    assert (I : In v (concat (map (fun r => infos (cs r)) (seq 0 world)))).
    { apply in_concat. exists (infos (cs r)). split; [|exact Hv]. apply in_map_iff. exists r. split; [reflexivity|]. apply in_seq. lia. }
    specialize (F I). lia. }
  assert (WL : forall w, worker_len wc p w = length (all_rows (nth w (infos (cs r)) []))).
  { intros w'. unfold p. cbn [worker_len]. rewrite nth_infos, all_rows_length, map_map. reflexivity. }
  assert (PL : pipe_len len_map wc p = list_sum (map (fun v => length (all_rows v)) (infos (cs r)))).
  { unfold p. rewrite load_len. generalize (infos (cs r)). clear. induction l as [|v l IH]; [reflexivity|]. cbn [concat map]. rewrite sum_cons, <- IH. unfold all_rows. rewrite flat_map_app, app_length. reflexivity. }
  destruct (@sum_two (fun x => x) q (map (fun v => length (all_rows v)) (infos (cs r)))) as (c & Hc & S1 & _).
  { apply Forall_map. apply Forall_forall. intros v Hv. apply HQ. exact Hv. }
  rewrite map_length, L in *. rewrite <- PL in S1. rewrite WL.
  assert (HB := HQ _ (nth_In (infos (cs r)) [] (eq_ind_r (fun k => w < k) Hw L))).
  destruct (Nat.eq_dec c (nworkers wc)) as [-> | Nc].
  - assert (PE : pipe_len len_map wc p = (q + 1) * nworkers wc) by lia. rewrite PE, Nat.div_mul by lia.
    assert (ALL : forall v, In v (infos (cs r)) -> length (all_rows v) = q + 1).
    { assert (SS : list_sum (map (fun v => length (all_rows v)) (infos (cs r))) = (q + 1) * length (infos (cs r))) by (rewrite L, <- PL; exact PE).
      clear - HQ SS. revert SS HQ. induction (infos (cs r)) as [|v l IH]; intros SS HQ v' Hv'; [destruct Hv'|]. cbn [map length] in SS. rewrite sum_cons in SS.
      assert (B : list_sum (map (fun v => length (all_rows v)) l) <= (q + 1) * length l).
      { clear - HQ. induction l as [|x l IH]; [cbn; lia|]. cbn [map length]. rewrite sum_cons.
        assert (list_sum (map (fun v0 => length (all_rows v0)) l) <= (q + 1) * length l) by (apply IH; intros y [<- | Hy]; apply HQ; [left; reflexivity|right; right; exact Hy]).
        assert (length (all_rows x) <= q + 1) by (apply HQ; right; left; reflexivity). lia. }
      pose proof (HQ v (or_introl eq_refl)). destruct Hv' as [<- | Hv']; [lia|]. apply IH; auto; [lia|]. intros y Hy. apply HQ. right. exact Hy. }
    rewrite (ALL _ (nth_In (infos (cs r)) [] (eq_ind_r (fun k => w < k) Hw L))). lia.
  - assert (DQ : pipe_len len_map wc p / nworkers wc = q).
    { symmetry. apply (Nat.div_unique _ _ q c); lia. }
    rewrite DQ. exact HB.
Qed.
Print Assumptions C66_even_shares.

(** *** the hypotheses are met: two workers with two samples each; samples are shuffled and encoded, and batches of two are made *)
Definition len_shards : list (list (cshard * list cshard)) :=
  [[(mkCshard (mkShard 0 0 2) "a/shard_0.tar" None None, [])]; [(mkCshard (mkShard 0 2 2) "a/shard_0.tar" None None, [])]].
Definition len_wc : wconf := mkWconf 0 1 2 None 0.
Definition len_load (shuffle : shuffling) (par : nat) : pipe := PLoad len_shards [] false shuffle par 0 0.

Lemma ex_rng_ok seed : rng_ok (ex_rng seed).
Proof. constructor; [apply (ok_below lcg_ok)|apply (ok_mult lcg_ok)|apply (ok_perm lcg_ok)]. Qed.

Lemma len_whole shuffle par : (shuffle = NoShuffle /\ par = 1) \/ shuffle = Over 1 -> par >= 1 -> whole_source ex_env len_wc len_shards [] false shuffle par 0 0.
Proof.
  intros H HP. split; [reflexivity|]. split; [reflexivity|]. split; [|split; [exact HP|split; [exact H|]]].
  - repeat constructor; cbn; intuition (try lia; try discriminate).
  - intros ws s Hws Hs. cbn in Hws. destruct Hws as [<- | [<- | []]]; destruct Hs as [<- | []]; reflexivity.
Qed.

Example C66_exact_nonvacuous :
  let p := PConcat [PBatch 2 (fn "join" 3) NoConfig false false (fn "ignore" 0) (PMap (fn "enc" 1) NoConfig true (fn "ignore" 0) (PShuffle 3 (len_load (Over 1) 2)));
                    PEpochize 3 (PRepeat None (len_load (Over 1) 1)); PLimit 3 true (len_load NoShuffle 1); PRepeat (Some 2) (len_load (Over 1) 2)] in
  let lm := fun _ n : nat => n in
  rng_ok (gen ex_env len_wc) /\ exact Nat.eqb ex_env lm len_wc p 1 /\ pipe_len lm len_wc p = 2 + 3 + 3 + 8.
Proof.
  intros p lm.
  assert (HK : forall w, w < 2 -> keeps_going w (ex_den len_wc (PRepeat None (len_load (Over 1) 1)))).
  { intros w Hw. apply (@C66_repeat_keeps_going _ _ Nat.eqb ex_env lm len_wc (len_load (Over 1) 1)); [apply ex_rng_ok|intros m; apply len_whole; auto|exact Hw| |];
      destruct w as [|[|w]]; try lia; vm_compute; auto. }
  split; [apply ex_rng_ok|]. split; [|reflexivity]. unfold p. cbn [exact map fold_right len_load]. repeat match goal with |- _ /\ _ => split end; auto; try lia.
  - eexists. split; [reflexivity|]. intros w i x. eexists. reflexivity.
  - eexists. split; [reflexivity|]. intros w i x. cbn. eexists. reflexivity.
  - apply len_whole; auto.
  - intros [|[|w]] Hw; [vm_compute; lia|vm_compute; lia|exfalso; vm_compute in Hw; lia].
  - apply len_whole; auto.
  - cbn [denote]. apply loader_resettable.
  - left. intros [|[|w]] Hw; [vm_compute; lia|vm_compute; lia|exfalso; vm_compute in Hw; lia].
  - apply len_whole; auto.
Qed.

(** the hypotheses of the upper bound: samples are filtered and grouped *)
Example C66_bounded_nonvacuous :
  let p := PGroup (Some 2) (fn "key" 0) (fn "join" 0) NoConfig false false (fn "ignore" 0) (PFilter (fn "keep" 1) NoConfig (len_load (Over 1) 2)) in
  let lm := fun _ n : nat => n in
  (forall m, bounded Nat.eqb ex_env len_wc p m) /\ pipe_len lm len_wc p = 4.
Proof.
  intros p lm. split; [|reflexivity]. intros m. unfold p. cbn [bounded len_load]. split; [intros a b; apply Nat.eqb_eq|].
  split; [|split; [intros w i l H; vm_compute in H; discriminate|split; [|apply len_whole; auto]]].
  - exists (fun _ v => Some (v mod 2)), (fun _ => 2). split; [|intros; lia]. intros w i x. left. split; reflexivity.
  - intros w i x. eexists. reflexivity.
Qed.

(** *** refuted: where len() is not the number of samples of an epoch *)
Fixpoint split_epochs {V} (cur : list (sample V)) (l : list (event (sample V))) : list (list (sample V)) :=
  match l with
  | [] => []
  | Yield a :: l' => split_epochs (cur ++ [a]) l'
  | Done :: l' => cur :: split_epochs [] l'
  | _ :: l' => split_epochs cur l'
  end.
Lemma sizes_run V (D : dataset V) w fuel k ns : let l := runk w fuel k (fresh D) in
  concat (map epoch (split_epochs [] l)) = l -> map (@length _) (split_epochs [] l) = ns -> epoch_sizes w D ns.
Proof.
  intros l HC HL. exists (map (map pl) (split_epochs [] l)). split.
  - exists (split_epochs [] l). split; [|reflexivity]. rewrite HC. apply runk_emits.
  - rewrite map_map. rewrite <- HL. apply map_ext. intros x. apply map_length.
Qed.

(** a filter: len() still counts what is filtered out *)
Theorem C66_filter_refuted : exists p, pipe_len (fun _ n => n) (ex_wc 0) p = 4 /\ nworkers (ex_wc 0) = 1 /\ epoch_sizes 0 (ex_den (ex_wc 0) p) [1; 1].
Proof.
  exists (PFilter (fn "keep" 3) NoConfig ex_load). split; [reflexivity|]. split; [reflexivity|]. apply (@sizes_run _ _ 0 40 4); vm_compute; reflexivity.
Qed.

(** MapDataset with a function that yields several samples: an epoch has more samples than len() says *)
Definition twice_env : env (V := nat) (K := nat) :=
  {| e_map := fun c h => GenFn (fun w i v => ([v; v], GEnd)); e_iter := e_iter ex_env; e_filter := e_filter ex_env; e_batch := e_batch ex_env; e_key := e_key ex_env;
     e_group := e_group ex_env; e_pre := e_pre ex_env; e_final := e_final ex_env; e_content := e_content ex_env; e_restore := e_restore ex_env; e_rng := e_rng ex_env |}.
Theorem C66_generator_map_refuted : exists p, pipe_len (fun _ n => n) (ex_wc 0) p = 4 /\ epoch_sizes 0 (denote Nat.eqb twice_env (ex_wc 0) p) [8; 8].
Proof.
  exists (PMap (fn "twice" 1) NoConfig true (fn "ignore" 0) ex_load). split; [reflexivity|]. apply (@sizes_run _ _ 0 80 18); vm_compute; reflexivity.
Qed.

(** shuffle_over_epochs = 2: an epoch of the loader is two passes over the data *)
Theorem C66_shuffle_over_refuted : exists p, pipe_len (fun _ n => n) (ex_wc 0) p = 4 /\ epoch_sizes 0 (ex_den (ex_wc 0) p) [8; 8].
Proof.
  exists (PLoad ex_shards [] false (Over 2) 2 0 0). split; [reflexivity|]. apply (@sizes_run _ _ 0 200 18); vm_compute; reflexivity.
Qed.

(** LimitDataset where one worker has fewer samples than its share of the limit: fewer samples than len() says *)
Definition uneven_shards : list (list (cshard * list cshard)) :=
  [[(mkCshard (mkShard 0 0 3) "a/shard_0.tar" None None, [])]; [(mkCshard (mkShard 0 3 1) "a/shard_0.tar" None None, [])]].
Theorem C66_limit_refuted : exists p, pipe_len (fun _ n => n) len_wc p = 4 /\ nworkers len_wc = 2 /\
  epoch_sizes 0 (ex_den len_wc p) [2] /\ epoch_sizes 1 (ex_den len_wc p) [1].
Proof.
  exists (PLimit 4 true (PLoad uneven_shards [] false NoShuffle 1 0 0)). split; [reflexivity|]. split; [reflexivity|].
  split; [apply (@sizes_run _ _ 0 40 3)|apply (@sizes_run _ _ 1 40 2)]; vm_compute; reflexivity.
Qed.

(** BatchDataset over two workers with 2 and 1 samples, or 5 and 4: len() says 3 or 4, there are 2 and 5 batches *)
Definition two_shards (a b : nat) : list (list (cshard * list cshard)) :=
  [[(mkCshard (mkShard 0 0 (Z.of_nat a)) "a/shard_0.tar" None None, [])]; [(mkCshard (mkShard 0 (Z.of_nat a) (Z.of_nat b)) "a/shard_0.tar" None None, [])]].
Theorem C66_batch_refuted :
  let p a b := PBatch 2 (fn "join" 3) NoConfig false false (fn "ignore" 0) (PLoad (two_shards a b) [] false NoShuffle 1 0 0) in
  (pipe_len (fun _ n => n) len_wc (p 2 1) = 3 /\ epoch_sizes 0 (ex_den len_wc (p 2 1)) [1] /\ epoch_sizes 1 (ex_den len_wc (p 2 1)) [1]) /\
  (pipe_len (fun _ n => n) len_wc (p 5 4) = 4 /\ epoch_sizes 0 (ex_den len_wc (p 5 4)) [3] /\ epoch_sizes 1 (ex_den len_wc (p 5 4)) [2]).
Proof.
  intros p. split; (split; [reflexivity|]); split;
    [apply (@sizes_run _ _ 0 40 2)|apply (@sizes_run _ _ 1 40 2)|apply (@sizes_run _ _ 0 40 4)|apply (@sizes_run _ _ 1 40 3)]; vm_compute; reflexivity.
Qed.

Lemma never_ends V (D : dataset V) w xs : (forall s s' : st D, reach w true 1 s -> ~ next w s Done s') ->
  forall s : st D, reach w true 1 s -> forall l, ~ @emits V D w s (map Yield xs ++ Done :: l).
Proof.
  intros H. induction xs as [|x xs IH]; intros s Rs l Em; cbn [map app] in Em.
  - apply emits_done_inv in Em as (s1 & N & _). exact (H s s1 Rs N).
  - apply emits_yield_inv in Em as (s1 & N & Em). exact (IH s1 (r_yield Rs N) l Em).
Qed.

(** BlendDataset: len() is a number, but iterating never ends *)
Theorem C66_blend_refuted : exists p, pipe_len (fun _ n => n) (ex_wc 0) p = 8 /\ forall ns, epoch_sizes 0 (ex_den (ex_wc 0) p) ns -> ns = [].
Proof.
  exists (PBlend [(PRepeat None ex_load, 1%Q); (PRepeat None ex_load, (1 # 2)%Q)]). split; [reflexivity|].
  intros ns (eps & (xss & HE & HM) & HL). destruct xss as [|xs xss]; [subst; reflexivity|exfalso].
  cbn [map concat] in HE. unfold epoch in HE at 1. rewrite <- app_assoc in HE. cbn [app] in HE.
  refine (@never_ends _ _ 0 xs (fun s s' R => @C28_blend_endless nat _ _ _ _ _ true 1 0 s s' (le_n 1) R) _ (r_init _ _ _ _) _ HE).
Qed.

(** RepeatDataset with a number of repeats: len() counts all of them, but the second iteration has none *)
Theorem C66_repeat_refuted : exists p, pipe_len (fun _ n => n) (ex_wc 0) p = 8 /\ epoch_sizes 0 (ex_den (ex_wc 0) p) [8; 0].
Proof.
  exists (PRepeat (Some 2) ex_load). split; [reflexivity|]. apply (@sizes_run _ _ 0 80 10); vm_compute; reflexivity.
Qed.

(** the factory with max_samples_per_sequence: the ranks' loaders lose a sample that len() of the factory counts *)
Theorem C66_factory_refuted : exists shards cs, shard_workers shards (mkWcfg 0 1 1) (Some 100%Z) 0 = Ok (infos cs) /\
  factory_len shards = 1867 /\ pipe_len (fun _ n => n) (ex_wc 0) (PLoad cs [] false NoShuffle 1 0 0) = 1866.
Proof.
  set (shards := [(mkShard 0 0 1867, []) : shseq]).
  assert (HE : exists ws, shard_workers shards (mkWcfg 0 1 1) (Some 100%Z) 0 = Ok [ws] /\ length (all_rows ws) = 1866) by (eexists; split; vm_compute; reflexivity).
  destruct HE as (ws & E1 & E2). exists shards, [map (fun s : shseq => (mkCshard (fst s) "" None None, map (fun c => mkCshard c "" None None) (snd s))) ws].
  assert (HI : infos [map (fun s : shseq => (mkCshard (fst s) "" None None, map (fun c => mkCshard c "" None None) (snd s))) ws] = [ws]).
  { unfold infos. cbn [map]. rewrite map_map. rewrite (map_ext _ (fun s : shseq => s)); [rewrite map_id; reflexivity|].
    intros [s ss]. cbn [fst snd cs_info]. rewrite map_map. cbn [cs_info]. rewrite map_id. reflexivity. }
  rewrite HI. split; [exact E1|]. split; [vm_compute; reflexivity|]. rewrite load_len, HI. cbn [concat]. rewrite app_nil_r. exact E2.
Qed.

(** the hypotheses of [C66_factory_len] and [C66_even_shares] are met: two shards of 5 and 4 samples, two ranks with two workers *)
Definition fac_cs (r : nat) : list (list (cshard * list cshard)) :=
  let c n o k := (mkCshard (mkShard n o k) "" None None, []) in
  match r with 0 => [[c 0 0%Z 3%Z]; [c 0 3%Z 2%Z]] | _ => [[c 1 0%Z 2%Z]; [c 1 2%Z 2%Z]] end.
Example C66_factory_nonvacuous :
  let shards : list shseq := [(mkShard 0 0 5, []); (mkShard 1 0 4, [])]%Z in
  shards <> [] /\ Forall whole_shard shards /\ (forall r, r < 2 -> shard_workers shards (mkWcfg r 2 2) None 0 = Ok (infos (fac_cs r))) /\ factory_len shards = 9.
Proof.
  intros shards. split; [discriminate|]. split; [repeat constructor; cbn; lia|]. split; [|reflexivity]. intros [|[|r]] Hr; [vm_compute; reflexivity|vm_compute; reflexivity|lia].
Qed.
