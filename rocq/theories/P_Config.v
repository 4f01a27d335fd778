(** C65: config() can be used to check if datasets have the same settings. *)
From Coq Require Import String QArith.
From Verif Require Import Base Dataset DatasetProofs Wrap WrapSpec Rng Sharder SampleLoader Wrappers MapModel Batch GroupBatch Packing IterMap
  ShuffleBuffer Blend Concat TaskEncoder Config ConfigSpec ConfigProofs ConfigDenote GcProofs LogProofs.
Local Close Scope Q_scope.
Local Close Scope Z_scope.
Local Open Scope string_scope.
Local Open Scope list_scope.
Local Open Scope nat_scope.

(** *** config() says exactly whether two pipelines have the same settings *)
Theorem C65_config_iff wc wc' p q : reads p ->
  config wc p = config wc' q <-> same_settings p q /\ same_workers wc wc'.
Proof.
  intros HR. split.
  - intros H. split; [exact (config_same H)|exact (config_workers HR H)].
  - intros [HS HW]. exact (same_config HW HS).
Qed.

(** the same for the data loader *)
Theorem C65_loader_config_iff l l' wc wc' p q : reads p ->
  loader_config l wc p = loader_config l' wc' q <->
  same_loader l l' (wc_workers wc) /\ same_settings p q /\ same_workers wc wc'.
Proof.
  intros HR. unfold loader_config. split.
  - intros H. assert (HC : config wc p = config wc' q) by (apply dict_inj in H; items H; assumption).
    apply (C65_config_iff wc wc' q HR) in HC. destruct HC as [HS HW]. split; [|auto].
    apply dict_inj in H. items H. unbox. unfold same_loader.
    assert (lc_savable l = lc_savable l') by (destruct (lc_savable l), (lc_savable l'); congruence).
    repeat split; auto. rewrite I0 in *.
    destruct (wc_workers wc' =? 0) eqn:E; [left; lia|right; apply cnat_inj; assumption].
  - intros ((H1 & H2 & H3 & H4) & HS & HW). rewrite (same_config HW HS), H1, H2, H3.
    destruct HW as (_ & _ & HW & _). rewrite HW in *. do 4 f_equal.
    destruct (wc_workers wc' =? 0) eqn:E; [reflexivity|]. destruct H4 as [H4|H4]; [lia|rewrite H4; reflexivity].
Qed.

(** *** equal configs mean equal datasets -- if the settings that config() does not record are equal as well *)

(** for every user code, all files and random generators: two pipelines with equal configs are the same dataset, provided that
    - the functions' names and descriptions identify the functions,
    - seed_offset, the part filters, the error handlers of MapDataset and of the loader, stateless_iter_fn and fixed_batch_size agree. *)
Theorem C65_same_dataset V K (keq : K -> K -> bool) (E : env (V := V) (K := K)) wc wc' p q :
  reads p -> bare p -> bare q ->
  config wc p = config wc' q -> wc_seed wc = wc_seed wc' -> hidden p = hidden q -> honest p q ->
  denote keq E wc p = denote keq E wc' q.
Proof.
  intros HR HB HB' HC HS HH HF. apply (C65_config_iff wc wc' q HR) in HC. destruct HC as [HP (H1 & H2 & H3 & H4)].
  apply same_denote; auto.
  - unfold gen. rewrite H1, H3, HS. reflexivity.
  - unfold nworkers. rewrite H3. reflexivity.
Qed.

(** two datasets give a consumer in worker [w] the same samples *)
Definition same_samples {V} (D D' : dataset V) (w : nat) : Prop :=
  forall l, emits w (ds_init D, ds_iter D) l <-> emits w (ds_init D', ds_iter D') l.

Lemma core_samples V K (keq : K -> K -> bool) (E : env (V := V) (K := K)) wc w p :
  same_samples (denote keq E wc p) (denote keq E wc (core p)) w.
Proof.
  induction p using pipe_ind'; try (intros l; reflexivity).
  - intros l. etransitivity; [|apply IHp]. cbn [denote]. apply (gc_emits (every_n := a) (D := denote keq E wc p) w l).
  - intros l. etransitivity; [|apply IHp]. cbn [denote]. apply (log_emits (nw := nworkers wc) (D := denote keq E wc p) w l).
Qed.
Lemma core_config wc p : config wc (core p) = config wc p.
Proof. induction p using pipe_ind'; cbn [core]; auto. Qed.
Lemma core_reads p : reads p -> reads (core p).
Proof. induction p using pipe_ind'; cbn [core]; auto. Qed.

(** with GcDataset and LogSampleDataset around either of them, the two give the same samples *)
Theorem C65_same_samples V K (keq : K -> K -> bool) (E : env (V := V) (K := K)) wc wc' p q w :
  reads p -> bare (core p) -> bare (core q) ->
  config wc p = config wc' q -> wc_seed wc = wc_seed wc' -> hidden (core p) = hidden (core q) -> honest (core p) (core q) ->
  same_samples (denote keq E wc p) (denote keq E wc' q) w.
Proof.
  intros HR HB HB' HC HS HH HF l. rewrite (core_samples keq E wc w p l), (core_samples keq E wc' w q l).
  rewrite (@C65_same_dataset _ _ keq E wc wc' (core p) (core q)); auto; try reflexivity.
  - apply core_reads. exact HR.
  - rewrite !core_config. exact HC.
Qed.

Lemma map_open {B} off (f : list (cshard * list cshard) -> B) :
  (forall ws, f (map (fun s => (opened off (fst s), map (opened off) (snd s))) ws) = f ws) ->
  forall shards w, map f (open_worker off w shards) = map f shards.
Proof.
  intros Hf shards. unfold open_worker. induction shards as [|ws l IH]; intros [|w]; cbn [upd nth map]; try reflexivity.
  - rewrite Hf. reflexivity.
  - rewrite IH. reflexivity.
Qed.
Lemma open_infos off w shards : infos (open_worker off w shards) = infos shards.
Proof.
  apply map_open. intros ws. rewrite map_map. apply map_ext. intros [s ss]. cbn [fst snd]. rewrite map_map. f_equal.
Qed.
Lemma open_paths off w shards : paths (open_worker off w shards) = paths shards.
Proof.
  apply map_open. intros ws. rewrite map_map. apply map_ext. intros [s ss]. cbn [fst snd map]. rewrite map_map. f_equal.
Qed.

(** *** the converse: reading the data changes the config of the loader, but not the dataset *)
Theorem C65_reading_changes_config V K (keq : K -> K -> bool) (E : env (V := V) (K := K)) wc off w shards exclude loop shuffle par pf h s :
  In s (nth w shards []) -> cs_boff (fst s) = None ->
  let used := PLoad (open_worker off w shards) exclude loop shuffle par pf h in
  let fresh := PLoad shards exclude loop shuffle par pf h in
  config wc used <> config wc fresh /\ denote keq E wc used = denote keq E wc fresh.
Proof.
  intros HI HN used fresh. split.
  - intros HC. apply config_same in HC. unfold used, fresh in HC. assert (H0 : open_worker off w shards = shards) by (inversion HC; congruence). clear - HI HN H0.
    assert (Hw : w < length shards).
    { destruct (Nat.lt_ge_cases w (length shards)) as [L|L]; [exact L|]. rewrite nth_overflow in HI by lia. destruct HI. }
    apply (f_equal (fun l => nth w l [])) in H0. unfold open_worker in H0. rewrite nth_upd_same in H0 by exact Hw.
    induction (nth w shards []) as [|x l IH]; [destruct HI|]. cbn [map] in H0. injection H0 as H1 H2.
    destruct HI as [-> | HI]; [|exact (IH HI H2)]. destruct s as [s ss]. cbn [fst snd] in *. injection H1 as H1 _.
    rewrite <- H1 in HN. discriminate HN.
  - unfold used, fresh. cbn [denote].
    rewrite open_infos, open_paths. reflexivity.
Qed.

(** *** refuted: what config() does not tell *)

Lemma differ V (D D' : dataset V) w fuel k :
  length (runk (D := D) w fuel k (ds_init D, ds_iter D)) = length (runk (D := D') w fuel k (ds_init D', ds_iter D')) ->
  runk (D := D) w fuel k (ds_init D, ds_iter D) <> runk (D := D') w fuel k (ds_init D', ds_iter D') -> ~ same_samples D D' w.
Proof.
  intros HL HN HS. apply HN. eapply emits_det; [apply (proj1 (HS _)); apply runk_emits|apply runk_emits|exact HL].
Qed.

(** an example: one shard of four samples 0, 1, 2, 3 and some functions (numbered) *)
Definition ex_shards : list (list (cshard * list cshard)) :=
  [[(mkCshard (mkShard 0 0 2) "a/shard_0.tar" None None, []); (mkCshard (mkShard 0 2 2) "a/shard_0.tar" None None, [])]].
Definition ex_rng (seed : nat) : rng_ops :=
  {| rng_t := nat; rng_seed := fun w => w * 7 + 1 + seed; rng_below := fun n x => (x mod n, lcg_next x);
     rng_mult := fun ps x => (lcg_mult ps x, lcg_next x); rng_perm := fun n x => (rot_perm n x, lcg_next x) |}.
Definition ex_content (exclude : list string) (pf h : nat) (ps : list (list (list string))) (s : shseq) : list (sample nat) :=
  map (fun k => mkS (k + 100 * pf) [AInt k]) (seq (Z.to_nat (sh_offset (fst s))) (Z.to_nat (sh_count (fst s)))).
Definition ex_env : env (V := nat) (K := nat) :=
  {| e_map := fun c h => Fn (fun w i v => if (c =? 0) && (v =? 1) then (if h =? 0 then UErr else UFatal) else UOk (v + 10 * c));
     e_iter := fun c h => per_sample (fun i v => ([v + 10 * c], GEnd));
     e_filter := fun c w i v => Ok (c <=? v);
     e_batch := fun c h => Fn (fun w i l => UOk (list_sum l));
     e_key := fun c h w i v => UOk (v mod 2, None);
     e_group := fun c h w i l => UOk (list_sum l);
     e_pre := fun c h w i l => UOk [l];
     e_final := fun c h => Fn (fun w i l => UOk (list_sum l));
     e_content := ex_content;
     e_restore := fun _ _ _ _ _ key => match key with [AInt k] => Ok (mkS k key) | _ => Err ValueError end;
     e_rng := fun rank nw seed => ex_rng seed |}.
Definition ex_load : pipe := PLoad ex_shards [] false NoShuffle 1 0 0.
Definition ex_wc (seed : nat) : wconf := mkWconf 0 1 0 None seed.
Definition fn (name : string) (code : nat) : callable := mkCallable (Some "user") (Some name) code.
Definition ex_den := denote Nat.eqb ex_env.

(** the theorem's hypotheses hold of different pipelines *)
Example C65_example :
  let p := PBatch 2 (fn "join" 3) NoConfig true false (fn "ignore" 0)
             (PBlend [(PMap (fn "enc" 1) (ConfigValue (CDict [])) true (fn "ignore" 0) ex_load, 1%Q);
                      (PShuffle 2 (PFilter (fn "keep" 1) (ConfigFn (CInt 5)) ex_load), (1 # 2)%Q)]) in
  let q := PBatch 2 (fn "join" 3) NoConfig true false (fn "ignore" 0)
             (PBlend [(PMap (fn "enc" 1) NoConfig true (fn "ignore" 0) ex_load, 1%Q);
                      (PShuffle 2 (PFilter (fn "keep" 1) (ConfigValue (CInt 5)) ex_load), (1 # 2)%Q)]) in
  let wc := mkWconf 0 1 0 (Some (3, 1)) 7 in let wc' := mkWconf 0 1 0 (Some (4, 1)) 7 in
  p <> q /\ wc <> wc' /\ reads p /\ bare p /\ bare q /\ config wc p = config wc' q /\ hidden p = hidden q /\ honest p q.
Proof.
  cbv zeta. repeat split; try discriminate; cbn; auto.
  intros n c k k' H1 H2. cbn in H1, H2.
  repeat match goal with H : _ \/ _ |- _ => destruct H as [H|H] | H : False |- _ => destruct H
         | H : (_, _, _) = _ |- _ => injection H as <- <- <- end; try congruence.
Qed.

(** GroupBatchDataset: fixed_batch_size is not recorded (group_batch_dataset.py:305-326) *)
Theorem C65_group_size_refuted :
  let p n := PGroup (Some n) (fn "key" 0) (fn "join" 0) NoConfig false false (fn "ignore" 0) ex_load in
  config (ex_wc 0) (p 1) = config (ex_wc 0) (p 2) /\ honest (p 1) (p 2) /\ ~ same_samples (ex_den (ex_wc 0) (p 1)) (ex_den (ex_wc 0) (p 2)) 0.
Proof.
  cbv zeta. repeat split.
  - intros n c k k' H1 H2. cbn in H1, H2.
    repeat match goal with H : _ \/ _ |- _ => destruct H as [H|H] | H : False |- _ => destruct H
           | H : (_, _, _) = _ |- _ => injection H as <- <- <- end; try congruence.
  - apply (@differ _ _ _ 0 20 2); vm_compute; [reflexivity|discriminate].
Qed.

(** seed_offset is not recorded (worker.py:225-233): another order of the samples under the same config *)
Theorem C65_seed_refuted :
  let p := PShuffle 3 ex_load in
  config (ex_wc 0) p = config (ex_wc 1) p /\ ~ same_samples (ex_den (ex_wc 0) p) (ex_den (ex_wc 1) p) 0.
Proof. cbv zeta. split; [reflexivity|]. apply (@differ _ _ _ 0 20 2); vm_compute; [reflexivity|discriminate]. Qed.

(** part_filter is not recorded (sample_loader.py:756-781) *)
Theorem C65_part_filter_refuted :
  let p pf := PLoad ex_shards [] false NoShuffle 1 pf 0 in
  config (ex_wc 0) (p 0) = config (ex_wc 0) (p 1) /\ ~ same_samples (ex_den (ex_wc 0) (p 0)) (ex_den (ex_wc 0) (p 1)) 0.
Proof. cbv zeta. split; [reflexivity|]. apply (@differ _ _ _ 0 20 2); vm_compute; [reflexivity|discriminate]. Qed.

(** MapDataset: the error handler is not recorded (map_dataset.py:266-281): one pipeline skips a bad sample, the other fails *)
Theorem C65_map_handler_refuted :
  let p h := PMap (fn "enc" 0) NoConfig true (fn (if h =? 0 then "ignore" else "reraise") h) ex_load in
  config (ex_wc 0) (p 0) = config (ex_wc 0) (p 1) /\ honest (p 0) (p 1) /\
  ~ same_samples (ex_den (ex_wc 0) (p 0)) (ex_den (ex_wc 0) (p 1)) 0.
Proof.
  cbv zeta. repeat split.
  - intros n c k k' H1 H2. cbn in H1, H2.
    repeat match goal with H : _ \/ _ |- _ => destruct H as [H|H] | H : False |- _ => destruct H
           | H : (_, _, _) = _ |- _ => injection H as <- <- <- end; try congruence.
  - apply (@differ _ _ _ 0 20 2); vm_compute; [reflexivity|discriminate].
Qed.

(** functools.partial objects and instances with __call__ have no name: all of a module look alike (base_dataset.py:330-337) *)
Theorem C65_unnamed_functions_refuted :
  let f c := mkCallable (Some "functools") None c in
  let p c := PMap (f c) NoConfig true (fn "ignore" 0) ex_load in
  config (ex_wc 0) (p 1) = config (ex_wc 0) (p 2) /\ hidden (p 1) = hidden (p 2) /\
  ~ same_samples (ex_den (ex_wc 0) (p 1)) (ex_den (ex_wc 0) (p 2)) 0.
Proof. cbv zeta. repeat split. apply (@differ _ _ _ 0 20 2); vm_compute; [reflexivity|discriminate]. Qed.

(** nor does the name tell where the module ends: function g.f in module "m" and function f in module "m.g" *)
Theorem C65_function_names_refuted :
  exists f g, c_mod f <> c_mod g /\ c_qual f <> c_qual g /\ fname f = fname g.
Proof.
  exists (mkCallable (Some "m") (Some "g.f") 0), (mkCallable (Some "m.g") (Some "f") 1). repeat split; discriminate.
Qed.

(** IterMapDataset: stateless_iter_fn is not recorded (iter_map_dataset.py:212-230): a sample can be restored by its key in one
    dataset, but not in the other *)
Theorem C65_iter_stateless_refuted :
  let p st := PIterMap (fn "it" 0) NoConfig (fn "len" 0) st (fn "ignore" 0) ex_load in
  let key := [iter_name; AInt 0; AInt 0; ATup [AInt 2]] in
  config (ex_wc 0) (p true) = config (ex_wc 0) (p false) /\
  ds_restore_sample (ex_den (ex_wc 0) (p true)) 0 key <> ds_restore_sample (ex_den (ex_wc 0) (p false)) 0 key.
Proof. cbv zeta. split; [reflexivity|]. vm_compute. discriminate. Qed.

(** exclude is a set; list() of equal sets can come in different orders, and then the configs differ *)
Theorem C65_exclude_order_refuted :
  let p ex := PLoad ex_shards ex false NoShuffle 1 0 0 in
  Permutation ["a"; "b"] ["b"; "a"] /\ config (ex_wc 0) (p ["a"; "b"]) <> config (ex_wc 0) (p ["b"; "a"]).
Proof. cbv zeta. split; [constructor|]. intros H. apply config_same in H. inversion H. Qed.
