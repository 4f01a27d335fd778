(** C75: samples made with random numbers are brought back the same. *)
From Coq Require Import String.
From Verif Require Import Base Dataset Wrap Wrappers MapModel Batch Rng RandomFns RandomRestore Config SaveCheck P_Random P_SaveCheck.

Section Back.
  Context {V G : Type} (seed_args : nat -> nat -> G) (rs : rkey -> result (sample V)).

  (** What a user may mark stateless: either made reproducible with restore_seeds=True, or a function whose result does not depend
      on the generators and which does not use them *)
  Definition proper (m : marked V G) : Prop :=
    match m with
    | Seeded _ => True
    | Plain f => forall g g' w i x, fst (f g w i x) = fst (f g' w i x) /\ snd (f g w i x) = g
    end.

  (** sample [y] comes out of the functions [ms] in worker [w], for some sample [a] that the dataset below can bring back, at some
      moment (any sample indices, any state of the generators) *)
  Definition made (ms : list (marked V G)) (w : nat) (y : sample V) : Prop :=
    exists a idx g idx' g', rs (rk a) = Ok a /\ length idx = length ms /\ run_stages (chain seed_args ms) w idx g a = (Yield y, idx', g').

  Lemma call_proper m g g' w i x : proper m -> fst (call seed_args m g w i x) = fst (call seed_args m g' w i x) /\
    snd (call seed_args m g w i x) = g.
  Proof. destruct m as [f|f]; cbn [proper call]; intros H; [apply H|split; reflexivity]. Qed.

  Lemma chain_back ms : Forall proper ms -> forall w idx g g' a y idx' g2 pre key,
    length idx = length ms ->
    (forall g1, restore_chain seed_args rs pre w g1 key = (Ok a, g1)) -> rk a = key ->
    run_stages (chain seed_args ms) w idx g a = (Yield y, idx', g2) ->
    restore_chain seed_args rs (rev ms ++ pre) w g' (rk y) = (Ok y, g').
  Proof.
    induction 1 as [|m ms Hm _ IH]; intros w idx g g' a y idx' g2 pre key HL HR HK E.
    - cbn in E. injection E as <- _ _. cbn [rev app]. rewrite HK. apply HR.
    - destruct idx as [|i idx]; [discriminate|]. cbn [chain map run_stages] in E.
      destruct (call seed_args m g w i (pl a)) as [r g1] eqn:EC. destruct r as [b| | |]; try discriminate.
      destruct (run_stages (map (fun m => RMap (call seed_args m)) ms) w idx g1 (mkS b (map_key i (rk a)))) as [[e idx2] g3] eqn:ER.
      injection E as -> _ _. cbn [rev]. rewrite <- app_assoc. cbn [app].
      refine (IH w idx g1 g' (mkS b (map_key i (rk a))) y idx2 g3 (m :: pre) (map_key i (rk a)) _ _ eq_refl ER); [cbn in HL; lia|].
      intros g4. cbn [restore_chain map_key map_name]. rewrite String.eqb_refl, HK, HR.
      destruct (@call_proper m g g4 w i (pl a) Hm) as [H1 _]. destruct (@call_proper m g4 g4 w i (pl a) Hm) as [_ H2].
      rewrite EC in H1. destruct (call seed_args m g4 w i (pl a)) as [r5 g5]. cbn in H1, H2. subst. reflexivity.
  Qed.

  (** If every function is properly marked, a sample's key brings back the very same sample in any state of the generators, and the
      generators are left as they were *)
  Theorem C75_brought_back ms w y g : Forall proper ms -> made ms w y -> random_restore seed_args rs ms w g (rk y) = (Ok y, g).
  Proof.
    intros HP (a & idx & g1 & idx' & g2 & HR & HL & E). unfold random_restore.
    rewrite <- (app_nil_r (rev ms)). refine (@chain_back ms HP w idx g1 g a y idx' g2 [] (rk a) HL _ eq_refl E).
    intros g3. cbn [restore_chain]. rewrite HR. reflexivity.
  Qed.

  (** so the buffer of a packing or grouping dataset is the same again after a restore, and the functions above continue with the
      random numbers of the interrupted run *)
  Theorem C75_buffer_refilled ms w ys g : Forall proper ms -> Forall (made ms w) ys ->
    refill seed_args rs ms w g (map rk ys) = (Ok ys, g).
  Proof.
    intros HP. induction 1 as [|y ys HM _ IH]; [reflexivity|]. cbn [map refill]. rewrite (C75_brought_back _ HP HM), IH. reflexivity.
  Qed.

  (** Conversely, one marked function: its samples are brought back in every state of the generators exactly if its result does not
      depend on them *)
  Theorem C75_exactly_if_independent m w : (forall x, exists k, rs k = Ok (mkS x k)) ->
    (forall y g, made [m] w y -> fst (random_restore seed_args rs [m] w g (rk y)) = Ok y) <->
    (forall g g' i x b, fst (call seed_args m g w i x) = UOk b -> fst (call seed_args m g' w i x) = UOk b).
  Proof.
    intros HR. split.
    - intros H g g' i x b E. destruct (call seed_args m g w i x) as [r g1] eqn:EC. cbn in E. subst r. destruct (HR x) as [k Hk].
      assert (M : made [m] w (mkS b (map_key i k))).
      { exists (mkS x k), [i], g, [S i], g1. split; [exact Hk|]. split; [reflexivity|]. cbn. rewrite EC. reflexivity. }
      specialize (H _ g' M). unfold random_restore in H. cbn [rev app restore_chain rk map_key map_name] in H.
      rewrite String.eqb_refl, Hk in H. cbn [pl rk] in H.
      destruct (call seed_args m g' w i x) as [[b'| | |] g2]; cbn in H |- *; try discriminate. injection H as ->. reflexivity.
    - intros H y g (a & idx & g1 & idx' & g2 & Ra & HL & E). destruct idx as [|i [|j idx]]; try discriminate. cbn in E.
      destruct (call seed_args m g1 w i (pl a)) as [[b| | |] g3] eqn:EC; try discriminate. injection E as <- _ _.
      unfold random_restore. cbn [rev app restore_chain rk map_key map_name]. rewrite String.eqb_refl, Ra.
      specialize (H g1 g i (pl a) b). rewrite EC in H. specialize (H eq_refl).
      destruct (call seed_args m g w i (pl a)) as [r g4]. cbn in H. subst r. reflexivity.
  Qed.
End Back.
Print Assumptions C75_brought_back.
Print Assumptions C75_buffer_refilled.
Print Assumptions C75_exactly_if_independent.

(** The source of the examples: every number is a sample, its key is the number *)
Definition numbered (key : rkey) : result (sample nat) := match key with [AInt x] => Ok (mkS x key) | _ => Err ValueError end.
Definition noisy : nat -> nat -> nat -> nat -> ures nat * nat := fun g w i x => (UOk (x + g), lcg_next g).

(** encode_sample marked with restore_seeds=True, which draws; below it, a cooker that does not draw *)
Example C75_nonvacuous :
  let ms := [Plain (fun g w i x => (UOk (2 * x), g)); Seeded (fun g x => noisy g 0 0 x)] in
  let sa := fun w i => 1000 * w + i in
  Forall proper ms /\ (forall x, exists k, numbered k = Ok (mkS x k)) /\
  run_stages (chain sa ms) 1 [4; 7] 5 (mkS 3 [AInt 3]) = (Yield (mkS 1013 (map_key 7 (map_key 4 [AInt 3]))), [5; 8], 5) /\
  random_restore sa numbered ms 1 99 (map_key 7 (map_key 4 [AInt 3])) = (Ok (mkS 1013 (map_key 7 (map_key 4 [AInt 3]))), 99).
Proof.
  cbv zeta. split; [apply Forall_cons; [cbn; auto|apply Forall_cons; [exact I|apply Forall_nil]]|].
  split; [intros x; exists [AInt x]; reflexivity|]. split; vm_compute; reflexivity.
Qed.

(** A cooker that draws random numbers: the task encoder marks the map of the cookers as stateless, so the pipeline says that it can
    bring back samples, and saving a packing buffer above it is accepted; but the buffered samples are not the same after the
    restore, and the functions above continue with other random numbers *)
Definition cook_map (d : pipe) : pipe := PMap afn NoConfig true afn d.
Theorem C75_random_cooker_refuted : let cook := Plain noisy in let sa := fun _ _ : nat => 0 in
  (forall d n, can_restore d = true -> can_restore (cook_map d) = true /\ save_check true (PPack n afn afn NoConfig true afn (cook_map d)) = save_check true d) /\
  exists g1 y1 g2 y2 g3,
    run_stages (chain sa [cook]) 0 [0] g1 (mkS 10 [AInt 10]) = (Yield y1, [1], g2) /\
    run_stages (chain sa [cook]) 0 [1] g2 (mkS 20 [AInt 20]) = (Yield y2, [2], g3) /\
    exists z1 z2 g4, refill sa numbered [cook] 0 g3 [rk y1; rk y2] = (Ok [z1; z2], g4) /\
      rk z1 = rk y1 /\ pl z1 <> pl y1 /\ pl z2 <> pl y2 /\ g4 <> g3.
Proof.
  cbv zeta. split.
  - intros d n H. unfold cook_map. cbn [can_restore andb save_check assert_can_restore]. split; [exact H|].
    pose proof (C68_assert_agrees d) as [X _]. rewrite (proj2 X H). destruct (save_check true d) as [[]|]; reflexivity.
  - exists 1. eexists _, _, _, _. split; [vm_compute; reflexivity|]. split; [vm_compute; reflexivity|].
    eexists _, _, _. split; [vm_compute; reflexivity|]. repeat split; vm_compute; discriminate.
Qed.
Print Assumptions C75_random_cooker_refuted.
