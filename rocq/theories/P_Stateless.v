(** Property C47: functions decorated with stateless(restore_seeds=True). *)
From Coq Require Import String Ascii.
From Verif Require Import Base WorkerConfig WorkerConfigProofs WorkerSpec Stateless StatelessSpec Sha1.
Local Open Scope list_scope.
Local Open Scope Z_scope.

(** the random generators the function sees *)
Definition seeded (L : libs) sha1 (ws idx : Z) : sysrng L :=
  let k := seed_from_args sha1 ws idx in mkRng (seed_torch L k) (seed_numpy L k) (seed_random L k).

(** different (worker seed, sample index) pairs are hashed from different texts *)
Definition no_bar (s : string) : Prop := Forall (fun c => c <> "|"%char) (list_ascii_of_string s).

Lemma no_bar_uint d : no_bar (DecimalString.NilEmpty.string_of_uint d).
Proof. unfold no_bar. induction d; cbn; constructor; auto; discriminate. Qed.
Lemma no_bar_Z z : no_bar (str_of_Z z).
Proof. unfold str_of_Z, DecimalString.NilEmpty.string_of_int. destruct (Z.to_int z); [apply no_bar_uint|]. constructor; [discriminate|apply no_bar_uint]. Qed.

Lemma split_bar a : forall b c d, no_bar a -> no_bar b -> (a ++ "|" ++ c)%string = (b ++ "|" ++ d)%string -> a = b /\ c = d.
Proof.
  induction a as [|x a IH]; intros [|y b] c d Ha Hb E; cbn in E.
  - injection E as ->. auto.
  - injection E as <- _. inversion Hb; congruence.
  - injection E as -> _. inversion Ha; congruence.
  - injection E as -> E. inversion Ha; inversion Hb; subst. destruct (IH b c d) as [-> ->]; auto.
Qed.

Theorem C47_seed_text_injective a b a' b' : args_text a b = args_text a' b' -> a = a' /\ b = b'.
Proof.
  intros E. apply split_bar in E; try apply no_bar_Z. destruct E as [E1 E2]. split; apply str_of_Z_inj; auto.
Qed.
Print Assumptions C47_seed_text_injective.

Section Plain.
  Variables (L : libs) (h : string -> Z) (X Y : Type) (fn : X -> sysrng L -> result Y * sysrng L).

  Lemma wrapper_is c e x p ws idx : (p_seed p = None \/ p_seed p = Some ws) -> active e = true ->
    worker_seed h c e None = Ok ws -> active_sample_index c e = Ok idx ->
    seed_wrapper h fn c e x p = (fst (fn x (seeded L h ws idx)), mkProc (p_rng p) (Some ws)).
  Proof.
    intros Hp Ha Hw Hi. unfold seed_wrapper, get_worker_seed, current_sample_index. rewrite Ha, Hi.
    destruct p as [r s]. cbn [p_seed p_rng] in *.
    destruct Hp as [-> | ->]; [rewrite Hw|]; cbn [restore_state p_rng p_seed save_state];
      change (rng_seed L (seed_from_args h ws idx)) with (seeded L h ws idx); destruct (fn x (seeded L h ws idx)) as [y g]; reflexivity.
  Qed.

  (** In a process that works for one worker, every call returns what the function returns when it starts from
      the generators seeded with (worker seed, sample index): neither earlier calls nor the state of the
      generators matter. And the generators are left as they were, also if the function raises. *)
  Theorem C47_calls_depend_on_index_only ws us :
    Forall (fun u => active (u_env u) = true /\ worker_seed h (u_cfg u) (u_env u) None = Ok ws /\
                     exists i, active_sample_index (u_cfg u) (u_env u) = Ok i) us ->
    calls h fn us None =
      map (fun u => (match active_sample_index (u_cfg u) (u_env u) with
                     | Ok i => fst (fn (u_arg u) (seeded L h ws i))
                     | Err x => Err x
                     end, u_rng u)) us.
  Proof.
    intros H. cut (forall s, s = None \/ s = Some ws ->
      calls h fn us s = map (fun u => (match active_sample_index (u_cfg u) (u_env u) with
                                       | Ok i => fst (fn (u_arg u) (seeded L h ws i)) | Err x => Err x end, u_rng u)) us); [auto|].
    induction H as [|u us (Ha & Hw & i & Hi) H IH]; intros s Hs; [reflexivity|]. cbn [calls map].
    rewrite (@wrapper_is (u_cfg u) (u_env u) (u_arg u) (mkProc (u_rng u) s) ws i); auto. cbn [p_rng p_seed].
    rewrite Hi. f_equal. apply IH. auto.
  Qed.

  (** the generators are left as they were by every call, whatever the state of the process *)
  Theorem C47_generators_untouched c e x p : p_rng (snd (seed_wrapper h fn c e x p)) = p_rng p.
  Proof.
    unfold seed_wrapper. destruct (get_worker_seed h c e p) as [[ws|err] p1] eqn:E.
    - assert (E1 : p_rng p1 = p_rng p).
      { unfold get_worker_seed in E. destruct (p_seed p); [injection E as _ <-; reflexivity|].
        destruct (active e); [|discriminate]. destruct (worker_seed h c e None); [|discriminate]. injection E as _ <-. reflexivity. }
      destruct (current_sample_index c e) as [i|err]; [|exact E1].
      destruct (fn x _) as [y g]. cbn [snd restore_state p_rng]. exact E1.
    - unfold get_worker_seed in E. destruct (p_seed p); [discriminate|].
      destruct (active e); [destruct (worker_seed h c e None); [discriminate|]|]; injection E as _ <-; reflexivity.
  Qed.
End Plain.
Print Assumptions C47_calls_depend_on_index_only.
Print Assumptions C47_generators_untouched.

Section Gen.
  Variables (L : libs) (h : string -> Z) (X Y : Type) (fn : genfn L X Y).

  Lemma body_rng it inner outer p : p_rng (snd (w_body (fn := fn) it inner outer p)) = outer.
  Proof.
    unfold w_body. destruct (g_next fn it _) as [[o it'] g]. destruct o; reflexivity.
  Qed.

  Lemma ended cs : nexts h cs (@WEnd L X Y fn) = map (fun c => (GStop Y, fst (fst (fst c)))) cs.
  Proof. induction cs as [|[[[r s] c] e] cs IH]; [reflexivity|]. cbn. f_equal. exact IH. Qed.

  Lemma ended' cs : map fst (nexts h cs (@WEnd L X Y fn)) = repeat (GStop Y) (length cs) /\
    map snd (nexts h cs (@WEnd L X Y fn)) = map (fun c => fst (fst (fst c))) cs.
  Proof. rewrite ended, !map_map. cbn [fst snd]. split; [|reflexivity]. induction cs; cbn; f_equal; auto. Qed.

  Lemma nexts_at cs : forall it inner,
    map fst (nexts h cs (@WAt L X Y fn it inner)) = undisturbed (length cs) it inner /\
    map snd (nexts h cs (@WAt L X Y fn it inner)) = map (fun c => fst (fst (fst c))) cs.
  Proof.
    induction cs as [|[[[r s] c] e] cs IH]; intros it inner; [split; reflexivity|].
    cbn [nexts w_next length undisturbed map fst]. unfold w_body at 1 2. cbn [restore_state p_rng p_seed save_state].
    destruct (g_next fn it inner) as [[o it'] g]. cbn [restore_state p_rng p_seed save_state].
    destruct o; cbn [map fst snd].
    - destruct (IH it' g) as [-> ->]. split; reflexivity.
    - destruct (ended' cs) as [-> ->]. split; reflexivity.
    - destruct (ended' cs) as [-> ->]. split; reflexivity.
  Qed.

  (** A generator function: whatever the callers do to the random generators between the samples, it yields
      what it yields when it runs undisturbed from the generators seeded with (worker seed, sample index), and
      each next() leaves the generators as it found them. *)
  Theorem C47_generator_undisturbed ws idx x r s c e cs :
    (s = None \/ s = Some ws) -> active e = true -> worker_seed h c e None = Ok ws -> active_sample_index c e = Ok idx ->
    let calls := (r, s, c, e) :: cs in
    map fst (nexts h calls (@WInit L X Y fn x)) = undisturbed (length calls) (g_start fn x) (seeded L h ws idx) /\
    map snd (nexts h calls (@WInit L X Y fn x)) = map (fun c => fst (fst (fst c))) calls.
  Proof.
    intros Hs Ha Hw Hi calls. unfold calls. cbn [nexts w_next length undisturbed map fst].
    assert (EG : get_worker_seed h c e (mkProc r s) = (Ok ws, mkProc r (Some ws))).
    { unfold get_worker_seed. cbn [p_seed p_rng]. destruct Hs as [-> | ->]; [rewrite Ha, Hw|]; reflexivity. }
    rewrite EG. unfold current_sample_index. rewrite Ha, Hi. unfold w_body at 1 2. cbn [restore_state p_rng p_seed save_state].
    change (rng_seed L (seed_from_args h ws idx)) with (seeded L h ws idx).
    destruct (g_next fn (g_start fn x) (seeded L h ws idx)) as [[o it'] g]. cbn [restore_state p_rng p_seed save_state].
    destruct o; cbn [map fst snd].
    - destruct (nexts_at cs it' g) as [-> ->]. split; reflexivity.
    - destruct (ended' cs) as [-> ->]. split; reflexivity.
    - destruct (ended' cs) as [-> ->]. split; reflexivity.
  Qed.
End Gen.
Print Assumptions C47_generator_undisturbed.

(** Restoring a sample in the main process: the seed and the sample index are those of the worker that made
    the sample (worker [id] of a rank, no worker id offset) ... *)
Theorem C47_restore_sees_the_worker h c id stack : 0 < num_workers c -> 0 <= rank c -> 0 <= id < num_workers c ->
  let g := rank c * num_workers c + id in
  worker_seed h c (restoring_env 0 g stack) None = worker_seed h c (iterating_env c 0 id stack) None /\
  active_sample_index c (restoring_env 0 g stack) = active_sample_index c (iterating_env c 0 id stack).
Proof.
  intros Hn Hr Hi g.
  assert (EI : rank_worker_id c (iterating_env c 0 id stack) = Ok id).
  { unfold rank_worker_id, iterating_env. cbn [override winfo id_offset]. rewrite Z.eqb_refl. cbn [negb].
    destruct (num_workers c =? 0) eqn:E0; [lia|]. f_equal. rewrite Z.sub_0_r.
    rewrite <- (Z.mul_1_l (num_workers c)) at 1. rewrite Z.mod_add by lia. apply Z.mod_small. lia. }
  assert (ER : rank_worker_id c (restoring_env 0 g stack) = Ok id).
  { unfold rank_worker_id, restoring_env. cbn [override winfo id_offset].
    destruct (num_workers c =? 0) eqn:E0; [lia|]. cbn [Z.eqb negb].
    assert (Eg : g mod num_workers c = id).
    { unfold g. rewrite Z.add_comm, Z.mod_add by lia. apply Z.mod_small. lia. }
    destruct g eqn:Eg0; [|rewrite Eg; reflexivity|rewrite Eg; reflexivity].
    f_equal. rewrite Z.mod_0_l in Eg by lia. exact Eg. }
  split.
  - unfold worker_seed. destruct (num_workers c =? 0) eqn:E0; [reflexivity|]. unfold global_worker_id.
    cbn [restoring_env iterating_env override]. fold (iterating_env c 0 id stack). unfold assert_worker. cbn [winfo iterating_env].
    fold (iterating_env c 0 id stack). rewrite EI. rewrite Z.eqb_refl. cbn [bind].
    destruct (num_workers c <=? 1) eqn:E1; [|reflexivity]. assert (id = 0) as -> by lia. reflexivity.
  - unfold active_sample_index. rewrite ER, EI. reflexivity.
Qed.
Print Assumptions C47_restore_sees_the_worker.

(** ... so a process in which the function has not been called yet restores the sample exactly *)
Theorem C47_restores_partial L h (X Y : Type) (fn : X -> sysrng L -> result Y * sysrng L) c id stack x r1 r2 :
  0 < num_workers c -> 0 <= rank c -> 0 <= id < num_workers c -> stack <> [] ->
  let g := rank c * num_workers c + id in
  fst (seed_wrapper h fn c (restoring_env 0 g stack) x (mkProc r1 None)) =
  fst (seed_wrapper h fn c (iterating_env c 0 id stack) x (mkProc r2 None)).
Proof.
  intros Hn Hr Hi Hs g. destruct (@C47_restore_sees_the_worker h c id stack Hn Hr Hi) as [E1 E2]. fold g in E1, E2.
  unfold seed_wrapper, get_worker_seed, current_sample_index. cbn [p_seed active restoring_env iterating_env].
  fold (restoring_env 0 g stack). fold (iterating_env c 0 id stack). rewrite E1, E2.
  destruct (worker_seed h c (iterating_env c 0 id stack) None); [|reflexivity].
  destruct (active_sample_index c (iterating_env c 0 id stack)); [|reflexivity]. cbn [p_rng restore_state].
  destruct (fn x _). reflexivity.
Qed.
Print Assumptions C47_restores_partial.

(** Refuted: the decorator keeps the worker seed of its first call. Restoring a sample of worker 1 after one
    of worker 0 gives other random numbers than worker 1 used. (With the real SHA-1; the generators' states
    are the seeds; the function returns a random number.) *)
Definition toy_libs : libs := mkLibs (fun n => n) (fun n => n) (fun n => n).
Definition rand (x : unit) (s : sysrng toy_libs) : result Z * sysrng toy_libs := (Ok (g_torch s), s).

Theorem C47_restore_history_refuted :
  let c := mkCfg 0 1 2 0 in
  let r : sysrng toy_libs := mkRng (L := toy_libs) 1 2 3 in
  let made := fst (seed_wrapper sha1 rand c (iterating_env c 0 1 [5; 7]) tt (mkProc r None)) in
  let restored := fst (seed_wrapper sha1 rand c (restoring_env 0 1 [5; 7]) tt
                         (snd (seed_wrapper sha1 rand c (restoring_env 0 0 [5; 7]) tt (mkProc r None)))) in
  made <> restored /\ made = fst (seed_wrapper sha1 rand c (restoring_env 0 1 [5; 7]) tt (mkProc r None)).
Proof. vm_compute. split; [discriminate|reflexivity]. Qed.
Print Assumptions C47_restore_history_refuted.

(** The same with two loaders of different configurations (here: seed offsets) in one process: what the second
    one sees depends on whether the first one has been used. *)
Theorem C47_two_loaders_refuted :
  let c1 := mkCfg 0 1 0 0 in let c2 := mkCfg 0 1 0 1 in
  let e := mkEnv None 0 true [3] None in
  let r : sysrng toy_libs := mkRng (L := toy_libs) 1 2 3 in
  calls sha1 rand [mkUse r c1 e tt; mkUse r c2 e tt] None <> calls sha1 rand [mkUse r c1 e tt] None ++ calls sha1 rand [mkUse r c2 e tt] None.
Proof. vm_compute. discriminate. Qed.
Print Assumptions C47_two_loaders_refuted.

(** a generator that draws two numbers, with a caller that disturbs the generators in between *)
Definition two_draws : genfn toy_libs unit Z :=
  mkGen (L := toy_libs) (X := unit) (Y := Z) (fun _ => 0%nat)
    (fun k (s : sysrng toy_libs) => ((if (k <? 2)%nat then GYield (g_torch s : Z) else GStop Z), S k, mkRng (L := toy_libs) (g_torch s + 1) (g_numpy s) (g_random s))).

Example C47_nonvacuous :
  let c := mkCfg 1 2 2 0 in
  let e := iterating_env c 0 1 [5; 7] in
  let r n : sysrng toy_libs := mkRng (L := toy_libs) n n n in
  active e = true /\ worker_seed sha1 c e None = Ok 3477560568 /\ active_sample_index c e = Ok 15 /\
  nexts sha1 [(r 1, None, c, e); (r 2, None, c, e); (r 3, None, c, e)] (@WInit toy_libs unit Z two_draws tt) =
    [(GYield (seed_from_args sha1 3477560568 15), r 1); (GYield (seed_from_args sha1 3477560568 15 + 1), r 2); (GStop Z, r 3)].
Proof. vm_compute. repeat split. Qed.
