(** Properties of the data loader: C37-C40.

    Vocabulary: [delivers w gid min_n n_cp s ys] the worker with rank_worker_id [w], in state [s], can hand
    out the indexed samples [ys]; [wreach] worker states that occur; [get_checkpoint s k] the worker's
    answer when the last sample received from it had index [k]; [returns .. y outs] the loader in
    state [y] can return the samples [outs] to the user; [sreach] loader states that occur
    (LoaderSpec.v, LoaderSys.v). [gid rank n w]: the global worker id. *)
From Coq Require Import String.
From Verif Require Import Base Dataset DatasetProofs WrapProofs WrapRun WrapSpec SourceProofs
  Loader LoaderSpec LoaderProofs LoaderSys LoaderSysProofs LoaderGlobal Distributed.
Local Open Scope nat_scope.

(** ** C37 a worker restored from the checkpoint for sample k continues with sample k+1 *)
Theorem C37_worker_resumes {P} (D : dataset P) w gid nw min_n n_cp b (s : wstate D) k c off cks ys :
  w < nw -> resumable D false nw ->
  wreach w gid nw min_n n_cp b s -> b <= k < k_index s -> get_checkpoint s k = Ok (c, off) ->
  length cks = nw -> nth_error cks w = Some (c, off) ->
  (delivers w gid min_n n_cp (w_restored w cks) ys <->
   exists pre, length pre = S k /\ delivers w gid min_n n_cp (w_fresh D) (pre ++ ys)).
Proof. intros Hw HR R HK HG HL HN. exact (resume_checkpoint Hw HR R HK HG HL HN ys). Qed.
Print Assumptions C37_worker_resumes.

(** the samples of a worker are numbered consecutively and carry the number in their key *)
Theorem C37_worker_numbers {P} (D : dataset P) w gid min_n n_cp ys :
  delivers w gid min_n n_cp (w_fresh D) ys ->
  forall i j a, nth_error ys i = Some (j, a) ->
    j = i /\ exists key, rk a = AStr "SavableDatasetWrapper" :: AInt gid :: AInt i :: key.
Proof.
  intros H i j a E. apply delivers_fresh in H. destruct H as (evs & _ & _ & ->).
  assert (G : forall xs m i, nth_error (number gid m xs) i = Some (j, a) -> j = m + i /\ exists key, rk a = AStr "SavableDatasetWrapper" :: AInt gid :: AInt (m + i) :: key).
  { clear. induction xs as [|x xs IH]; intros m [|i] H; cbn in H; try discriminate.
    - injection H as <- <-. rewrite Nat.add_0_r. split; [reflexivity|]. cbn. eauto.
    - apply IH in H. replace (m + S i) with (S m + i) by lia. exact H. }
  apply (G _ 0 i E).
Qed.
Print Assumptions C37_worker_numbers.

(** a worker whose dataset has no (more) samples stops, fresh or restored, instead of starting over again and again *)
Theorem C37_empty_worker_ends {P} (D : dataset P) w gid min_n n_cp (s : wstate D) i' :
  (s = w_fresh D \/ exists cks, s = w_restored w cks) -> next w (k_in s) Done i' ->
  (exists s', wnext w gid min_n n_cp s End s') /\ (forall e s', wnext w gid min_n n_cp s e s' -> e = End).
Proof.
  intros HS N. assert (HH : k_has s = false) by (destruct HS as [-> | [cks ->]]; reflexivity).
  split.
  - eexists. apply wn_end with (in' := i') (clk := true); [exact N|]. rewrite HH. reflexivity.
  - intros e s' X. inversion X as [s0 a j e0 s0' N0 K0 H0|s0 a j clk N0 K0|s0 j e0 s0' N0 H1 H2 H0|s0 j clk N0 H1|s0 x j clk N0]; subst.
    + destruct (next_det N N0) as [E _]; discriminate E.
    + destruct (next_det N N0) as [E _]; discriminate E.
    + congruence.
    + reflexivity.
    + destruct (next_det N N0) as [E _]; discriminate E.
Qed.
Print Assumptions C37_empty_worker_ends.

(** tactics to run the concrete examples *)
Local Ltac inner := eapply next_now; [reflexivity|discriminate].

(** a worker of an endless stream that has stored the checkpoints 1 and 3, delivered 4 samples, and is
    asked for the state after sample 3: checkpoint 3 with offset 1 *)
Example C37_nonvacuous : let D := stream_ds (fun i => i) in
  resumable D false 2 /\
  exists s c, wreach (D := D) 1 7 2 2 2 0 s /\ 0 <= 3 < k_index s /\ get_checkpoint s 3 = Ok (c, 1) /\
    exists ys, length ys = 2 /\ delivers 1 7 2 2 (w_restored 1 [(mkCp None 0, 0); (c, 1)]) ys.
Proof.
  cbv zeta. split; [apply stream_resumable|].
  pose proof (@wreach_fresh _ (stream_ds (fun i => i)) 1 7 2 2 2) as R.
  eapply wreach_next in R; [|eapply (@wn_emit _ _ 1 7 2 2 _ _ _ true); [inner|reflexivity]|discriminate].
  eapply wreach_next in R; [|eapply (@wn_emit _ _ 1 7 2 2 _ _ _ true); [inner|reflexivity]|discriminate].
  eapply wreach_next in R; [|eapply (@wn_emit _ _ 1 7 2 2 _ _ _ true); [inner|reflexivity]|discriminate].
  eapply wreach_next in R; [|eapply (@wn_emit _ _ 1 7 2 2 _ _ _ true); [inner|reflexivity]|discriminate].
  eexists _, _. split; [exact R|]. split; [cbn; lia|]. split; [reflexivity|].
  eexists. split; [|eexists _, _; split; [eapply wr_cons; [eapply wn_skip; [inner|cbn; lia|eapply (@wn_emit _ _ 1 7 2 2 _ _ _ true); [inner|reflexivity]]|discriminate|
     eapply wr_cons; [eapply (@wn_emit _ _ 1 7 2 2 _ _ _ true); [inner|reflexivity]|discriminate|constructor]]|reflexivity]].
  reflexivity.
Qed.

(** The end of an epoch is not an item of the worker's sample sequence, and it is not restored
    faithfully: when the replayed offset reaches the end of the epoch, the restored worker starts the
    next epoch at once, where the uninterrupted one reports the end of the epoch. *)
Theorem C37_epoch_end_refuted : let D := list_ds [10; 20] in
  resumable D false 1 /\
  exists s c, wreach (D := D) 0 0 1 2 2 0 s /\ 0 <= 1 < k_index s /\ get_checkpoint s 1 = Ok (c, 1) /\
    (exists s', wnext 0 0 2 2 s End s') /\
    (forall e s', wnext 0 0 2 2 (w_restored 0 [(c, 1)]) e s' -> exists a, e = Emit 2 a).
Proof.
  cbv zeta. split; [apply list_resumable|].
  pose proof (@wreach_fresh _ (list_ds [10; 20]) 0 0 1 2 2) as R.
  eapply wreach_next in R; [|eapply (@wn_emit _ _ 0 0 2 2 _ _ _ false); [inner|reflexivity]|discriminate].
  eapply wreach_next in R; [|eapply (@wn_emit _ _ 0 0 2 2 _ _ _ false); [inner|reflexivity]|discriminate].
  eexists _, _. split; [exact R|]. split; [cbn; lia|]. split; [reflexivity|]. split.
  { eexists. eapply (@wn_end _ _ 0 0 2 2 _ _ false); [inner|reflexivity]. }
  intros e s' N. 
  assert (DET : forall s e2 s2, next (D := list_ds [10; 20]) 0 s e2 s2 -> forall o g e1, ds_step (list_ds [10; 20]) 0 (fst s) (snd s) = (o, g, e1) -> e1 <> Tau -> e1 = e2 /\ (o, g) = s2).
  { intros s e2 s2 N2 o g e1 E1 NT. eapply next_det; [|exact N2]. apply next_now; assumption. }
  inversion N as [s0 a i' e0 s0' N0 K0 H0|s0 a i' clk N0 K0|s0 i' e0 s0' N0 H1 H2 H0|s0 i' clk N0 H1|s0 x i' clk N0]; subst; cbn in *; try discriminate; try lia.
  - destruct (DET _ _ _ N0 _ _ _ eq_refl ltac:(discriminate)) as [_ <-]. clear N N0.
    inversion H0 as [s0 a0 i' e0 s0' N0 K1 H1|s0 a0 i' clk N0 K1|s0 i' e0 s0' N0 H1 H2 H3|s0 i' clk N0 H1|s0 x i' clk N0]; subst; cbn in *; try discriminate; try lia.
    + destruct (DET _ _ _ N0 _ _ _ eq_refl ltac:(discriminate)) as [X _]; discriminate X.
    + destruct (DET _ _ _ N0 _ _ _ eq_refl ltac:(discriminate)) as [_ <-]. clear N0 H0.
      inversion H3 as [s0 a0 i' e0 s0' N0 K1 H4|s0 a0 i' clk N0 K1|s0 i' e0 s0' N0 H4 H5 H6|s0 i' clk N0 H4|s0 x i' clk N0]; subst; cbn in *; try discriminate; try lia.
      * eauto.
      * destruct (DET _ _ _ N0 _ _ _ eq_refl ltac:(discriminate)) as [X _]; discriminate X.
      * destruct (DET _ _ _ N0 _ _ _ eq_refl ltac:(discriminate)) as [X _]; discriminate X.
    + destruct (DET _ _ _ N0 _ _ _ eq_refl ltac:(discriminate)) as [X _]; discriminate X.
  - destruct (DET _ _ _ N0 _ _ _ eq_refl ltac:(discriminate)) as [X _]; discriminate X.
  - destruct (DET _ _ _ N0 _ _ _ eq_refl ltac:(discriminate)) as [X _]; discriminate X.
Qed.
Print Assumptions C37_epoch_end_refuted.

(** ** C38 the checkpoint is available *)
Theorem C38_checkpoint_available {P} (D : dataset P) rank n prefetch min_n n_cp (y : sys D) p :
  0 < n -> 0 < prefetch <= min_n -> 2 <= n_cp -> endless D false n -> resumable D false n ->
  sreach rank n prefetch min_n n_cp y -> p < n -> 0 < y_rcv y p ->
  exists c off, get_checkpoint (y_wk y p) (y_ctr y (lw n (y_off y) p)) = Ok (c, off) /\
    cp_index c <= y_ctr y (lw n (y_off y) p) + 1.
Proof.
  intros Hn [HP0 HP] HC HE HR R Hp Hr.
  assert (SI : @sinv P D rank n prefetch min_n n_cp y) by (eapply sreach_inv; eauto).
  destruct (checkpoint_available Hn HP0 HP HC SI Hp Hr) as (c & off & E). exists c, off. split; [exact E|].
  unfold get_checkpoint in E. destruct (find_cp _ _) eqn:F; [|discriminate]. injection E as <- <-. apply find_cp_some in F. apply F.
Qed.
Print Assumptions C38_checkpoint_available.

(** so saving works as soon as every worker has contributed a sample *)
Theorem C38_save_succeeds {P} (D : dataset P) rank n prefetch min_n n_cp (y : sys D) :
  0 < n -> 0 < prefetch <= min_n -> 2 <= n_cp -> endless D false n -> resumable D false n ->
  sreach rank n prefetch min_n n_cp y -> all_started n y -> exists st, save_state n y = Ok st.
Proof.
  intros Hn [HP0 HP] HC HE HR R HA.
  assert (SI : @sinv P D rank n prefetch min_n n_cp y) by (eapply sreach_inv; eauto).
  eapply save_succeeds; eauto.
Qed.
Print Assumptions C38_save_succeeds.

(** With a finite dataset it can fail: three samples, default settings for one worker (prefetch 2, a
    checkpoint at most every 2 samples, 2 kept). The main process has received samples 0 and 1; the
    worker has prefetched sample 2 and the end of the epoch, which forces another checkpoint. *)
Theorem C38_finite_refuted : let D := list_ds [10; 20; 30] in
  resumable D false 1 /\
  exists s l, wruns (D := D) 0 0 2 2 (w_fresh D) l s /\ map fst (emitted l) = [0; 1; 2] /\ length l = 2 + 2 /\
    get_checkpoint s 1 = Err ValueError.
Proof.
  cbv zeta. split; [apply list_resumable|]. eexists _, _. split.
  { eapply wr_cons; [eapply (@wn_emit _ _ 0 0 2 2 _ _ _ true); [inner|reflexivity]|discriminate|].
    eapply wr_cons; [eapply (@wn_emit _ _ 0 0 2 2 _ _ _ true); [inner|reflexivity]|discriminate|].
    eapply wr_cons; [eapply (@wn_emit _ _ 0 0 2 2 _ _ _ true); [inner|reflexivity]|discriminate|].
    eapply wr_cons; [eapply (@wn_end _ _ 0 0 2 2 _ _ true); [inner|reflexivity]|discriminate|].
    constructor. }
  split; [reflexivity|]. split; reflexivity.
Qed.
Print Assumptions C38_finite_refuted.

(** ** C39 the whole loader *)
(** Every worker continues exactly where the saved loader left off, but the turn order starts with
    logical worker (n - k) mod n instead of k, k being the worker whose turn it was. *)
Theorem C39_restored_continues_rotated {P} (D : dataset P) rank n prefetch min_n n_cp (y : sys D) st outs :
  0 < n -> 0 < prefetch <= min_n -> 2 <= n_cp -> endless D false n -> resumable D false n ->
  sreach rank n prefetch min_n n_cp y -> all_started n y -> save_state n y = Ok st ->
  (returns rank n prefetch min_n n_cp (restore_state n st) outs <->
   returns rank n prefetch min_n n_cp (starting_at n y ((n - y_nid y) mod n)) outs).
Proof.
  intros Hn [HP0 HP] HC HE HR R HA HS.
  assert (SI : @sinv P D rank n prefetch min_n n_cp y) by (eapply sreach_inv; eauto).
  eapply restore_returns; eauto.
Qed.
Print Assumptions C39_restored_continues_rotated.

(** hence the sequence continues exactly if 2k is a multiple of n; in particular for one or two workers *)
Theorem C39_resumes_partial {P} (D : dataset P) rank n prefetch min_n n_cp (y : sys D) st outs :
  0 < n -> 0 < prefetch <= min_n -> 2 <= n_cp -> endless D false n -> resumable D false n ->
  sreach rank n prefetch min_n n_cp y -> all_started n y -> save_state n y = Ok st ->
  n <= 2 \/ (2 * y_nid y) mod n = 0 ->
  (returns rank n prefetch min_n n_cp (restore_state n st) outs <-> returns rank n prefetch min_n n_cp y outs).
Proof.
  intros Hn HP HC HE HR R HA HS HM. rewrite (C39_restored_continues_rotated outs Hn HP HC HE HR R HA HS).
  assert (SI : @sinv P D rank n prefetch min_n n_cp y) by (destruct HP; eapply sreach_inv; eauto).
  assert (HK : y_nid y < n) by (destruct SI as (_ & _ & _ & H); rewrite (H 0 Hn (HA 0 Hn)); apply Nat.mod_upper_bound; lia).
  assert (EK : (n - y_nid y) mod n = y_nid y).
  { destruct (Nat.eq_dec (y_nid y) 0) as [Z|NZ]; [rewrite Z, Nat.sub_0_r; apply Nat.mod_same; lia|].
    rewrite Nat.mod_small by lia. destruct HM as [HM|HM]; [lia|]. apply Nat.mod_divides in HM; [|lia]. destruct HM as [c Hc].
    destruct c as [|[|c]]; nia. }
  rewrite EK. destruct HP. eapply starting_at_next; eauto.
Qed.
Print Assumptions C39_resumes_partial.

(** in all other cases the very next sample is wrong *)
Lemma returns_first_gid {P} (D : dataset P) rank n prefetch min_n n_cp (y : sys D) x :
  0 < n -> 0 < prefetch -> prefetch <= min_n -> 2 <= n_cp -> endless D false n -> resumable D false n ->
  @sinv P D rank n prefetch min_n n_cp y -> returns rank n prefetch min_n n_cp y [x] ->
  nth_error (rk x) 1 = Some (AInt (gid rank n (lw n (y_off y) (y_next y)))).
Proof.
  intros Hn HP0 HP HC HE HR SI H. assert (HX : y_next y < n) by apply SI.
  pose proof (returns_pds Hn HP0 HP HC H HX HX) as (ys & Hpd & E). cbn [sub] in E. rewrite Nat.eqb_refl in E.
  destruct ys as [|[i a] [|b ys]]; try discriminate. cbn in E. injection E as ->.
  destruct (proj1 (proj2 (proj2 SI)) _ HX) as [b I]. apply (pd_at Hn HP0 HP HC HR I) in Hpd.
  destruct Hpd as (pre & _ & Dl). destruct (@C37_worker_numbers _ _ _ _ _ _ _ Dl (length pre) i x) as (_ & key & ->); [|reflexivity].
  rewrite nth_error_app2, Nat.sub_diag by lia. reflexivity.
Qed.

Theorem C39_order_refuted {P} (D : dataset P) rank n prefetch min_n n_cp (y : sys D) st x :
  0 < n -> 0 < prefetch <= min_n -> 2 <= n_cp -> endless D false n -> resumable D false n ->
  sreach rank n prefetch min_n n_cp y -> all_started n y -> save_state n y = Ok st ->
  (2 * y_nid y) mod n <> 0 ->
  returns rank n prefetch min_n n_cp y [x] -> ~ returns rank n prefetch min_n n_cp (restore_state n st) [x].
Proof.
  intros Hn [HP0 HP] HC HE HR R HA HS HM H1 H2.
  assert (SI : @sinv P D rank n prefetch min_n n_cp y) by (eapply sreach_inv; eauto).
  assert (HNI : y_nid y = lw n (y_off y) (y_next y)) by (destruct SI as (_ & _ & _ & H); apply (H 0 Hn (HA 0 Hn))).
  assert (HK : y_nid y < n) by (rewrite HNI; apply Nat.mod_upper_bound; lia).
  assert (SR : @sinv P D rank n prefetch min_n n_cp (restore_state n st)) by (eapply restored_pinv; eauto).
  apply returns_first_gid in H1, H2; auto. rewrite H1 in H2. injection H2 as H2. unfold gid in H2.
  destruct (save_state_inv Hn HP0 HP HC HS) as (E1 & _). destruct st as [cks k]. cbn [snd] in E1. subst k. cbn [restore_state y_off y_next] in H2.
  rewrite <- HNI in H2. unfold lw in H2. rewrite Nat.add_0_l in H2. apply HM.
  destruct (Nat.eq_dec (y_nid y) 0) as [Z|NZ]; [rewrite Z; apply Nat.mod_0_l; lia|].
  rewrite (Nat.mod_small (n - y_nid y)) in H2 by lia. replace (2 * y_nid y) with n by lia. apply Nat.mod_same. lia.
Qed.
Print Assumptions C39_order_refuted.

(** concrete loaders: run a schedule, ignoring commands that are not possible *)
Inductive cmd := Prod (p : nat) (clk : bool) | Recv.
Definition run1 {P} (D : dataset P) (rank n prefetch min_n n_cp : nat) (c : cmd) (y : sys D) : sys D :=
  match c with
  | Prod p clk =>
      let s := y_wk y p in
      if (p <? n) && (List.length (y_q y p) <? prefetch) && (k_skip s =? 0) then
        match ds_step D (lw n (y_off y) p) (fst (k_in s)) (snd (k_in s)) with
        | (o, g, Yield a) =>
            mkSys (y_off y)
              (fupd (y_wk y) p (mkWk (o, g) (S (k_index s)) (store_checkpoint (lw n (y_off y) p) min_n n_cp false clk o (S (k_index s)) (k_cps s)) 0 true false))
              (fupd (y_q y) p (y_q y p ++ [(k_index s, add_key (gid rank n (lw n (y_off y) p)) (k_index s) a)]))
              (y_rcv y) (y_next y) (y_ctr y) (y_nid y)
        | _ => y
        end
      else y
  | Recv =>
      match y_q y (y_next y) with
      | (i, a) :: rest =>
          mkSys (y_off y) (y_wk y) (fupd (y_q y) (y_next y) rest)
            (fupd (y_rcv y) (y_next y) (S (y_rcv y (y_next y)))) ((y_next y + 1) mod n)
            (fupd (y_ctr y) (lw n (y_off y) (y_next y)) i) ((lw n (y_off y) (y_next y) + 1) mod n)
      | [] => y
      end
  end.
Definition run {P} (D : dataset P) rank n prefetch min_n n_cp (cs : list cmd) (y : sys D) : sys D :=
  fold_left (fun y c => run1 rank n prefetch min_n n_cp c y) cs y.

Lemma run1_reach {P} (D : dataset P) rank n prefetch min_n n_cp c (y : sys D) :
  sreach rank n prefetch min_n n_cp y -> sreach rank n prefetch min_n n_cp (run1 rank n prefetch min_n n_cp c y).
Proof.
  intros R. destruct c as [p clk|]; cbn [run1].
  - destruct ((p <? n) && _ && _) eqn:C; [|exact R]. apply andb_true_iff in C. destruct C as [C C3]. apply andb_true_iff in C. destruct C as [C1 C2].
    apply Nat.ltb_lt in C1, C2. apply Nat.eqb_eq in C3.
    destruct (ds_step D (lw n (y_off y) p) (fst (k_in (y_wk y p))) (snd (k_in (y_wk y p)))) as [[o g] e] eqn:ES. destruct e as [a| | |x]; try exact R.
    eapply sreach_step; [exact R|]. apply ss_produce; [exact C1|exact C2|].
    apply (@wn_emit _ _ _ _ _ _ (y_wk y p) a (o, g) clk); [|exact C3]. apply next_now; [exact ES|discriminate].
  - destruct (y_q y (y_next y)) as [|[i a] rest] eqn:E; [exact R|]. eapply sreach_step; [exact R|]. apply ss_receive. exact E.
Qed.
Lemma run_reach {P} (D : dataset P) rank n prefetch min_n n_cp cs (y : sys D) :
  sreach rank n prefetch min_n n_cp y -> sreach rank n prefetch min_n n_cp (run rank n prefetch min_n n_cp cs y).
Proof. revert y. induction cs as [|c cs IH]; intros y R; [exact R|]. cbn. apply IH, run1_reach, R. Qed.

Local Ltac at_run prog := match goal with |- context [sreach ?r ?n ?p ?m ?c _] =>
  exists (run r n p m c prog (s_fresh (stream_ds (fun i => i)))) end.
Local Ltac by_run := split; [apply run_reach; constructor|].

(** three workers; after four samples it is worker 1's turn: the restored loader starts with worker 2 *)
Example C39_order_nonvacuous : let D := stream_ds (fun i => i) in
  exists y st x, sreach (D := D) 0 3 2 6 2 y /\ all_started 3 y /\ save_state 3 y = Ok st /\ (2 * y_nid y) mod 3 <> 0 /\
    returns 0 3 2 6 2 y [x].
Proof.
  cbv zeta. at_run [Prod 0 true; Prod 2 true; Recv; Prod 1 true; Recv; Recv; Prod 0 true; Recv; Prod 1 true].
  eexists _, _. by_run. split; [intros [|[|[|p]]] Hp; cbn; lia|]. split; [vm_compute; reflexivity|]. split; [cbn; lia|].
  eexists. eapply (@sr_step _ _ _ _ _ _ _ _ [_] _ []); [|constructor]. eapply ss_receive. vm_compute. reflexivity.
Qed.

(** two workers, one sample received from each: everything needed by C39_resumes_partial *)
Example C39_resumes_nonvacuous : let D := stream_ds (fun i => i) in
  endless D false 2 /\ resumable D false 2 /\
  exists y st, sreach (D := D) 0 2 2 4 2 y /\ all_started 2 y /\ save_state 2 y = Ok st /\ y_q y 1 <> [].
Proof.
  cbv zeta. split; [apply stream_endless|]. split; [apply stream_resumable|].
  at_run [Prod 0 true; Prod 1 true; Recv; Recv; Prod 1 false; Prod 0 false; Recv].
  eexists _. by_run. split; [intros [|[|p]] Hp; cbn; lia|]. split; [vm_compute; reflexivity|]. cbn. discriminate.
Qed.

(** Saved before every worker has contributed: two workers, only one sample received. The first sample
    of the other worker would be next; after the restore it is not (it is skipped). *)
Theorem C39_first_samples_refuted : let D := stream_ds (fun i => i) in
  exists y st x, sreach (D := D) 0 2 2 4 2 y /\ y_rcv y 0 = 1 /\ y_nid y = 1 /\ save_state 2 y = Ok st /\
    returns 0 2 2 4 2 y [x] /\ ~ returns 0 2 2 4 2 (restore_state 2 st) [x].
Proof.
  cbv zeta. at_run [Prod 0 true; Recv; Prod 1 true].
  eexists _, _. by_run. split; [reflexivity|]. split; [reflexivity|]. split; [vm_compute; reflexivity|]. split.
  - eexists. eapply (@sr_step _ _ _ _ _ _ _ _ [_] _ []); [|constructor]. eapply ss_receive. vm_compute. reflexivity.
  - intros H. apply returns_pds with (p := 0) in H; cbn [y_next restore_state]; try lia. destruct H as (ys & (l & r & Dl & E) & ES).
    cbn in E, ES. subst l. destruct ys as [|[i a] [|]]; try discriminate. cbn in ES. injection ES as ->.
    apply delivers_iff in Dl. destruct Dl as (evs & _ & _ & EN). cbn in EN.
    destruct (ysamples evs) as [|a1 [|a2 evs']]; cbn in EN; discriminate.
Qed.
Print Assumptions C39_first_samples_refuted.

(** Saved again before the restored loader has received anything: the sample counters have been
    reset, no checkpoint matches *)
Theorem C39_save_after_restore_refuted : let D := stream_ds (fun i => i) in
  exists y st, sreach (D := D) 0 1 2 2 2 y /\ all_started 1 y /\ save_state 1 y = Ok st /\
    save_state 1 (restore_state 1 st) = Err ValueError.
Proof.
  cbv zeta. at_run [Prod 0 true; Recv; Prod 0 true; Recv; Prod 0 true; Recv].
  eexists _. by_run. split; [intros [|p] Hp; cbn; lia|]. split; [vm_compute; reflexivity|]. vm_compute. reflexivity.
Qed.
Print Assumptions C39_save_after_restore_refuted.

(** ** C40 states of several ranks *)
Lemma nth_map_combine {X Y} (f : nat * X -> Y) (l : list X) r x d : nth_error l r = Some x ->
  nth r (map f (combine (seq 0 (length l)) l)) d = f (r, x).
Proof.
  intros E. assert (L : r < length l) by (apply nth_error_Some; congruence).
  erewrite nth_error_nth; [reflexivity|]. apply map_nth_error.
  assert (G : forall (l : list X) k r x, nth_error l r = Some x -> nth_error (combine (seq k (length l)) l) r = Some (k + r, x)).
  { clear. induction l as [|y l IH]; intros k [|r] x E; cbn in *; try discriminate; [rewrite Nat.add_0_r; congruence|].
    rewrite (IH (S k) r x E). do 2 f_equal. lia. }
  apply (G l 0 r x E).
Qed.

(** gathered on all ranks, restored on all ranks: everybody gets its own state back *)
Theorem C40_own_state {S} (ms : list (option S)) r m :
  nth_error ms r = Some m ->
  restore_global true None (map (save_global true None ms) (seq 0 (length ms))) r = Restored m.
Proof.
  intros E. assert (L : r < length ms) by (apply nth_error_Some; congruence).
  assert (EA : nth_error (map (save_global true None ms) (seq 0 (length ms))) r = Some (PList ms)).
  { rewrite (@map_nth_error _ _ _ r _ r); [reflexivity|]. rewrite (nth_error_nth' _ 0) by (rewrite seq_length; exact L). rewrite seq_nth by exact L. reflexivity. }
  unfold restore_global, finish. rewrite (nth_map_combine _ _ EA). cbn [fst snd restore_act]. rewrite E. destruct m; reflexivity.
Qed.
Print Assumptions C40_own_state.

(** without torch.distributed *)
Theorem C40_single {S} (m : option S) :
  restore_global false None [save_global false None [m] 0] 0 = Restored m.
Proof. destruct m; reflexivity. Qed.

(** fewer states than ranks: the ranks without a state fail; the others do not notice, nor does anybody if
    there are too many states *)
Theorem C40_missing_state_error {S} (ms : list (option S)) world r :
  length ms <= r < world -> restore_global true None (repeat (PList ms) world) r = Fails IndexError.
Proof.
  intros H. assert (EA : nth_error (repeat (PList ms) world) r = Some (PList ms)).
  { rewrite (nth_error_nth' _ PNone) by (rewrite repeat_length; lia). f_equal. eapply repeat_spec. apply nth_In. rewrite repeat_length. lia. }
  unfold restore_global, finish. rewrite (nth_map_combine _ _ EA). cbn [fst snd restore_act].
  destruct (nth_error ms r) eqn:E; [|reflexivity]. assert (r < length ms) by (apply nth_error_Some; congruence). lia.
Qed.
Print Assumptions C40_missing_state_error.

Theorem C40_world_size_unchecked_refuted : exists (ms : list (option nat)) world,
  length ms <> world /\ forall r, r < world -> exists m, restore_global true None (repeat (PList ms) world) r = Restored m.
Proof.
  exists [Some 5; Some 6; Some 7], 2. split; [discriminate|]. intros [|[|r]] Hr; [exists (Some 5)|exists (Some 6)|lia]; reflexivity.
Qed.
Print Assumptions C40_world_size_unchecked_refuted.

(** gathered on one rank and restored from it as documented (all other ranks pass None): for two or
    more ranks the source blocks in the scatter, and the others silently start from the beginning *)
Theorem C40_src_rank_refuted {S} (ms : list (option S)) src r :
  2 <= length ms -> src < length ms -> r < length ms ->
  restore_global true (Some src) (map (save_global true (Some src) ms) (seq 0 (length ms))) r =
    if r =? src then Blocked else Restored None.
Proof.
  intros HL Hs Hr. set (sts := map _ _).
  assert (EA : forall i, i < length ms -> nth_error sts i = Some (if i =? src then PList ms else PNone)).
  { intros i Hi. unfold sts. rewrite (@map_nth_error _ _ _ i _ i); [reflexivity|]. rewrite (nth_error_nth' _ 0) by (rewrite seq_length; exact Hi). rewrite seq_nth by exact Hi. reflexivity. }
  assert (LS : length sts = length ms) by (unfold sts; rewrite map_length, seq_length; reflexivity).
  set (acts := map (fun p => restore_act true (Some src) (fst p) (snd p)) (combine (seq 0 (length sts)) sts)).
  assert (NA : forallb is_scatter acts = false).
  { apply not_true_iff_false. intros F. rewrite forallb_forall in F. set (i := if src =? 0 then 1 else 0).
    assert (Hi : i < length ms /\ i <> src) by (unfold i; destruct (Nat.eqb_spec src 0); lia). destruct Hi as [Hi Hne].
    assert (EN : nth i acts (Raises AssertionError) = Direct PNone).
    { unfold acts. rewrite (nth_map_combine _ _ (EA i Hi)). cbn [fst snd]. apply Nat.eqb_neq in Hne. rewrite Hne. reflexivity. }
    specialize (F (nth i acts (Raises AssertionError))). rewrite EN in F. cbn in F. enough (false = true) by discriminate. apply F.
    rewrite <- EN. apply nth_In. unfold acts. rewrite map_length, combine_length, seq_length, LS. lia. }
  unfold restore_global, finish. fold acts. rewrite NA. unfold acts. rewrite (nth_map_combine _ _ (EA r Hr)). cbn [fst snd].
  destruct (r =? src) eqn:E; cbn [restore_act]; [|reflexivity]. rewrite E. reflexivity.
Qed.
Print Assumptions C40_src_rank_refuted.
