From Coq Require Import QArith.
From Verif Require Import Base WorkerConfig WorkerConfigProofs Rng RngProofs WorkerSpec.
Local Open Scope Z_scope.

Lemma process_rank_id c p off : 0 < num_workers c -> 0 <= off < num_workers c -> 0 <= p < num_workers c ->
  rank_worker_id c (in_process c p off) = Ok ((p - off) mod num_workers c).
Proof.
  intros H1 H2 H3. pose proof (@rank_worker_id_plain c p _ off [] eq_refl H1 H2 H3) as X.
  exact X.
Qed.

Lemma process_gid c p off : 0 < num_workers c -> 0 <= off < num_workers c -> 0 <= p < num_workers c ->
  (num_workers c = 1 -> off = 0) ->
  global_worker_id c (in_process c p off) None = Ok (rank c * num_workers c + (p - off) mod num_workers c).
Proof.
  intros H1 H2 H3 H4. unfold global_worker_id. cbn [override in_process].
  assert (A : assert_worker c (in_process c p off) = Ok tt).
  { unfold assert_worker. destruct (Z.leb_spec (num_workers c) 1).
    - rewrite process_rank_id by auto. cbn. assert (E : num_workers c = 1) by lia. rewrite E, Z.mod_1_r. reflexivity.
    - cbn. rewrite Z.eqb_refl. reflexivity. }
  rewrite A. cbn [bind]. rewrite process_rank_id by auto. reflexivity.
Qed.

Lemma gid_unique c1 c2 p1 p2 off1 off2 n :
  0 < n -> num_workers c1 = n -> num_workers c2 = n -> world_size c1 = world_size c2 ->
  0 <= rank c1 < world_size c1 -> 0 <= rank c2 < world_size c2 ->
  0 <= off1 < n -> 0 <= off2 < n -> 0 <= p1 < n -> 0 <= p2 < n ->
  (rank c1 = rank c2 -> off1 = off2) ->
  exists g1 g2,
    global_worker_id c1 (in_process c1 p1 off1) None = Ok g1 /\
    global_worker_id c2 (in_process c2 p2 off2) None = Ok g2 /\
    0 <= g1 < world_size c1 * n /\
    (g1 = g2 -> rank c1 = rank c2 /\ p1 = p2).
Proof.
  intros Hn E1 E2 EW R1 R2 O1 O2 P1 P2 OO.
  exists (rank c1 * n + (p1 - off1) mod n), (rank c2 * n + (p2 - off2) mod n).
  rewrite !process_gid by lia. rewrite E1, E2. split; [reflexivity|]. split; [reflexivity|].
  pose proof (Z.mod_pos_bound (p1 - off1) n Hn) as B1. pose proof (Z.mod_pos_bound (p2 - off2) n Hn) as B2.
  split.
  - split; [assert (0 <= rank c1 * n) by (apply Z.mul_nonneg_nonneg; lia); lia|].
    assert ((rank c1 + 1) * n <= world_size c1 * n) by (apply Z.mul_le_mono_nonneg_r; lia). lia.
  - intros E. apply mixed_radix_inj in E; auto. destruct E as [Er El].
    split; [exact Er|]. rewrite (OO Er) in El. eapply shift_inj; eauto.
Qed.

Lemma seed_eq sha1 c e l gid :
  (num_workers c = 0 -> gid = rank c) ->
  (num_workers c <> 0 -> global_worker_id c e l = Ok gid) ->
  worker_seed sha1 c e l = Ok (Z.land (sha1 (seed_text gid (seed_offset c))) 4294967295).
Proof.
  intros H0 H1. unfold worker_seed. destruct (Z.eqb_spec (num_workers c) 0) as [E|E].
  - rewrite (H0 E). reflexivity.
  - rewrite (H1 E). reflexivity.
Qed.

Lemma seed_main_worker sha1 c p : 0 < num_workers c -> 0 <= p < num_workers c ->
  worker_seed sha1 c main_process (Some p) = worker_seed sha1 c (in_process c p 0) None.
Proof.
  intros H1 H2. unfold worker_seed. destruct (Z.eqb_spec (num_workers c) 0); [lia|].
  rewrite process_gid by lia. rewrite Z.sub_0_r, Z.mod_small by lia. reflexivity.
Qed.

Lemma restore_order c k p : 0 < num_workers c -> 0 <= k < num_workers c -> 0 <= p < num_workers c ->
  (rank_worker_id c (in_process c p k) = Ok ((k + p) mod num_workers c) <-> (2 * k) mod num_workers c = 0).
Proof.
  intros H1 H2 H3. rewrite process_rank_id by auto. set (n := num_workers c) in *.
  assert (D : ((k + p) - (p - k)) = 2 * k) by lia.
  split.
  - intros E. injection E as E. rewrite <- D, Zminus_mod, E, Z.sub_diag. apply Z.mod_0_l. lia.
  - intros E. f_equal. apply Z.mod_divide in E; [|lia]. destruct E as [q Hq].
    replace (k + p) with (p - k + q * n) by lia. rewrite Z.mod_add by lia. reflexivity.
Qed.

Section Rng.
  Variable R : rng_ops.

  Lemma do_draw_eff w d (o1 o2 : wrng R) : geff w o1 = geff w o2 ->
    fst (do_draw w d o1) = fst (do_draw w d o2) /\ geff w (snd (do_draw w d o1)) = geff w (snd (do_draw w d o2)).
  Proof.
    intros E. destruct d as [n|ps|n]; unfold do_draw.
    - rewrite (below_eff n E). auto.
    - destruct (choice_eff ps E) as [X1 X2].
      destruct (wrng_choice_idx w ps o1), (wrng_choice_idx w ps o2). cbn in *. subst. auto.
    - rewrite (shuffle_eff (seq 0 n) E). auto.
  Qed.

  Lemma do_draws_eff w ds : forall (o1 o2 : wrng R), geff w o1 = geff w o2 ->
    fst (do_draws w ds o1) = fst (do_draws w ds o2).
  Proof.
    induction ds as [|d ds IH]; intros o1 o2 E; [reflexivity|]. cbn.
    destruct (do_draw_eff d E) as [X1 X2].
    destruct (do_draw w d o1) as [x1 p1], (do_draw w d o2) as [x2 p2]. cbn in *. subst x2.
    specialize (IH _ _ X2). destruct (do_draws w ds p1), (do_draws w ds p2). cbn in *. congruence.
  Qed.

  Lemma rng_resume w ds (o : wrng R) sts :
    nth_error sts w = Some (Some (wrng_save w o)) ->
    fst (do_draws w ds (wrng_restore (Some (wrng_merge sts)) (wrng_init R))) = fst (do_draws w ds o).
  Proof. intros H. apply do_draws_eff. apply geff_restore. exact H. Qed.
End Rng.

Lemma rand_pop_spec R (OK : rng_ok R) A w (l : list A) (o : wrng R) : l <> [] ->
  exists x rest o', wrng_rand_pop w l o = (Some x, rest, o') /\ Permutation l (x :: rest).
Proof.
  intros H. unfold wrng_rand_pop. pose proof (@below_lt R OK w (length l) o) as B.
  destruct (wrng_below w (length l) o) as [i o']. cbn in B.
  destruct (nth_error l i) as [x|] eqn:E.
  - exists x, (remove_nth i l), o'. split; [reflexivity|apply remove_nth_perm; exact E].
  - apply nth_error_None in E. destruct l; [congruence|]. cbn in *. lia.
Qed.
