(** From the sharder to the sample loaders of all ranks and workers (C12, C46). *)
From Coq Require Import QArith.
From Verif Require Import Base Dataset DatasetProofs WrapSpec PyFloat Rng RngProofs Sharder SharderSpec SharderProofs
  SharderProofs2 SharderProofs3 SampleLoader SampleLoaderSpec SampleLoaderProofs SampleLoaderProofs2
  SampleLoaderProofs3 P_SampleLoader.
Local Close Scope Q_scope.
Local Open Scope Z_scope.

Lemma sublist_in {A} (a b : list A) : sublist a b -> forall x, In x a -> In x b.
Proof. induction 1; intros y H0; cbn in *; intuition. Qed.
Lemma sublist_nodup {A} (a b : list A) : sublist a b -> NoDup b -> NoDup a.
Proof.
  induction 1 as [|x a b H IH|x a b H IH]; intros N; auto.
  - apply IH. inversion N; auto.
  - inversion N; subst. constructor; auto. intros C. apply (sublist_in H) in C. auto.
Qed.
Lemma sublist_map {A B} (f : A -> B) (a b : list A) : sublist a b -> sublist (map f a) (map f b).
Proof. induction 1; cbn; [constructor|apply sub_skip|apply sub_keep]; auto. Qed.
Lemma sublist_app_l {A} (a b c : list A) : sublist a c -> sublist a (b ++ c).
Proof. intros H. induction b; cbn; auto. constructor; auto. Qed.

Lemma nodup_app {A} (a b : list A) : NoDup a -> NoDup b -> (forall x, In x a -> In x b -> False) -> NoDup (a ++ b).
Proof.
  induction a as [|x a IH]; cbn; intros Ha Hb D; auto. inversion Ha; subst. constructor.
  - intros C. apply in_app_or in C. destruct C; eauto.
  - apply IH; eauto.
Qed.
Lemma nodup_app_inv {A} (a b : list A) : NoDup (a ++ b) -> NoDup a /\ NoDup b.
Proof.
  induction a as [|x a IH]; cbn; intros H; [split; auto; constructor|].
  inversion H as [|? ? Hx H']; subst. destruct (IH H') as [A1 A2]. split; auto. constructor; auto.
  intros C. apply Hx, in_or_app. auto.
Qed.

Definition rowkey (r : list (nat * Z)) : nat * Z := hd (0%nat, 0) r.

Lemma rows_keys s : map rowkey (rows s) = map (fun i => (sh_name (fst s), sh_offset (fst s) + Z.of_nat i)) (seq 0 (Z.to_nat (count0 s))).
Proof. unfold rows. rewrite map_map. apply map_ext. reflexivity. Qed.

Lemma rows_keys_nodup s : NoDup (map rowkey (rows s)).
Proof.
  rewrite rows_keys. apply FinFun.Injective_map_NoDup; [|apply seq_NoDup].
  intros i j H. injection H as H. lia.
Qed.

Lemma all_rows_keys_nodup shards : NoDup (map (fun s : shseq => sh_name (fst s)) shards) ->
  NoDup (map rowkey (all_rows shards)).
Proof.
  induction shards as [|s shards IH]; intros H; [constructor|].
  inversion H as [|? ? Hs H']; subst. unfold all_rows in *. cbn [flat_map]. rewrite map_app.
  apply nodup_app; auto using rows_keys_nodup.
  intros x Hx1 Hx2. rewrite rows_keys in Hx1. apply in_map_iff in Hx1. destruct Hx1 as (i & <- & _).
  apply in_map_iff in Hx2. destruct Hx2 as (r & E & Hr). apply in_flat_map in Hr.
  destruct Hr as (t & Ht & Hr). assert (K : In (rowkey r) (map rowkey (rows t))) by (apply in_map; exact Hr).
  rewrite E, rows_keys in K. apply in_map_iff in K. destruct K as (j & K & _). injection K as K _.
  apply Hs. rewrite <- K. apply in_map_iff. exists t. auto.
Qed.

Lemma keys_of_rows ws : Forall (fun s => 0 < count0 s) ws ->
  NoDup (map rowkey (all_rows ws)) -> distinct_keys ws.
Proof.
  unfold distinct_keys. intros HC N. refine (sublist_nodup _ N). clear N.
  induction ws as [|s ws IH]; [constructor|]. inversion HC as [|? ? H1 H2]; subst.
  unfold all_rows in *. cbn [flat_map map]. rewrite map_app, rows_keys.
  destruct (Z.to_nat (count0 s)) as [|n] eqn:En; [lia|]. cbn [seq map app].
  replace (sh_offset (fst s) + Z.of_nat 0) with (sh_offset (fst s)) by lia.
  apply sub_keep. apply sublist_app_l. auto.
Qed.

Lemma all_rows_concat ll : concat (map all_rows ll) = all_rows (concat ll).
Proof.
  induction ll as [|l ll IH]; [reflexivity|]. cbn [map concat]. unfold all_rows at 3.
  rewrite flat_map_app. fold (all_rows l) (all_rows (concat ll)). rewrite IH. reflexivity.
Qed.

Lemma nodup_each {A B} (f : A -> B) (ll : list (list A)) : NoDup (map f (concat ll)) -> Forall (fun l => NoDup (map f l)) ll.
Proof.
  induction ll as [|l ll IH]; intros H; constructor; cbn [concat] in H; rewrite map_app in H;
  apply nodup_app_inv in H; tauto.
Qed.

(** the sharder hands out proper sub-shards *)
Lemma sharder_proper shards world n maxs rot ll :
  shards <> [] -> Forall whole_shard shards -> total_samples shards < 2 ^ 51 ->
  match maxs with Some m => 0 < m | None => True end -> (0 < world)%nat ->
  NoDup (map (fun s : shseq => sh_name (fst s)) shards) ->
  shard_all_ranks shards world n maxs rot = Ok ll -> proper_shards ll.
Proof.
  intros Hne HW Ht Hm Hw HN E.
  assert (HC := @shard_all_wellformed shards world n maxs rot ll Hne HW Ht Hm Hw E).
  assert (Ht2 : total_samples shards < 2 ^ 53).
  { change (2 ^ 51) with 2251799813685248 in *. change (2 ^ 53) with 9007199254740992 in *. lia. }
  assert (K : Forall (fun ws => NoDup (map rowkey (all_rows ws))) ll).
  { destruct (@shard_partition shards world n rot Hne HW Ht2 Hw) as (l0 & E0 & _ & C0).
    assert (K0 : Forall (fun l => NoDup (map rowkey l)) (map all_rows l0)).
    { apply nodup_each. rewrite C0. apply all_rows_keys_nodup. exact HN. }
    rewrite Forall_map in K0.
    destruct maxs as [m|].
    - destruct (@shard_max_sublist shards world n rot m Hne HW Ht Hw Hm) as (l1 & l2 & E1 & E2 & S).
      rewrite E in E1. injection E1 as <-. rewrite E0 in E2. injection E2 as <-.
      clear - S K0. induction S as [|p q l1 l2 S1 S2 IH]; constructor; inversion K0; subst; auto.
      eapply sublist_nodup; [apply sublist_map; exact S1|assumption].
    - rewrite E in E0. injection E0 as <-. exact K0. }
  unfold proper_shards. apply Forall_forall. intros ws Hws.
  assert (C1 : Forall (fun s => 0 < count0 s) ws).
  { eapply Forall_impl; [|exact (proj1 (Forall_forall _ _) HC ws Hws)]. intros a Ha. apply Ha. }
  split; [exact C1|]. apply keys_of_rows; auto. exact (proj1 (Forall_forall _ _) K ws Hws).
Qed.

Local Close Scope Z_scope.
Local Open Scope nat_scope.

Lemma proper_app a b : proper_shards (a ++ b) <-> proper_shards a /\ proper_shards b.
Proof. apply Forall_app. Qed.
Lemma proper_concat l : proper_shards (concat l) -> forall x, In x l -> proper_shards x.
Proof.
  induction l as [|y l IH]; cbn [concat]; intros H x Hx; [contradiction|].
  apply proper_app in H. destruct Hx as [->|Hx]; [tauto|]. apply IH; tauto.
Qed.

(** what a worker without interruption delivers is a history *)
Lemma emits_history {P} (D : dataset P) w nw : forall l outs (s : st D), @history P D w nw outs s ->
  (forall e, ~ In (Raise e) l) -> @emits P D w s l ->
  exists s', @history P D w nw (outs ++ l) s'.
Proof.
  induction l as [|e l IH]; intros outs s H NR E.
  - exists s. rewrite app_nil_r. exact H.
  - destruct e as [a| | |e].
    + apply emits_yield_inv in E. destruct E as (s1 & N & E).
      destruct (IH (outs ++ [Yield a]) s1) as [s2 H2]; auto.
      * econstructor; eauto.
      * intros e C. apply (NR e). right. exact C.
      * exists s2. rewrite <- app_assoc in H2. exact H2.
    + inversion E.
    + apply emits_done_inv in E. destruct E as (s1 & N & E).
      destruct (IH (outs ++ [Done]) (fst s1, ds_iter D)) as [s2 H2]; auto.
      * econstructor; eauto.
      * intros e C. apply (NR e). right. exact C.
      * exists s2. rewrite <- app_assoc in H2. exact H2.
    + exfalso. apply (NR e). left. reflexivity.
Qed.

Lemma epoch_app_inj {P} (xs ys : list (sample P)) l : epoch xs = map Yield ys ++ Done :: l -> xs = ys /\ l = [].
Proof.
  unfold epoch. revert ys. induction xs as [|x xs IH]; intros [|y ys] E; cbn in E.
  - injection E as <-. auto.
  - discriminate.
  - discriminate.
  - injection E as <- E. destruct (IH ys E) as [-> ->]. auto.
Qed.

Lemma epochs_seen_one {P} (es : list (list (sample P))) part xs :
  epoch xs = epochs_seen false es part -> es = [xs] /\ part = [].
Proof.
  unfold epochs_seen. destruct es as [|e es]; cbn [map concat app].
  - intros E. exfalso. assert (In Done (map Yield part)) as H.
    { rewrite <- E. unfold epoch. apply in_or_app. right. left. reflexivity. }
    apply in_map_iff in H. destruct H as (? & ? & _). discriminate.
  - unfold epoch at 2. rewrite <- !app_assoc. cbn [app]. intros E. apply epoch_app_inj in E.
    destruct E as [-> E]. destruct es as [|e' es].
    + cbn in E. destruct part; [auto|discriminate].
    + exfalso. cbn [map concat] in E. unfold epoch at 1 in E. destruct e'; discriminate.
Qed.

(** one worker's epoch, started fresh *)
Lemma fresh_epoch X R shards (content : shseq -> list (sample X)) par shuffle k rs w :
  rng_ok R -> proper_shards shards -> par >= 1 -> w < length shards ->
  (shuffle = NoShuffle /\ par = 1 /\ k = 1) \/ shuffle = Over k ->
  exists xs, emits w (fresh (loader_ds R shards content par shuffle false rs)) (epoch xs) /\
    Permutation xs (concat (repeat (flat_map content (nth w shards [])) k)).
Proof.
  intros OK HP Hpar W M.
  destruct (nth w shards []) as [|t0 ts] eqn:Ew.
  { exists []. split; [exact (@C12_no_shards X R shards content par shuffle false rs w 1 Ew)|].
    cbn [flat_map]. assert (Z : forall k, concat (repeat (@nil (sample X)) k) = []) by (induction k0; cbn; auto).
    rewrite Z. reflexivity. }
  assert (NE : nth w shards [] <> []) by (rewrite Ew; discriminate).
  destruct (@C12_epochs_complete X R shards content par shuffle rs true w (fresh (loader_ds R shards content par shuffle false rs)) OK HP Hpar W NE) as [xs E].
  { destruct M as [(-> & _)| ->]; discriminate. }
  { destruct M as [(-> & -> & _)| ->]; [auto|discriminate]. }
  { apply r_init. }
  exists xs. split; [exact E|].
  assert (HH : exists s', @history X (loader_ds R shards content par shuffle false rs) w (length shards) ([] ++ map Yield xs ++ [Done]) s').
  { eapply emits_history; [apply h_init| |exact E]. intros e C. apply in_app_or in C. destruct C as [C|[C|[]]]; [|discriminate].
    apply in_map_iff in C. destruct C as (? & ? & _). discriminate. }
  destruct HH as [s' H]. cbn [app] in H. rewrite <- Ew.
  destruct M as [(-> & -> & ->)| ->].
  - destruct (C12_in_order HP W NE H) as (es & part & zs & A & B & C).
    apply (@epochs_seen_one X) in A. destruct A as [-> ->]. inversion B; subst. cbn [repeat concat]. rewrite app_nil_r. reflexivity.
  - destruct (C12_shuffled_epochs OK HP Hpar W NE H) as (es & part & zs & A & B & C).
    apply (@epochs_seen_one X) in A. destruct A as [-> ->]. inversion B; subst.
    apply C12_epoch_is_permutation. assumption.
Qed.

Lemma sequence_length {A} (l : list (result A)) r : sequence l = Ok r -> length r = length l.
Proof.
  revert r; induction l as [|[a|e] l IH]; cbn; intros r E; try discriminate.
  - injection E as <-. reflexivity.
  - destruct (sequence l) as [x|]; cbn in E; [|discriminate]. injection E as <-. cbn. f_equal. auto.
Qed.

Lemma sequence_map_ok {A B} (f : A -> result B) (g : A -> B) l : (forall x, In x l -> f x = Ok (g x)) ->
  sequence (map f l) = Ok (map g l).
Proof.
  induction l as [|x l IH]; intros H; [reflexivity|]. cbn [map sequence].
  rewrite (H x) by (left; auto). rewrite IH; [reflexivity|]. intros y Hy. apply H. right. exact Hy.
Qed.

Lemma finite_choice {A} (d : A) (P : nat -> A -> Prop) n : (forall i, i < n -> exists y, P i y) ->
  exists f, forall i, i < n -> P i (f i).
Proof.
  induction n as [|n IH]; intros H.
  - exists (fun _ => d). intros i Hi. lia.
  - destruct IH as [f Hf]; [intros i Hi; apply H; lia|]. destruct (H n (le_n _)) as [y Hy].
    exists (fun i => if i =? n then y else f i). intros i Hi.
    destruct (Nat.eqb_spec i n) as [->|Ni]; auto. apply Hf. lia.
Qed.

Lemma sublist_app {A} (a b c d : list A) : sublist a b -> sublist c d -> sublist (a ++ c) (b ++ d).
Proof. induction 1; intros H0; cbn; auto; [apply sub_skip|apply sub_keep]; auto. Qed.
Lemma sublist_refl {A} (a : list A) : sublist a a.
Proof. induction a; [constructor|apply sub_keep; auto]. Qed.

Section Ranks.
  Variables (shards : list shseq) (world n : nat) (maxs : option Z) (rot : Z) (shs : nat -> list (list shseq)).
  Hypothesis Hne : shards <> [].
  Hypothesis HW : Forall whole_shard shards.
  Hypothesis Ht : (total_samples shards < 2 ^ 51)%Z.
  Hypothesis Hm : match maxs with Some m => (0 < m)%Z | None => True end.
  Hypothesis Hw : 0 < world.
  Hypothesis HN : NoDup (map (fun s : shseq => sh_name (fst s)) shards).
  Hypothesis HS : forall r, r < world -> shard_workers shards (mkWcfg r world n) maxs rot = Ok (shs r).
  Let nw := Nat.max 1 n.

  Lemma all_shs : shard_all_ranks shards world n maxs rot = Ok (concat (map shs (seq 0 world))).
  Proof.
    unfold shard_all_ranks. rewrite (@sequence_map_ok _ _ _ shs); [reflexivity|].
    intros r Hr. apply in_seq in Hr. apply HS. lia.
  Qed.

  Lemma shs_length r : r < world -> length (shs r) = nw.
  Proof.
    intros Hr. pose proof (HS Hr) as E. rewrite shard_workers_closed in E; auto using csum_whole_nonneg.
    apply sequence_length in E. rewrite map_length, seq_length in E. exact E.
  Qed.

  Lemma used_rows : exists used, sublist used (all_rows shards) /\ (maxs = None -> used = all_rows shards) /\
    used = all_rows (concat (map (fun r => concat (shs r)) (seq 0 world))).
  Proof.
    assert (Ht2 : (total_samples shards < 2 ^ 53)%Z).
    { change (2 ^ 51)%Z with 2251799813685248%Z in *. change (2 ^ 53)%Z with 9007199254740992%Z in *. lia. }
    destruct (@shard_partition shards world n rot Hne HW Ht2 Hw) as (l0 & E0 & _ & C0).
    pose proof all_shs as E.
    eexists. split; [|split; [|reflexivity]].
    all: rewrite <- (map_map shs (@concat shseq)).
    all: assert (CC : forall l : list (list (list shseq)), concat (map (@concat shseq) l) = concat (concat l))
           by (induction l as [|a l IH]; cbn; [reflexivity|rewrite IH, concat_app; reflexivity]).
    all: rewrite CC, <- all_rows_concat.
    - destruct maxs as [m|] eqn:Em.
      + destruct (@shard_max_sublist shards world n rot m Hne HW Ht Hw Hm) as (l1 & l2 & E1 & E2 & S).
        rewrite E0 in E2. injection E2 as <-. rewrite E1 in E. injection E as ->.
        rewrite <- C0. clear - S. induction S as [|p q l1 l2 S1 S2 IH]; [constructor|].
        cbn [map concat]. apply sublist_app; auto.
      + rewrite E0 in E. injection E as <-. rewrite C0. apply sublist_refl.
    - intros Em. rewrite Em in E. rewrite E0 in E. injection E as <-. exact C0.
  Qed.

  Lemma rank_proper r : r < world -> proper_shards (shs r).
  Proof.
    intros Hr. refine (@proper_concat (map shs (seq 0 world)) _ (shs r) _).
    - apply (@sharder_proper shards world n maxs rot); auto. exact all_shs.
    - apply in_map. apply in_seq. lia.
  Qed.

End Ranks.

Section Global.
  Context {X : Type}.
  Variables (R : nat -> rng_ops) (shards : list shseq) (row : list (nat * Z) -> sample X) (world n : nat) (maxs : option Z) (rot : Z)
    (par : nat) (shuffle : shuffling) (k : nat) (rs : nat -> nat -> rkey -> result (sample X)) (shs : nat -> list (list shseq)).
  Hypothesis Hne : shards <> [].
  Hypothesis HW : Forall whole_shard shards.
  Hypothesis Ht : (total_samples shards < 2 ^ 51)%Z.
  Hypothesis Hm : match maxs with Some m => (0 < m)%Z | None => True end.
  Hypothesis Hw : 0 < world.
  Hypothesis HN : NoDup (map (fun s : shseq => sh_name (fst s)) shards).
  Hypothesis HR : forall r, rng_ok (R r).
  Hypothesis Hpar : par >= 1.
  Hypothesis M : (shuffle = NoShuffle /\ par = 1 /\ k = 1) \/ shuffle = Over k.
  Hypothesis HS : forall r, r < world -> shard_workers shards (mkWcfg r world n) maxs rot = Ok (shs r).

  Let nw := Nat.max 1 n.
  Variable content : shseq -> list (sample X).
  Hypothesis HCt : forall r s, r < world -> In s (concat (shs r)) -> content s = map row (rows s).

  Lemma g_len r : r < world -> length (shs r) = nw.
  Proof. intros Hr. eapply (@shs_length shards world n maxs rot shs); eauto. Qed.
  Lemma g_proper r : r < world -> proper_shards (shs r).
  Proof. intros Hr. eapply (@rank_proper shards world n maxs rot shs); eauto. Qed.

  Lemma rank_epochs r : r < world -> exists xs : nat -> list (sample X),
    (forall w, w < nw -> emits w (fresh (loader_ds (R r) (shs r) content par shuffle false (rs r))) (epoch (xs w))) /\
    Permutation (concat (map xs (seq 0 nw))) (concat (repeat (map row (all_rows (concat (shs r)))) k)).
  Proof.
    intros Hr.
    destruct (@finite_choice (list (sample X)) [] (fun w xs =>
      emits w (fresh (loader_ds (R r) (shs r) content par shuffle false (rs r))) (epoch xs) /\
      Permutation xs (concat (repeat (flat_map content (nth w (shs r) [])) k))) nw) as [f Hf].
    { intros w Hw'. apply fresh_epoch; auto using g_proper. rewrite g_len; auto. }
    exists f. split; [intros w Hw'; apply Hf; exact Hw'|].
    assert (G : Permutation (concat (map f (seq 0 nw)))
      (concat (map (fun l => concat (repeat (flat_map content l) k)) (shs r)))).
    { pose proof (@map_nth_seq _ (shs r) []) as EE. rewrite (g_len Hr) in EE.
      rewrite <- EE at 1. rewrite map_map. clear EE.
      assert (Q : forall a m, a + m <= nw -> Permutation (concat (map f (seq a m)))
        (concat (map (fun w => concat (repeat (flat_map content (nth w (shs r) [])) k)) (seq a m)))).
      { intros a m; revert a; induction m as [|m IH]; intros a Ha; [reflexivity|]. cbn [seq map concat].
        apply Permutation_app; [apply Hf; lia|apply IH; lia]. }
      apply Q. lia. }
    rewrite G. clear G Hf. pose proof (fun s => @HCt r s Hr) as HCr. revert HCr. generalize (shs r) as l. induction l as [|t l IH]; intros HCr.
    - cbn. clear. induction k; cbn; auto.
    - cbn [map concat]. rewrite IH by (intros s Hs; apply HCr; cbn [concat]; apply in_or_app; auto). unfold all_rows. rewrite flat_map_app, map_app.
      fold (all_rows t) (all_rows (concat l)).
      assert (EC : flat_map content t = map row (all_rows t)).
      { assert (HCt' : forall s, In s t -> content s = map row (rows s)) by (intros s Hs; apply HCr; cbn [concat]; apply in_or_app; auto).
        unfold all_rows. clear -HCt'. induction t as [|s t IH]; [reflexivity|]. cbn [flat_map].
        rewrite map_app, IH, (HCt' s) by (intros; try apply HCt'; cbn; auto). reflexivity. }
      rewrite EC. generalize (map row (all_rows t)) as a. generalize (map row (all_rows (concat l))) as b. clear.
      intros b a. induction k as [|j IH]; [reflexivity|]. cbn [repeat concat].
      rewrite <- IH. rewrite <- !app_assoc. apply Permutation_app_head.
      rewrite !app_assoc. apply Permutation_app_tail. apply Permutation_app_comm.
  Qed.

  Lemma global_epoch : exists used, sublist used (all_rows shards) /\ (maxs = None -> used = all_rows shards) /\
    exists xs : nat -> nat -> list (sample X),
    (forall r w, r < world -> w < nw ->
       emits w (fresh (loader_ds (R r) (shs r) content par shuffle false (rs r))) (epoch (xs r w))) /\
    Permutation (concat (map (fun r => concat (map (xs r) (seq 0 nw))) (seq 0 world)))
                (concat (repeat (map row used) k)).
  Proof.
    destruct (@used_rows shards world n maxs rot shs Hne HW Ht Hm Hw HS) as (used & U1 & U2 & U3). exists used. split; [exact U1|]. split; [exact U2|].
    destruct (@finite_choice (nat -> list (sample X)) (fun _ => []) (fun r xs =>
      (forall w, w < nw -> emits w (fresh (loader_ds (R r) (shs r) content par shuffle false (rs r))) (epoch (xs w))) /\
      Permutation (concat (map xs (seq 0 nw))) (concat (repeat (map row (all_rows (concat (shs r)))) k))) world) as [f Hf].
    { intros r Hr. apply rank_epochs. exact Hr. }
    exists f. split; [intros r w Hr Hw'; apply Hf; auto|]. subst used.
    assert (Q : forall a m, a + m <= world ->
      Permutation (concat (map (fun r => concat (map (f r) (seq 0 nw))) (seq a m)))
        (concat (repeat (map row (all_rows (concat (map (fun r => concat (shs r)) (seq a m))))) k))).
    { intros a m; revert a; induction m as [|m IH]; intros a Ha.
      - cbn. clear. induction k; cbn; auto.
      - cbn [seq map concat]. rewrite IH by lia. rewrite (proj2 (Hf a ltac:(lia))).
        unfold all_rows. rewrite flat_map_app, map_app.
        fold (all_rows (concat (shs a))) (all_rows (concat (map (fun r => concat (shs r)) (seq (S a) m)))).
        generalize (map row (all_rows (concat (map (fun r => concat (shs r)) (seq (S a) m))))) as b.
        generalize (map row (all_rows (concat (shs a)))) as c. clear.
        intros c b. induction k as [|j IH]; [reflexivity|]. cbn [repeat concat].
        rewrite <- IH. rewrite <- !app_assoc. apply Permutation_app_head.
        rewrite !app_assoc. apply Permutation_app_tail. apply Permutation_app_comm. }
    apply Q. lia.
  Qed.
End Global.
