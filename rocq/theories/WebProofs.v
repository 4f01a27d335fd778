(** From a prepared dataset over the sharder to the readers of the sub-shards. *)
From Coq Require Import String QArith.
From Verif Require Import Base Dataset DatasetProofs WrapSpec Rng RngProofs Sharder SharderSpec SharderProofs SharderProofs2 SharderProofs3
  SampleLoader SampleLoaderSpec P_SampleLoader EndToEndProofs.
From Verif Require Import Tar TarSpec TarProofs TarProofs2 Joined JoinedSpec JoinedProofs JoinedProofs2 Pipeline.
Local Close Scope Q_scope.
Local Close Scope Z_scope.
Local Open Scope list_scope.
Local Open Scope nat_scope.

(** a sub-shard of [p]: the same files, a range inside *)
Definition part_of_shard (p s : shseq) : Prop :=
  map Sharder.sh_name (columns s) = map Sharder.sh_name (columns p) /\ (0 <= offset0 s)%Z /\ (offset0 s + count0 s <= count0 p)%Z.

Lemma row_of_whole (p s : shseq) i : whole_shard p ->
  In (map (fun sh => (Sharder.sh_name sh, (Sharder.sh_offset sh + Z.of_nat i)%Z)) (columns s)) (rows p) ->
  map Sharder.sh_name (columns s) = map Sharder.sh_name (columns p) /\
  (0 <= offset0 s + Z.of_nat i)%Z /\ (offset0 s + Z.of_nat i < count0 p)%Z.
Proof.
  intros (H0 & HW) Hin. unfold rows in Hin. apply in_map_iff in Hin. destruct Hin as (j & E & Hj). apply in_seq in Hj.
  split.
  - apply (f_equal (map fst)) in E. rewrite !map_map in E. cbn in E. symmetry. exact E.
  - unfold columns in E. cbn [map] in E. injection E as _ E _. unfold offset0.
    inversion HW as [|? ? [A _] _]; subst. rewrite A in E. lia.
Qed.

Lemma subshard_parent shards (s : shseq) : Forall whole_shard shards -> NoDup (map (fun p : shseq => Sharder.sh_name (fst p)) shards) ->
  (0 < count0 s)%Z -> (forall r, In r (rows s) -> In r (all_rows shards)) -> exists p, In p shards /\ part_of_shard p s.
Proof.
  intros HW HN HC HR.
  assert (G : forall i, (Z.of_nat i < count0 s)%Z -> exists p, In p shards /\
     map Sharder.sh_name (columns s) = map Sharder.sh_name (columns p) /\ (0 <= offset0 s + Z.of_nat i)%Z /\ (offset0 s + Z.of_nat i < count0 p)%Z).
  { intros i Hi. assert (I1 : In (map (fun sh => (Sharder.sh_name sh, (Sharder.sh_offset sh + Z.of_nat i)%Z)) (columns s)) (rows s)).
    { unfold rows. apply in_map_iff. exists i. split; [reflexivity|]. apply in_seq. lia. }
    apply HR in I1. unfold all_rows in I1. apply in_flat_map in I1. destruct I1 as (p & Ip & I1).
    exists p. split; [exact Ip|]. apply row_of_whole; auto. exact (proj1 (Forall_forall _ _) HW p Ip). }
  destruct (G 0) as (p & Ip & En & A1 & A2); [lia|].
  destruct (G (Z.to_nat (count0 s) - 1)) as (q & Iq & Eq & B1 & B2); [lia|].
  assert (EPQ : p = q).
  { assert (NN : Sharder.sh_name (fst p) = Sharder.sh_name (fst q)).
    { rewrite En in Eq. unfold columns in Eq. cbn [map] in Eq. injection Eq as X _. exact X. }
    clear - HN Ip Iq NN. induction shards as [|t l IH]; [destruct Ip|].
    cbn [map] in HN. inversion HN as [|? ? Ht HN']; subst. destruct Ip as [-> |Ip], Iq as [-> |Iq]; auto.
    - exfalso. apply Ht. apply in_map_iff. exists q. auto.
    - exfalso. apply Ht. apply in_map_iff. exists p. auto. }
  subst q. exists p. split; [exact Ip|]. split; [exact En|]. lia.
Qed.

Section Web.
  Context {Dat : Type} (F : files Dat) (pfilter : string -> bool).
  Variables (shards : list shseq) (world n : nat) (maxs : option Z) (rot : Z) (shs : nat -> list (list shseq)).
  Hypothesis HP : prepared F shards.
  Hypothesis Ht : (total_samples shards < 2 ^ 51)%Z.
  Hypothesis Hm : match maxs with Some m => (0 < m)%Z | None => True end.
  Hypothesis Hw : 0 < world.
  Hypothesis HS : forall r, r < world -> shard_workers shards (mkWcfg r world n) maxs rot = Ok (shs r).

  Lemma prepared_whole : Forall whole_shard shards.
  Proof.
    destruct HP as (_ & H & _). eapply Forall_impl; [|exact H]. intros p (H1 & H2 & H3).
    assert (E : forall sh, In sh (columns p) -> Sharder.sh_count sh = count0 p).
    { intros sh I. rewrite Forall_forall in H1. pose proof (H1 sh I) as (_ & _ & C). pose proof (H1 (fst p) (or_introl eq_refl)) as (_ & _ & C0).
      unfold count0. rewrite C, C0. f_equal. rewrite <- (map_length base_of), (H2 sh I). apply map_length. }
    split.
    - rewrite Forall_forall in H1. pose proof (H1 (fst p) (or_introl eq_refl)) as (_ & _ & C0). unfold count0. rewrite C0. lia.
    - apply Forall_forall. intros sh I. rewrite Forall_forall in H3. auto.
  Qed.

  Lemma prepared_names : NoDup (map (fun p : shseq => Sharder.sh_name (fst p)) shards).
  Proof.
    destruct HP as (_ & _ & H). rewrite <- (map_map (fun p : shseq => Sharder.sh_name (fst p)) (d_name F)) in H.
    eapply NoDup_map_inv. exact H.
  Qed.

  Lemma subshard_ok r s : r < world -> In s (concat (shs r)) ->
    (0 < count0 s)%Z /\ aligned s /\ exists p, In p shards /\ part_of_shard p s.
  Proof.
    intros Hr Is. pose proof HP as (Hne & _ & _). pose proof prepared_whole as HWh. pose proof prepared_names as HNm.
    pose proof (@all_shs shards world n maxs rot shs Hw HS) as EA.
    pose proof (@shard_all_wellformed shards world n maxs rot _ Hne HWh Ht Hm Hw EA) as WF.
    assert (I2 : exists l, In l (concat (map shs (seq 0 world))) /\ In s l).
    { apply in_concat in Is. destruct Is as (l & Il & Is). exists l. split; [|exact Is].
      apply in_concat. exists (shs r). split; [apply in_map; apply in_seq; lia|exact Il]. }
    destruct I2 as (l & Il & Isl).
    pose proof (proj1 (Forall_forall _ _) (proj1 (Forall_forall _ _) WF l Il) s Isl) as (C & A & _).
    split; [exact C|]. split; [exact A|].
    apply subshard_parent; auto.
    intros row Hrow. destruct (@used_rows shards world n maxs rot shs Hne HWh Ht Hm Hw HS) as (used & U1 & _ & U3).
    apply (sublist_in U1). rewrite U3. unfold all_rows. apply in_flat_map. exists s. split; [|exact Hrow].
    apply in_concat. exists (concat (shs r)). split; [|exact Is]. apply in_map_iff. exists r. split; [reflexivity|apply in_seq; lia].
  Qed.

  Lemma part_col_ok p s : In p shards -> aligned s -> (0 < count0 s)%Z -> part_of_shard p s -> seq_ok F s.
  Proof.
    intros Ip HA HC (En & H1 & H2). pose proof HP as (_ & HF & _).
    pose proof (proj1 (Forall_forall _ _) HF p Ip) as (HF1 & HF2 & HF3).
    unfold seq_ok. apply Forall_forall. intros sh Ish.
    pose proof (proj1 (Forall_forall _ _) HA sh Ish) as [E1 E2].
    assert (J : exists sh', In sh' (columns p) /\ Sharder.sh_name sh' = Sharder.sh_name sh).
    { assert (I : In (Sharder.sh_name sh) (map Sharder.sh_name (columns p))) by (rewrite <- En; apply in_map; exact Ish).
      apply in_map_iff in I. destruct I as (sh' & E & I). eauto. }
    destruct J as (sh' & I' & EN').
    pose proof (proj1 (Forall_forall _ _) HF1 sh' I') as (G1 & G2 & G3).
    pose proof prepared_whole as HWh. pose proof (proj1 (Forall_forall _ _) HWh p Ip) as (_ & W2).
    pose proof (proj1 (Forall_forall _ _) W2 sh' I') as (_ & W3).
    rewrite EN' in G1, G2, G3. unfold col_ok, col_of. cbn [c_ms c_idx c_sh sh_offset sh_count].
    split; [exact G1|]. split; [exact G2|]. split; [reflexivity|].
    rewrite count_of_runs. rewrite E1, E2. lia.
  Qed.

  Lemma part_keys_match p s : In p shards -> aligned s -> (0 < count0 s)%Z -> part_of_shard p s -> keys_match pfilter F s.
  Proof.
    intros Ip HA HC HPt. pose proof (part_col_ok Ip HA HC HPt) as HO. destruct HPt as (En & H1 & H2). pose proof HP as (_ & HF & _).
    pose proof (proj1 (Forall_forall _ _) HF p Ip) as (HF1 & HF2 & HF3).
    intros i Hi. set (j := Z.to_nat (offset0 s) + i).
    pose proof (proj1 (Forall_forall _ _) HF1 (fst p) (or_introl eq_refl)) as (_ & _ & G3).
    assert (Hj : j < length (archive_samples (d_tar F (Sharder.sh_name (fst p))))).
    { unfold j. unfold count0 in *. lia. }
    destruct (nth_error (archive_samples (d_tar F (Sharder.sh_name (fst p)))) j) as [g|] eqn:Eg; [|apply nth_error_None in Eg; lia].
    exists (base_of g). intros c Ic. apply in_map_iff in Ic. destruct Ic as (sh & <- & Ish).
    pose proof (proj1 (Forall_forall _ _) HO sh Ish) as OK. cbn beta in OK.
    pose proof (proj1 (Forall_forall _ _) HA sh Ish) as [E1 E2].
    rewrite (col_samples_nth pfilter i OK). unfold col_of. cbn [c_sh c_ms sh_count sh_offset sh_name].
    rewrite E1, E2. replace (i <? Z.to_nat (count0 s)) with true by (symmetry; apply Nat.ltb_lt; exact Hi).
    assert (J : exists sh', In sh' (columns p) /\ Sharder.sh_name sh' = Sharder.sh_name sh).
    { assert (I : In (Sharder.sh_name sh) (map Sharder.sh_name (columns p))) by (rewrite <- En; apply in_map; exact Ish).
      apply in_map_iff in I. destruct I as (sh' & E & I). eauto. }
    destruct J as (sh' & I' & EN').
    pose proof (HF2 sh' I') as K. rewrite EN' in K. apply (f_equal (fun l => nth_error l j)) in K. rewrite !nth_error_map, Eg in K.
    fold j. destruct (nth_error (archive_samples (d_tar F (Sharder.sh_name sh))) j) as [g'|]; [|discriminate].
    cbn [option_map] in K. injection K as K. cbn [option_map]. rewrite K. eauto.
  Qed.

  Lemma rank_web_ok r : r < world -> web_ok F (shs r).
  Proof.
    intros Hr. pose proof HP as (Hne & HF & HNd). pose proof prepared_whole as HWh. pose proof prepared_names as HNm. split; [|split].
    - eapply (@rank_proper shards world n maxs rot shs); eauto.
    - apply Forall_forall. intros l Il. apply Forall_forall. intros s Is.
      assert (I : In s (concat (shs r))) by (apply in_concat; eauto).
      destruct (subshard_ok Hr I) as (C & A & p & Ip & Q). eapply part_col_ok; eauto.
    - intros s t Is It E. destruct (subshard_ok Hr Is) as (_ & _ & p & Ip & (Ep & _)). destruct (subshard_ok Hr It) as (_ & _ & q & Iq & (Eq & _)).
      rewrite Ep, Eq. do 2 f_equal.
      assert (N1 : d_name F (Sharder.sh_name (fst p)) = d_name F (Sharder.sh_name (fst q))).
      { unfold columns in Ep, Eq. cbn [map] in Ep, Eq. injection Ep as Ep _. injection Eq as Eq _. congruence. }
      clear - HNd Ip Iq N1. induction shards as [|x l IH]; [destruct Ip|].
      cbn [map] in HNd. inversion HNd as [|? ? Hx HN']; subst. destruct Ip as [-> |Ip], Iq as [-> |Iq]; auto.
      + exfalso. apply Hx. apply in_map_iff. exists q. auto.
      + exfalso. apply Hx. apply in_map_iff. exists p. auto.
  Qed.

  Lemma rank_content r s : r < world -> In s (concat (shs r)) -> tar_content F pfilter s = map (tar_row pfilter F) (rows s).
  Proof.
    intros Hr Is. destruct (subshard_ok Hr Is) as (C & A & p & Ip & Q).
    apply tar_content_full; auto.
    - eapply part_col_ok; eauto.
    - eapply part_keys_match; eauto.
    - apply Q.
  Qed.
End Web.
