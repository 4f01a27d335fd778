From Verif Require Import Base Sharder SharderSpec.

Lemma interleave_perm {A} (l r : list A) : Permutation (interleave l r) (l ++ r).
Proof.
  revert r; induction l as [|x l IH]; intros [|y r]; simpl; auto.
  - rewrite app_nil_r. auto.
  - constructor. rewrite IH. apply Permutation_middle.
Qed.

Lemma div2_lt n : 2 < n -> 0 < n / 2 /\ n / 2 < n /\ n - n / 2 < n.
Proof.
  intros H. pose proof (Nat.div_mod n 2 ltac:(lia)). pose proof (Nat.mod_upper_bound n 2 ltac:(lia)).
  lia.
Qed.

Lemma bitrev_fuel_perm fuel l : length l < fuel ->
  exists p, bitrev_fuel fuel l = Some p /\ Permutation p l.
Proof.
  revert l; induction fuel as [|fuel IH]; intros l H; [lia|].
  cbn [bitrev_fuel]. destruct (Nat.leb_spec (length l) 2) as [C|C].
  - exists l; auto.
  - destruct (div2_lt C) as (D1 & D2 & D3).
    set (mid := length l / 2) in *.
    destruct (IH (firstn mid l)) as (a & Ea & Pa). { rewrite firstn_length; lia. }
    destruct (IH (skipn mid l)) as (b & Eb & Pb). { rewrite skipn_length; lia. }
    rewrite Ea, Eb. eexists; split; [reflexivity|].
    rewrite interleave_perm, Pa, Pb, firstn_skipn. reflexivity.
Qed.

Lemma bitrev_perm n : exists p, bitrev n = Some p /\ Permutation p (seq 0 n).
Proof. apply bitrev_fuel_perm. rewrite seq_length. lia. Qed.

Lemma nth_interleave {A} (a b : list A) i d : length a = length b -> i < length a + length b ->
  nth i (interleave a b) d = nth (i / 2) (if Nat.even i then a else b) d.
Proof.
  revert b i; induction a as [|x a IH]; intros [|y b] i L H; simpl in L; try discriminate; simpl in H; [lia|].
  cbn [interleave]. destruct i as [|[|i]].
  - reflexivity.
  - reflexivity.
  - cbn [nth]. rewrite IH by lia.
    assert (E : S (S i) / 2 = S (i / 2)).
    { replace (S (S i)) with (i + 1 * 2) by lia. rewrite Nat.div_add by lia. lia. }
    rewrite E. cbn [Nat.even]. destruct (Nat.even i); reflexivity.
Qed.

Lemma bitreverse_lt k i : bitreverse k i < 2 ^ k.
Proof.
  revert i; induction k as [|k IH]; intros i; cbn [bitreverse]; [simpl; lia|].
  specialize (IH (i / 2)). pose proof (Nat.mod_upper_bound i 2 ltac:(lia)).
  rewrite Nat.pow_succ_r'. assert (i mod 2 = 0 \/ i mod 2 = 1) as [->| ->] by lia; lia.
Qed.

Lemma bitrev_fuel_pow2 k : forall fuel l, length l = 2 ^ k -> length l < fuel ->
  exists p, bitrev_fuel fuel l = Some p /\ length p = 2 ^ k /\
    forall i d, i < 2 ^ k -> nth i p d = nth (bitreverse k i) l d.
Proof.
  induction k as [|k IH]; intros [|fuel] l L H; try lia; cbn [bitrev_fuel].
  - simpl in L. rewrite L. cbn. exists l; repeat split; auto.
    intros i d Hi. assert (i = 0) by lia. subst i. reflexivity.
  - rewrite Nat.pow_succ_r' in L.
    destruct (Nat.leb_spec (length l) 2) as [C|C].
    + assert (H0 : 2 ^ k = 1) by (pose proof (Nat.pow_nonzero 2 k ltac:(lia)); lia).
      exists l; split; [reflexivity|]. split. { rewrite Nat.pow_succ_r'. exact L. }
      assert (k = 0). { destruct k as [|k]; [reflexivity|exfalso]. rewrite Nat.pow_succ_r' in L, H0.
        pose proof (Nat.pow_nonzero 2 k ltac:(lia)); lia. }
      subst k. intros i d Hi. change (2 ^ 1) with 2 in Hi. destruct i as [|[|i]]; [reflexivity|reflexivity|lia].
    + assert (E : length l / 2 = 2 ^ k).
      { rewrite L, Nat.mul_comm, Nat.div_mul; lia. }
      rewrite E.
      pose proof (Nat.pow_nonzero 2 k ltac:(lia)) as Hnz.
      destruct (IH fuel (firstn (2 ^ k) l)) as (a & Ea & La & Na). { rewrite firstn_length; lia. } { rewrite firstn_length; lia. }
      destruct (IH fuel (skipn (2 ^ k) l)) as (b & Eb & Lb & Nb). { rewrite skipn_length; lia. } { rewrite skipn_length; lia. }
      rewrite Ea, Eb. eexists; split; [reflexivity|].
      split. { rewrite (Permutation_length (interleave_perm a b)), app_length, Nat.pow_succ_r'. lia. }
      intros i d Hi. rewrite Nat.pow_succ_r' in Hi.
      rewrite nth_interleave by lia.
      assert (Hi2 : i / 2 < 2 ^ k) by (apply Nat.div_lt_upper_bound; lia).
      cbn [bitreverse].
      pose proof (bitreverse_lt k (i / 2)) as Hlt.
      assert (Hmod : i mod 2 = if Nat.even i then 0 else 1).
      { pose proof (Nat.div_mod i 2 ltac:(lia)). pose proof (Nat.mod_upper_bound i 2 ltac:(lia)).
        destruct (Nat.even i) eqn:Ev.
        - apply Nat.even_spec in Ev. destruct Ev as [m ->]. rewrite Nat.mul_comm, Nat.mod_mul; lia.
        - assert (Od : Nat.odd i = true) by (rewrite <- Nat.negb_even, Ev; reflexivity).
          apply Nat.odd_spec in Od. destruct Od as [m Hm].
          assert (i mod 2 <> 0); [|lia].
          intros Z. apply Nat.mod_divides in Z; [destruct Z as [c Hc]; lia|lia]. }
      rewrite Hmod. destruct (Nat.even i).
      * rewrite Na by lia. rewrite <- (firstn_skipn (2 ^ k) l) at 2.
        rewrite app_nth1; [reflexivity|]. rewrite firstn_length; lia.
      * rewrite Nb by lia. rewrite <- (firstn_skipn (2 ^ k) l) at 2.
        rewrite app_nth2 by (rewrite firstn_length; lia). f_equal. rewrite firstn_length. lia.
Qed.

Lemma bitrev_pow2 k : exists p, bitrev (2 ^ k) = Some p /\ length p = 2 ^ k /\
  forall i, i < 2 ^ k -> nth i p 0 = bitreverse k i.
Proof.
  destruct (@bitrev_fuel_pow2 k (S (2 ^ k)) (seq 0 (2 ^ k))) as (p & E & L & N).
  - rewrite seq_length. lia.
  - rewrite seq_length. lia.
  - exists p. split; [exact E|]. split; [exact L|]. intros i Hi. rewrite (N i 0 Hi).
    rewrite seq_nth; [reflexivity|]. apply bitreverse_lt.
Qed.
