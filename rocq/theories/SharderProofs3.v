From Verif Require Import Base PyFloat PyFloatProofs Sharder SharderSpec SharderProofs SharderProofs2.
Local Open Scope Z_scope.

Lemma rnd_half_exact x : 0 < x < 2 ^ 53 -> fnum (rnd x 2) * 2 = x * fden (rnd x 2).
Proof.
  intros Hx. unfold rnd. destruct (Z.leb_spec x 0) as [C|_]; [lia|].
  pose proof (@fexp_lower x 2 ltac:(lia) ltac:(lia)) as L. cbv zeta in L.
  set (e := fexp x 2) in *.
  assert (He : e <= 51).
  { destruct (Z.leb_spec 0 e) as [E|E]; [|lia].
    destruct (Z.le_gt_cases e 51) as [C|C]; [exact C|exfalso].
    assert (2 ^ 52 <= 2 ^ e) by (apply Z.pow_le_mono_r; lia).
    change (2 ^ 53) with (2 * 2 ^ 52) in Hx. lia. }
  destruct (Z.leb_spec 0 (52 - e)) as [S|S]; [|lia]. cbn [fnum fden].
  assert (E2 : 2 ^ (52 - e) = 2 ^ (51 - e) * 2).
  { replace (52 - e) with (Z.succ (51 - e)) by lia. rewrite Z.pow_succ_r by lia. lia. }
  rewrite E2. rewrite Z.mul_assoc. rewrite rne_exact by lia. lia.
Qed.

Lemma split_gt n m : 0 < m -> n < 2 ^ 51 -> py_int_gt n (rnd (3 * m) 2) = true -> 3 * m < 2 * n.
Proof.
  intros Hm Hn Gt. unfold py_int_gt in Gt. apply Z.ltb_lt in Gt.
  destruct (@rnd_spec (3 * m) 2 ltac:(lia) ltac:(lia)) as [P R].
  change (2 ^ 51) with 2251799813685248 in *.
  destruct (Z.lt_ge_cases (3 * m) (2 ^ 53)) as [C|C].
  - pose proof (@rnd_half_exact (3 * m) ltac:(lia)). nia.
  - exfalso. change (2 ^ 53) with 9007199254740992 in *.
    set (A := fnum (rnd (3 * m) 2)) in *. set (D := fden (rnd (3 * m) 2)) in *.
    assert (9007199254740992 * (3 * m * D - A * 2) <= 3 * m * D) by lia.
    assert (A * 2 < 2 * 2251799813685248 * D) by nia.
    assert (9007199254740992 * (3 * m * D) - 9007199254740992 * (2 * 2251799813685248 * D) <= 3 * m * D) by lia.
    nia.
Qed.

Lemma slice_count_bounds n m : 0 < m -> 0 < n < 2 ^ 51 -> 3 * m < 2 * n ->
  let k := slice_count_of n m in 2 <= k /\ 2 * n <= m * (2 * k + 1).
Proof.
  intros Hm Hn Hlt. cbv zeta. unfold slice_count_of, py_round, py_div.
  destruct (@rnd_spec n m ltac:(lia) Hm) as [P R].
  set (a := fnum (rnd n m)) in *. set (d := fden (rnd n m)) in *.
  pose proof (@rne_err a d P) as E. set (r := rne a d) in *.
  assert (R1 : 2 ^ 53 * (n * d - a * m) <= n * d) by lia.
  assert (R2 : 2 ^ 53 * (n * d) <= 2 ^ 53 * (a * m) + n * d) by lia.
  assert (E1 : 2 * a <= (2 * r + 1) * d) by lia.
  change (2 ^ 53) with 9007199254740992 in *. change (2 ^ 51) with 2251799813685248 in *.
  assert (E2 : 2 * (a * m) <= (2 * r + 1) * d * m) by nia.
  assert (E3 : 9007199254740992 * (2 * n * d) <= 9007199254740992 * ((2 * r + 1) * d * m) + 2 * n * d) by lia.
  assert (E4 : 9007199254740992 * (2 * n) <= 9007199254740992 * ((2 * r + 1) * m) + 2 * n) by nia.
  assert (E5 : 2 * n <= m * (2 * r + 1)) by lia.
  assert (r >= 2) by nia.
  rewrite Z.max_l by lia. lia.
Qed.

(** every slice has fewer than 1.25*m + 2 samples *)
Lemma slice_len_bound n m start i : 0 < m -> 0 < n < 2 ^ 51 -> 3 * m < 2 * n ->
  let k := slice_count_of n m in
  Z.of_nat i < k ->
  4 * (slice_offset start (py_div n k) (S i) - slice_offset start (py_div n k) i) < 5 * m + 8.
Proof.
  intros Hm Hn Hlt k Hi. destruct (slice_count_bounds Hm Hn Hlt) as [K1 K2]. fold k in K1, K2.
  assert (K3 : k <= n) by (apply slice_count_le; lia).
  destruct (@rnd_spec n k ltac:(lia) ltac:(lia)) as [P R].
  pose proof (@rnd_num_pos n k ltac:(lia) ltac:(lia)) as FP.
  unfold slice_offset, py_mul, py_int, py_div.
  set (A := fnum (rnd n k)) in *. set (D := fden (rnd n k)) in *.
  rewrite Nat2Z.inj_succ. set (z := Z.of_nat i) in *. assert (Hz : 0 <= z) by lia.
  unfold Z.succ.
  destruct (@rnd_spec ((z + 1) * A) D ltac:(nia) P) as [P1 R1].
  set (g1 := rnd ((z + 1) * A) D) in *.
  pose proof (Z.mul_div_le (fnum g1) (fden g1) P1) as Q1.
  set (c1 := fnum g1 / fden g1) in *.
  assert (S1 : 2 ^ 53 * (c1 * D) <= (2 ^ 53 + 1) * ((z + 1) * A)).
  { assert (2 ^ 53 * (fnum g1 * D) <= (2 ^ 53 + 1) * ((z + 1) * A * fden g1)) by lia.
    assert (fden g1 * c1 * D <= fnum g1 * D) by nia.
    change (2 ^ 53) with 9007199254740992 in *. nia. }
  set (c0 := fnum (rnd (z * A) D) / fden (rnd (z * A) D)).
  assert (S0 : (2 ^ 53 - 1) * (z * A) <= 2 ^ 53 * ((c0 + 1) * D)).
  { destruct (Z.eq_dec z 0) as [Z0|Z0].
    - unfold c0. rewrite Z0. cbn [Z.mul]. change (rnd 0 D) with (mkf 0 1). cbn [fnum fden].
      change (0 / 1) with 0. change (2 ^ 53) with 9007199254740992. lia.
    - destruct (@rnd_spec (z * A) D ltac:(nia) P) as [P0 R0]. unfold c0. clear c0.
      set (g0 := rnd (z * A) D) in *.
      pose proof (Z.mul_succ_div_gt (fnum g0) (fden g0) P0) as Q0.
      set (c0 := fnum g0 / fden g0) in *.
      assert (2 ^ 53 * (z * A * fden g0) - z * A * fden g0 <= 2 ^ 53 * (fnum g0 * D)) by lia.
      assert (fnum g0 * D <= fden g0 * (c0 + 1) * D) by nia.
      change (2 ^ 53) with 9007199254740992 in *. nia. }
  assert (S2 : 2 ^ 53 * ((c1 - c0 - 1) * D) <= 2 ^ 53 * A + (2 * z + 1) * A) by lia.
  assert (R3 : 2 ^ 53 * (A * k) <= (2 ^ 53 + 1) * (n * D)) by lia.
  change (2 ^ 53) with 9007199254740992 in *. change (2 ^ 51) with 2251799813685248 in *.
  set (c := c1 - c0) in *.
  assert (AK : 8 * (A * k) <= 9 * (n * D)) by lia.
  (* multiply by k *)
  assert (M1 : 9007199254740992 * ((c - 1) * D * k) <= 9007199254740992 * (A * k) + (2 * z + 1) * (A * k)).
  { apply (Z.mul_le_mono_nonneg_r _ _ k ltac:(lia)) in S2. lia. }
  assert (M2 : 8 * ((2 * z + 1) * (A * k)) <= 2 * k * (9 * (n * D))).
  { assert (0 <= A * k) by (apply Z.mul_nonneg_nonneg; lia).
    assert ((2 * z + 1) * (A * k) <= 2 * k * (A * k)) by (apply Z.mul_le_mono_nonneg_r; lia).
    assert (2 * k * (8 * (A * k)) <= 2 * k * (9 * (n * D))) by (apply Z.mul_le_mono_nonneg_l; lia). lia. }
  assert (M3 : 8 * 9007199254740992 * ((c - 1) * k) * D <= (8 * 9007199254740993 * n + 18 * (k * n)) * D) by lia.
  apply (Z.mul_le_mono_pos_r _ _ D P) in M3.
  assert (kn : k * n <= k * 2251799813685248) by (apply Z.mul_le_mono_nonneg_l; lia).
  assert (M6 : 16 * ((c - 1) * k) <= 8 * (m * (2 * k + 1)) + 4 + 9 * k) by lia.
  assert (M7 : m * 2 <= m * k) by (apply Z.mul_le_mono_nonneg_l; lia).
  assert (M8 : k * (16 * (c - 1)) <= k * (20 * m + 11)) by lia.
  apply (Z.mul_le_mono_pos_l _ _ k ltac:(lia)) in M8.
  replace (start + c1 - (start + c0)) with c by (unfold c; lia).
  lia.
Qed.

Lemma reshard_aligned s o c : aligned (reshard s o c).
Proof.
  unfold aligned, reshard, columns, offset0, count0; cbn [fst snd sh_offset sh_count].
  constructor; [cbn; auto|]. apply Forall_forall. intros x Hx. apply in_map_iff in Hx.
  destruct Hx as (y & <- & _). cbn; auto.
Qed.

Lemma split_shard_aligned s a b maxs : Forall aligned (split_shard s a b maxs).
Proof.
  unfold split_shard. destruct maxs as [m|]; [destruct (py_int_gt _ _)|];
  try (constructor; [apply reshard_aligned|constructor]).
  apply Forall_forall. intros x Hx. apply in_map_iff in Hx. destruct Hx as (i & <- & _). apply reshard_aligned.
Qed.

Lemma split_shard_len s a b m : 0 <= a <= b -> 0 < m -> b - a < 2 ^ 51 ->
  Forall (fun p => 4 * count0 p < 6 * m + 8) (split_shard s a b (Some m)).
Proof.
  intros Hab Hm Hn. unfold split_shard.
  destruct (py_int_gt (b - a) (rnd (3 * m) 2)) eqn:Gt.
  - pose proof (split_gt Hm Hn Gt) as L.
    apply Forall_forall. intros x Hx. apply in_map_iff in Hx. destruct Hx as (i & <- & Hi).
    apply in_seq in Hi. cbn [count0 reshard fst sh_count].
    fold (slice_count_of (b - a) m) in *. cbv zeta.
    pose proof (@slice_len_bound (b - a) m a i Hm ltac:(lia) L ltac:(cbv zeta; lia)). cbv zeta in *. lia.
  - constructor; [|constructor]. cbn [count0 reshard fst sh_count].
    unfold py_int_gt in Gt. apply Z.ltb_ge in Gt.
    destruct (@rnd_spec (3 * m) 2 ltac:(lia) ltac:(lia)) as [P R].
    set (A := fnum (rnd (3 * m) 2)) in *. set (D := fden (rnd (3 * m) 2)) in *.
    set (n := b - a) in *.
    assert (2 ^ 53 * (A * 2 - 3 * m * D) <= 3 * m * D) by lia.
    change (2 ^ 53) with 9007199254740992 in *. change (2 ^ 51) with 2251799813685248 in *.
    destruct (Z.lt_ge_cases m 2251799813685248) as [C|C]; [|lia].
    assert (9007199254740992 * (2 * n) <= 9007199254740993 * (3 * m)) by nia. lia.
Qed.

Lemma piece_all (Q : shseq -> Prop) shards maxs o o' p :
  Forall whole_shard shards -> shards <> [] -> 0 <= o <= o' -> o' <= csum shards ->
  (forall s a b, 0 <= a <= b -> b <= csum shards -> Forall Q (split_shard s a b maxs)) ->
  piece shards maxs o o' = Ok p -> Forall Q p.
Proof.
  intros HW Hne Ho Ho' HQ E.
  destruct (@find_shard_spec shards 0 o Hne ltac:(lia)) as (sk & st & rest & E1 & Es & B & D).
  rewrite Z.add_0_l in *.
  assert (NN : forall l, Forall whole_shard l -> 0 <= csum l) by (intros; apply csum_whole_nonneg; auto).
  assert (HWs := HW). rewrite Es in HWs. apply Forall_app in HWs. destruct HWs as [Wsk Wst].
  inversion Wst as [|? ? Wst1 Wrest]; subst x l.
  assert (Hco : csum sk <= o) by (destruct D as [->|D]; [cbn; lia | lia]).
  assert (Htot : csum shards = csum sk + (count0 st + csum rest)).
  { rewrite Es, csum_app, csum_cons. reflexivity. }
  pose proof (NN _ Wsk). pose proof (NN _ Wrest). assert (0 <= count0 st) by (destruct Wst1; auto).
  destruct (@find_shard_spec (st :: rest) (csum sk) o' ltac:(discriminate)) as (sk2 & e & rest2 & E2 & Es2 & B2 & D2).
  { rewrite csum_cons. lia. }
  unfold piece, split_shards in E. rewrite E1 in E. cbn [split_loop] in E. rewrite E2 in E. cbn [bind] in E.
  injection E as <-.
  destruct sk2 as [|s0 middle].
  - change (csum []) with 0 in *. apply HQ; lia.
  - cbn [app] in Es2. injection Es2 as <- Es2.
    rewrite Es2 in Wrest. apply Forall_app in Wrest. destruct Wrest as [Wm We].
    inversion We as [|? ? We1 Wrest2]; subst x l.
    pose proof (NN _ Wm). pose proof (NN _ Wrest2). assert (0 <= count0 e) by (destruct We1; auto).
    assert (Htot2 : csum rest = csum middle + (count0 e + csum rest2)).
    { rewrite Es2, csum_app, csum_cons. reflexivity. }
    destruct D2 as [D2|D2]; [discriminate|]. rewrite csum_cons in *.
    assert (Oe : offset0 e = 0). { destruct We1 as [_ W]. inversion W; subst. tauto. }
    apply Forall_app; split; [|apply Forall_app; split].
    + destruct (Z.ltb_spec (o - csum sk) (count0 st)); [apply HQ; lia|constructor].
    + apply Forall_forall. intros x Hx. apply in_flat_map in Hx. destruct Hx as (s & Hs & Hx).
      rewrite Forall_forall in Wm. assert (Ws := Wm s Hs).
      assert (Os : offset0 s = 0). { destruct Ws as [_ W]. inversion W; subst. tauto. }
      assert (count0 s <= csum middle).
      { apply in_split in Hs. destruct Hs as (l1 & l2 & ->). rewrite csum_app, csum_cons.
        assert (0 <= csum l1). { apply NN. apply Forall_forall. intros y Hy. apply Wm. apply in_or_app; auto. }
        assert (0 <= csum l2). { apply NN. apply Forall_forall. intros y Hy. apply Wm. apply in_or_app; right; right; auto. }
        lia. }
      assert (0 <= count0 s) by (destruct Ws; auto).
      assert (F := HQ s (offset0 s) (count0 s) ltac:(lia) ltac:(lia)).
      rewrite Forall_forall in F. apply F, Hx.
    + apply HQ; lia.
Qed.

Lemma sequence_Forall {A} (Q : A -> Prop) (l : list (result A)) ll :
  sequence l = Ok ll -> (forall a, In (Ok a) l -> Q a) -> Forall Q ll.
Proof.
  revert ll; induction l as [|[a|e] l IH]; intros ll E H; cbn in E.
  - injection E as <-. constructor.
  - destruct (sequence l) eqn:El; [|discriminate]. injection E as <-.
    constructor; [apply H; left; auto|]. apply IH; auto. intros b Hb. apply H. right; auto.
  - discriminate.
Qed.

Lemma shard_all_wellformed shards world n maxs rot ll :
  shards <> [] -> Forall whole_shard shards -> total_samples shards < 2 ^ 51 ->
  match maxs with Some m => 0 < m | None => True end -> (0 < world)%nat ->
  shard_all_ranks shards world n maxs rot = Ok ll ->
  Forall (Forall (fun s => 0 < count0 s /\ aligned s /\ max_len_ok maxs s)) ll.
Proof.
  intros Hne HW Ht Hm Hw E. rewrite shard_all_closed in E by (apply csum_whole_nonneg; auto).
  set (G := (Nat.max 1 n * world)%nat) in *.
  assert (HG : (0 < G)%nat) by (unfold G; nia).
  assert (Ht2 : csum shards < 2 ^ 53).
  { unfold total_samples in Ht. unfold csum.
    change (2 ^ 51) with 2251799813685248 in *. change (2 ^ 53) with 9007199254740992 in *. lia. }
  eapply sequence_Forall; [exact E|]. intros p Hp. apply in_map_iff in Hp.
  destruct Hp as (g & Eg & Hg). apply in_seq in Hg.
  unfold worker_piece in Eg.
  destruct (piece shards maxs (P_ shards G rot g) (P_ shards G rot (S g))) as [q|] eqn:Ep; [|discriminate].
  cbn [bind] in Eg. injection Eg as <-.
  pose proof (@P_bounds shards rot G HW Ht2 HG g ltac:(lia)).
  pose proof (@P_bounds shards rot G HW Ht2 HG (S g) ltac:(lia)).
  pose proof (@P_step shards rot G HW g ltac:(lia)).
  assert (F : Forall (fun s => aligned s /\ max_len_ok maxs s) q).
  { eapply piece_all; [exact HW|exact Hne| | |  |exact Ep]; try lia.
    intros s a b Hab Hb. apply Forall_and.
    - apply split_shard_aligned.
    - unfold max_len_ok. destruct maxs as [m|]; [|apply Forall_forall; auto].
      apply split_shard_len; auto. unfold csum in Hb. unfold total_samples in Ht. lia. }
  apply Forall_forall. intros s Hs. unfold keep_nonempty in Hs. apply filter_In in Hs. destruct Hs as [Hs1 Hs2].
  rewrite Forall_forall in F. specialize (F s Hs1). apply Z.ltb_lt in Hs2. tauto.
Qed.

Lemma sublist_refl {A} (l : list A) : sublist l l.
Proof. induction l; [constructor|apply sub_keep; auto]. Qed.
Lemma sublist_app {A} (a b c d : list A) : sublist a b -> sublist c d -> sublist (a ++ c) (b ++ d).
Proof. induction 1; intros H2; cbn; [exact H2|apply sub_skip; auto|apply sub_keep; auto]. Qed.
Lemma sublist_nil {A} (l : list A) : sublist [] l.
Proof. induction l; [constructor|apply sub_skip; auto]. Qed.

Lemma split_shard_sub s a b maxs : 0 <= a <= b -> max_ok maxs (b - a) ->
  sublist (all_rows (split_shard s a b maxs)) (all_rows (split_shard s a b None)).
Proof.
  intros H1 H2. unfold all_rows. rewrite (@split_shard_exact s a b None) by (auto; exact I).
  destruct (split_shard_near s H1 H2) as [->| ->]; [apply sublist_refl|].
  destruct (Z.eq_dec a b) as [->|].
  - rewrite (@rows_reshard_nil s b) by lia. apply sublist_nil.
  - replace (b - a) with ((b - 1 - a) + 1) by lia. rewrite rows_reshard_app by lia.
    rewrite <- (app_nil_r (rows _)) at 1. apply sublist_app; [apply sublist_refl|apply sublist_nil].
Qed.

Lemma piece_sub shards maxs o o' :
  Forall whole_shard shards -> shards <> [] -> 0 <= o <= o' -> o' <= csum shards ->
  (forall n, 0 <= n <= csum shards -> max_ok maxs n) ->
  exists p q, piece shards maxs o o' = Ok p /\ piece shards None o o' = Ok q /\
    sublist (all_rows p) (all_rows q).
Proof.
  intros HW Hne Ho Ho' HM.
  destruct (@find_shard_spec shards 0 o Hne ltac:(lia)) as (sk & st & rest & E1 & Es & B & D).
  rewrite Z.add_0_l in *.
  assert (NN : forall l, Forall whole_shard l -> 0 <= csum l) by (intros; apply csum_whole_nonneg; auto).
  assert (HWs := HW). rewrite Es in HWs. apply Forall_app in HWs. destruct HWs as [Wsk Wst].
  inversion Wst as [|? ? Wst1 Wrest]; subst x l.
  assert (Hco : csum sk <= o) by (destruct D as [->|D]; [cbn; lia | lia]).
  assert (Htot : csum shards = csum sk + (count0 st + csum rest)).
  { rewrite Es, csum_app, csum_cons. reflexivity. }
  pose proof (NN _ Wsk). pose proof (NN _ Wrest). assert (0 <= count0 st) by (destruct Wst1; auto).
  destruct (@find_shard_spec (st :: rest) (csum sk) o' ltac:(discriminate)) as (sk2 & e & rest2 & E2 & Es2 & B2 & D2).
  { rewrite csum_cons. lia. }
  unfold piece, split_shards. rewrite E1. cbn [split_loop]. rewrite E2. cbn [bind].
  do 2 eexists. split; [reflexivity|]. split; [reflexivity|].
  destruct sk2 as [|s0 middle].
  - change (csum []) with 0 in *. apply split_shard_sub; [lia|apply HM; lia].
  - cbn [app] in Es2. injection Es2 as <- Es2.
    rewrite Es2 in Wrest. apply Forall_app in Wrest. destruct Wrest as [Wm We].
    inversion We as [|? ? We1 Wrest2]; subst x l.
    pose proof (NN _ Wm). pose proof (NN _ Wrest2). assert (0 <= count0 e) by (destruct We1; auto).
    assert (Htot2 : csum rest = csum middle + (count0 e + csum rest2)).
    { rewrite Es2, csum_app, csum_cons. reflexivity. }
    destruct D2 as [D2|D2]; [discriminate|]. rewrite csum_cons in *.
    assert (Oe : offset0 e = 0). { destruct We1 as [_ W]. inversion W; subst. tauto. }
    rewrite !all_rows_app. apply sublist_app; [|apply sublist_app].
    + destruct (Z.ltb_spec (o - csum sk) (count0 st)); [apply split_shard_sub; [lia|apply HM; lia]|apply sublist_refl].
    + assert (Hmid : 0 <= csum middle <= csum shards) by lia. clear - Wm Hmid HM.
      revert Hmid. induction Wm as [|s l Ws Wl IH]; intros Hmid; [apply sub_nil|].
      rewrite csum_cons in Hmid. pose proof (csum_whole_nonneg Wl).
      assert (0 <= count0 s) by (destruct Ws; auto).
      assert (Os : offset0 s = 0). { destruct Ws as [_ W]. inversion W; subst. tauto. }
      cbn [flat_map]. rewrite !all_rows_app. apply sublist_app; [|apply IH; lia].
      apply split_shard_sub; [lia|apply HM; lia].
    + apply split_shard_sub; [lia|apply HM; lia].
Qed.

Lemma pieces_sub shards maxs rot G : Forall whole_shard shards -> shards <> [] ->
  csum shards < 2 ^ 53 -> (0 < G)%nat ->
  (forall n, 0 <= n <= csum shards -> max_ok maxs n) ->
  forall n a, (a + n <= G)%nat ->
  exists ll ll0, sequence (map (worker_piece shards maxs rot G) (seq a n)) = Ok ll /\
    sequence (map (worker_piece shards None rot G) (seq a n)) = Ok ll0 /\
    Forall2 (fun p q => sublist (all_rows p) (all_rows q)) ll ll0.
Proof.
  intros HW Hne Ht HG HM. induction n as [|n IH]; intros a Ha; cbn [seq map sequence].
  - exists [], []; auto.
  - pose proof (@P_bounds shards rot G HW Ht HG a ltac:(lia)).
    pose proof (@P_bounds shards rot G HW Ht HG (S a) ltac:(lia)).
    pose proof (@P_step shards rot G HW a ltac:(lia)).
    destruct (@piece_sub shards maxs (P_ shards G rot a) (P_ shards G rot (S a)) HW Hne ltac:(lia) ltac:(lia) HM)
      as (p & q & Ep & Eq & S).
    destruct (IH (Datatypes.S a) ltac:(lia)) as (ll & ll0 & E1 & E2 & F).
    unfold worker_piece at 1 3. rewrite Ep, Eq. cbn [bind]. rewrite E1, E2.
    do 2 eexists. split; [reflexivity|]. split; [reflexivity|]. constructor; [|exact F].
    rewrite !all_rows_filter. exact S.
Qed.

Lemma shard_max_sublist shards world n rot m :
  shards <> [] -> Forall whole_shard shards -> total_samples shards < 2 ^ 51 -> (0 < world)%nat -> 0 < m ->
  exists ll ll0, shard_all_ranks shards world n (Some m) rot = Ok ll /\
    shard_all_ranks shards world n None rot = Ok ll0 /\
    Forall2 (fun p q => sublist (all_rows p) (all_rows q)) ll ll0.
Proof.
  intros Hne HW Ht Hw Hm. rewrite !shard_all_closed by (apply csum_whole_nonneg; auto).
  assert (Ht2 : csum shards < 2 ^ 53).
  { unfold total_samples in Ht. unfold csum.
    change (2 ^ 51) with 2251799813685248 in *. change (2 ^ 53) with 9007199254740992 in *. lia. }
  apply pieces_sub; auto; [nia|].
  intros k Hk. cbn [max_ok]. split; [exact Hm|].
  unfold total_samples in Ht. unfold csum in Hk. lia.
Qed.
