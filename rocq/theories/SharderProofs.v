From Verif Require Import Base PyFloat PyFloatProofs Sharder SharderSpec BitrevProofs.
Local Open Scope Z_scope.

(* ------------------------------------------------------------------ *)
(** ** rows *)

Lemma rows_reshard s a c : rows (reshard s a c)
  = map (fun i => map (fun sh => (sh_name sh, a + Z.of_nat i)) (columns s)) (seq 0 (Z.to_nat c)).
Proof.
  unfold rows, reshard, count0, columns; cbn [fst snd sh_count].
  apply map_ext. intros i. cbn [map sh_name sh_offset]. f_equal.
  rewrite map_map. reflexivity.
Qed.

Lemma rows_length s : length (rows s) = Z.to_nat (count0 s).
Proof. unfold rows. rewrite map_length, seq_length. reflexivity. Qed.

Lemma rows_reshard_app s a c1 c2 : 0 <= c1 -> 0 <= c2 ->
  rows (reshard s a (c1 + c2)) = rows (reshard s a c1) ++ rows (reshard s (a + c1) c2).
Proof.
  intros H1 H2. rewrite !rows_reshard.
  rewrite Z2Nat.inj_add by lia. rewrite seq_app, map_app. f_equal.
  rewrite Nat.add_0_l.
  rewrite <- (Nat.add_0_r (Z.to_nat c1)) at 1. rewrite map_seq_shift.
  apply map_ext. intros i. apply map_ext. intros sh. f_equal. lia.
Qed.

Lemma rows_reshard_nil s a c : c <= 0 -> rows (reshard s a c) = [].
Proof. intros H. rewrite rows_reshard. replace (Z.to_nat c) with 0%nat by lia. reflexivity. Qed.

Lemma rows_whole s : whole_shard s -> rows s = rows (reshard s 0 (count0 s)).
Proof.
  intros [_ H]. rewrite rows_reshard. unfold rows. apply map_ext. intros i.
  apply map_ext_in. intros sh Hin. rewrite Forall_forall in H. destruct (H sh Hin) as [-> _]. reflexivity.
Qed.

Lemma rows_reshard_segment s a b : whole_shard s -> 0 <= a <= b -> b <= count0 s ->
  rows (reshard s a (b - a)) = firstn (Z.to_nat (b - a)) (skipn (Z.to_nat a) (rows s)).
Proof.
  intros W Hab Hb. rewrite (rows_whole W).
  replace (count0 s) with (a + ((b - a) + (count0 s - b))) by lia.
  rewrite rows_reshard_app by lia. rewrite skipn_app, skipn_all2
    by (rewrite rows_length; cbn; lia).
  rewrite rows_length. cbn [count0 reshard fst sh_count].
  replace (Z.to_nat a - Z.to_nat a)%nat with 0%nat by lia. cbn [skipn app]. rewrite Z.add_0_l.
  rewrite rows_reshard_app by lia. rewrite firstn_app.
  rewrite firstn_all2 by (rewrite rows_length; cbn; lia).
  rewrite rows_length. cbn [count0 reshard fst sh_count].
  replace (Z.to_nat (b - a) - Z.to_nat (b - a))%nat with 0%nat by lia. cbn [firstn].
  rewrite app_nil_r. reflexivity.
Qed.

(* ------------------------------------------------------------------ *)
(** ** _split_shard *)

(** the range of inputs for which the float model is claimed: m > 0 and fewer than 2^51 samples *)
Definition max_ok (maxs : option Z) (n : Z) : Prop :=
  match maxs with None => True | Some m => 0 < m /\ n < 2 ^ 51 end.

Lemma slices_concat s (o : nat -> Z) k : (forall i, (i < k)%nat -> o i <= o (S i)) ->
  flat_map rows (map (fun i => reshard s (o i) (o (S i) - o i)) (seq 0 k))
  = rows (reshard s (o 0%nat) (o k - o 0%nat)).
Proof.
  induction k as [|k IH]; intros Hm.
  - cbn. rewrite rows_reshard_nil by lia. reflexivity.
  - rewrite seq_S, map_app, flat_map_app, IH by (intros; apply Hm; lia).
    cbn [map flat_map]. rewrite app_nil_r, Nat.add_0_l.
    assert (M : o 0%nat <= o k).
    { clear IH. assert (G : forall j, (j <= k)%nat -> o 0%nat <= o j).
      { induction j as [|j IHj]; intros Hj; [lia|]. specialize (IHj ltac:(lia)).
        specialize (Hm j ltac:(lia)). lia. } apply G; lia. }
    assert (Hk := Hm k ltac:(lia)).
    replace (o (S k) - o 0%nat) with ((o k - o 0%nat) + (o (S k) - o k)) by lia.
    rewrite rows_reshard_app by lia. f_equal. f_equal. f_equal. lia.
Qed.

Lemma slice_count_le n m : 0 < n < 2 ^ 51 -> 0 < m -> slice_count_of n m <= n.
Proof.
  intros Hn Hm. unfold slice_count_of, py_round, py_div.
  assert (Hn0 : 0 < n) by lia.
  destruct (rnd_spec Hn0 Hm) as [P R].
  set (f := rnd n m) in *.
  pose proof (@rne_err (fnum f) (fden f) P) as E.
  set (r := rne (fnum f) (fden f)) in *. set (a := fnum f) in *. set (d := fden f) in *.
  assert (r <= n); [|lia].
  destruct (Z.le_gt_cases r n) as [C|C]; [exact C|exfalso].
  assert (E1 : 2 * (r * d) <= 2 * a + d) by lia.
  assert (E2 : 2 ^ 53 * (a * m) <= (2 ^ 53 + 1) * (n * d)) by lia.
  assert (E3 : 2 * (r * d * m) <= 2 * (a * m) + d * m) by nia.
  assert (E4 : 2 ^ 54 * (r * d * m) <= 2 * ((2 ^ 53 + 1) * (n * d)) + 2 ^ 53 * (d * m)).
  { change (2 ^ 54) with (2 * 2 ^ 53). nia. }
  assert (E5 : 2 ^ 54 * (r * m) <= 2 * ((2 ^ 53 + 1) * n) + 2 ^ 53 * m).
  { nia. }
  assert (E6 : (n + 1) * m <= r * m) by nia.
  change (2 ^ 54) with 18014398509481984 in *. change (2 ^ 53) with 9007199254740992 in *.
  change (2 ^ 51) with 2251799813685248 in *.
  assert (n * 1 <= n * m) by nia. lia.
Qed.

Lemma slice_offset_mono start f i : 0 < fden f -> 0 < fnum f -> Z.of_nat i < 2 ^ 51 ->
  slice_offset start f i <= slice_offset start f (S i).
Proof.
  intros Hd Hn Hi. unfold slice_offset. rewrite Nat2Z.inj_succ.
  assert (H : 0 <= Z.of_nat i < 2 ^ 51) by lia.
  pose proof (@py_mul_mono f _ Hd Hn H) as M. unfold Z.succ. lia.
Qed.

Lemma slice_offset_0 start f : slice_offset start f 0 = start.
Proof. unfold slice_offset, py_mul, py_int. cbn [Z.of_nat Z.mul]. cbn. lia. Qed.

Lemma split_shard_rows s a b maxs : 0 <= a <= b -> max_ok maxs (b - a) ->
  flat_map rows (split_shard s a b maxs)
  = rows (reshard s a
      match maxs with
      | None => b - a
      | Some m => if py_int_gt (b - a) (rnd (3 * m) 2)
                  then py_int (py_mul (slice_count_of (b - a) m) (py_div (b - a) (slice_count_of (b - a) m)))
                  else b - a
      end).
Proof.
  intros Hab Hok. unfold split_shard. destruct maxs as [m|]; [|cbn; rewrite app_nil_r; reflexivity].
  cbn in Hok. destruct Hok as [Hm Hn].
  destruct (py_int_gt (b - a) (rnd (3 * m) 2)) eqn:Gt; [|cbn; rewrite app_nil_r; reflexivity].
  assert (Hpos : 0 < b - a).
  { unfold py_int_gt in Gt. apply Z.ltb_lt in Gt.
    destruct (@rnd_spec (3 * m) 2 ltac:(lia) ltac:(lia)) as [P _].
    pose proof (@rnd_num_pos (3 * m) 2 ltac:(lia) ltac:(lia)). nia. }
  fold (slice_count_of (b - a) m). cbv zeta.
  set (k := slice_count_of (b - a) m) in *.
  assert (Hk : 1 <= k) by (unfold k, slice_count_of; lia).
  assert (Hkn : k <= b - a) by (apply slice_count_le; lia).
  destruct (@rnd_spec (b - a) k ltac:(lia) ltac:(lia)) as [P _].
  pose proof (@rnd_num_pos (b - a) k ltac:(lia) ltac:(lia)) as Q.
  fold (py_div (b - a) k) in P, Q.
  rewrite (@slices_concat s (slice_offset a (py_div (b - a) k))).
  - rewrite slice_offset_0. unfold slice_offset. rewrite Z2Nat.id by lia.
    f_equal. f_equal. lia.
  - intros i Hi. apply slice_offset_mono; auto.
    change (2 ^ 51) with 2251799813685248 in *. lia.
Qed.

Lemma split_shard_exact s a b maxs : 0 <= a <= b -> max_ok maxs (b - a) -> float_exact maxs (b - a) ->
  flat_map rows (split_shard s a b maxs) = rows (reshard s a (b - a)).
Proof.
  intros H1 H2 H3. rewrite split_shard_rows by assumption. destruct maxs as [m|]; [|reflexivity].
  cbn in H3. destruct (py_int_gt _ _); [|reflexivity]. rewrite H3; reflexivity.
Qed.

(** In general the split keeps everything except possibly the very last sample. *)
Lemma split_shard_near s a b maxs : 0 <= a <= b -> max_ok maxs (b - a) ->
  flat_map rows (split_shard s a b maxs) = rows (reshard s a (b - a)) \/
  flat_map rows (split_shard s a b maxs) = rows (reshard s a (b - 1 - a)).
Proof.
  intros H1 H2. rewrite split_shard_rows by assumption. destruct maxs as [m|]; [|auto].
  destruct H2 as [Hm Hn].
  destruct (py_int_gt (b - a) (rnd (3 * m) 2)) eqn:Gt; [|auto].
  assert (Hpos : 0 < b - a).
  { unfold py_int_gt in Gt. apply Z.ltb_lt in Gt.
    destruct (@rnd_spec (3 * m) 2 ltac:(lia) ltac:(lia)) as [P _].
    pose proof (@rnd_num_pos (3 * m) 2 ltac:(lia) ltac:(lia)). nia. }
  assert (Hk : 0 < slice_count_of (b - a) m) by (unfold slice_count_of; lia).
  destruct (@py_mul_div_near (b - a) _ (conj Hpos Hn) Hk) as [E|E]; rewrite E; [left; reflexivity|].
  right. do 2 f_equal. lia.
Qed.

(* ------------------------------------------------------------------ *)
(** ** find_shard *)

Definition csum (l : list shseq) : Z := zsum (map count0 l).

Lemma csum_app a b : csum (a ++ b) = csum a + csum b.
Proof. unfold csum. rewrite map_app, zsum_app. reflexivity. Qed.
Lemma csum_cons a b : csum (a :: b) = count0 a + csum b.
Proof. reflexivity. Qed.

Lemma csum_nonneg l : Forall (fun s => 0 <= count0 s) l -> 0 <= csum l.
Proof. induction 1; rewrite ?csum_cons; unfold csum in *; cbn in *; lia. Qed.

Lemma find_shard_spec shards : forall cum target, shards <> [] -> target <= cum + csum shards ->
  exists sk f rest, find_shard shards cum target = Some (sk, f, f :: rest, cum + csum sk) /\
    shards = sk ++ f :: rest /\ target <= cum + csum sk + count0 f /\
    (sk = [] \/ cum + csum sk < target).
Proof.
  induction shards as [|s shards IH]; intros cum target Hne Ht; [congruence|].
  cbn [find_shard]. rewrite csum_cons in Ht.
  destruct (Z.ltb_spec (cum + count0 s) target) as [C|C].
  - destruct shards as [|s' shards'].
    + cbn in Ht. lia.
    + destruct (IH (cum + count0 s) target ltac:(discriminate) ltac:(lia))
        as (sk & f & rest & E & Es & B & D).
      rewrite E. exists (s :: sk), f, rest. rewrite csum_cons.
      rewrite Z.add_assoc. split; [reflexivity|]. split; [cbn; congruence|]. split; [lia|].
      right. destruct D as [->|D]; cbn in *; lia.
  - exists [], s, shards. change (csum []) with 0. rewrite Z.add_0_r. repeat split; auto.
Qed.

Lemma find_shard_compose shards : forall cum o o' sk f sfx c, o <= o' ->
  find_shard shards cum o = Some (sk, f, sfx, c) ->
  find_shard shards cum o' =
    match find_shard sfx c o' with
    | Some (sk2, f2, sfx2, c2) => Some (sk ++ sk2, f2, sfx2, c2)
    | None => None
    end.
Proof.
  induction shards as [|s shards IH]; intros cum o o' sk f sfx c Ho E; cbn [find_shard] in E; [discriminate|].
  destruct (Z.ltb_spec (cum + count0 s) o) as [C|C].
  - destruct (find_shard shards (cum + count0 s) o) as [[[[sk1 f1] sfx1] c1]|] eqn:E1; [|discriminate].
    injection E as <- <- <- <-.
    cbn [find_shard]. replace (cum + count0 s <? o') with true by (symmetry; apply Z.ltb_lt; lia).
    rewrite (IH _ _ _ _ _ _ _ Ho E1).
    destruct (find_shard sfx1 c1 o') as [[[[sk2 f2] sfx2] c2]|]; reflexivity.
  - injection E as <- <- <- <-. destruct (find_shard (s :: shards) cum o') as [[[[? ?] ?] ?]|]; reflexivity.
Qed.

(* ------------------------------------------------------------------ *)
(** ** _split_shards is a list of independent pieces *)

Definition piece (shards : list shseq) (maxs : option Z) (o o' : Z) : result (list shseq) :=
  match split_shards shards [o; o'] maxs with
  | Ok [p] => Ok p
  | Ok _ => Err OtherError
  | Err e => Err e
  end.

Fixpoint adj (o : Z) (l : list Z) : list (Z * Z) :=
  match l with [] => [] | o' :: l' => (o, o') :: adj o' l' end.

Fixpoint incr (o : Z) (l : list Z) : Prop :=
  match l with [] => True | o' :: l' => o <= o' /\ incr o' l' end.

Lemma split_loop_pieces shards maxs : forall offs o sk st sfx c, incr o offs ->
  find_shard shards 0 o = Some (sk, st, sfx, c) ->
  split_loop sfx st c (o - c) offs maxs = sequence (map (fun p => piece shards maxs (fst p) (snd p)) (adj o offs)).
Proof.
  induction offs as [|o' offs IH]; intros o sk st sfx c Hi E; [reflexivity|].
  destruct Hi as [Ho Hi]. cbn [split_loop adj map sequence fst snd].
  unfold piece at 1. unfold split_shards. rewrite E. cbn [split_loop].
  pose proof (find_shard_compose Ho E) as FC.
  destruct (find_shard sfx c o') as [[[[sk2 f2] sfx2] c2]|] eqn:E2; [|reflexivity].
  rewrite (IH _ _ _ _ _ Hi FC).
  cbn [bind]. destruct (sequence _); reflexivity.
Qed.

Lemma split_shards_pieces shards maxs o offs : incr o offs -> offs <> [] -> 
  split_shards shards (o :: offs) maxs = sequence (map (fun p => piece shards maxs (fst p) (snd p)) (adj o offs)).
Proof.
  intros Hi Hne. unfold split_shards.
  destruct (find_shard shards 0 o) as [[[[sk st] sfx] c]|] eqn:E.
  - apply (split_loop_pieces maxs Hi E).
  - destruct offs as [|o' offs]; [congruence|]. cbn [adj map sequence fst snd].
    unfold piece, split_shards. rewrite E. reflexivity.
Qed.

Lemma rows_whole_length s : whole_shard s -> Z.of_nat (length (rows s)) = count0 s.
Proof. intros [H _]. rewrite rows_length. lia. Qed.

Lemma all_rows_app a b : all_rows (a ++ b) = all_rows a ++ all_rows b.
Proof. apply flat_map_app. Qed.

Lemma all_rows_length l : Forall whole_shard l -> Z.of_nat (length (all_rows l)) = csum l.
Proof.
  induction 1 as [|s l W H IH]; [reflexivity|].
  cbn [all_rows flat_map]. rewrite app_length, csum_cons. fold (all_rows l).
  pose proof (rows_whole_length W). lia.
Qed.

Lemma flat_map_split_whole maxs l : Forall whole_shard l ->
  (forall n, 0 <= n <= csum l -> max_ok maxs n /\ float_exact maxs n) ->
  flat_map rows (flat_map (fun s => split_shard s (offset0 s) (count0 s) maxs) l) = all_rows l.
Proof.
  induction 1 as [|s l W H IH]; intros Hex; [reflexivity|].
  assert (H0 : 0 <= csum l).
  { apply csum_nonneg. eapply Forall_impl; [|exact H]. intros a [? _]; auto. }
  assert (Hc : 0 <= count0 s) by (destruct W; auto).
  rewrite csum_cons in Hex.
  cbn [flat_map all_rows]. rewrite flat_map_app. f_equal.
  - assert (O : offset0 s = 0). { destruct W as [_ W]. inversion W; subst. tauto. }
    rewrite O. rewrite split_shard_exact; try lia.
    + rewrite Z.sub_0_r. symmetry. apply rows_whole; auto.
    + apply Hex; lia.
    + apply Hex; lia.
  - apply IH. intros n Hn. apply Hex. lia.
Qed.

Lemma skipn_all_app {A} (a b : list A) n : (length a <= n)%nat -> skipn n (a ++ b) = skipn (n - length a) b.
Proof. intros H. rewrite skipn_app, skipn_all2 by lia. reflexivity. Qed.

Lemma firstn_in_app {A} (a b : list A) n : (n <= length a)%nat -> firstn n (a ++ b) = firstn n a.
Proof. intros H. rewrite firstn_app. replace (n - length a)%nat with 0%nat by lia. cbn. apply app_nil_r. Qed.

Lemma firstn_past_app {A} (a b : list A) n : (length a <= n)%nat -> firstn n (a ++ b) = a ++ firstn (n - length a) b.
Proof. intros H. rewrite firstn_app, firstn_all2 by lia. reflexivity. Qed.

Definition seg {A} (R : list A) (o o' : Z) : list A := firstn (Z.to_nat (o' - o)) (skipn (Z.to_nat o) R).

(** A piece contains exactly the rows numbered o .. o'-1 of the dataset. *)
Lemma piece_rows shards maxs o o' : shards <> [] -> Forall whole_shard shards ->
  0 <= o <= o' -> o' <= csum shards ->
  (forall n, 0 <= n <= csum shards -> max_ok maxs n /\ float_exact maxs n) ->
  exists p, piece shards maxs o o' = Ok p /\ all_rows p = seg (all_rows shards) o o'.
Proof.
  intros Hne HW Ho Ho' Hex.
  destruct (@find_shard_spec shards 0 o Hne ltac:(lia)) as (sk & st & rest & E & Es & B & D).
  rewrite Z.add_0_l in *.
  assert (HWs := HW). rewrite Es in HWs. apply Forall_app in HWs. destruct HWs as [Wsk Wst].
  inversion Wst as [|? ? Wst1 Wrest]; subst x l.
  assert (Hco : csum sk <= o) by (destruct D as [->|D]; [cbn; lia | lia]).
  assert (Htot : csum shards = csum sk + (count0 st + csum rest)).
  { rewrite Es, csum_app, csum_cons. reflexivity. }
  assert (Nsk : 0 <= csum sk).
  { apply csum_nonneg. eapply Forall_impl; [|exact Wsk]. intros a [? _]; auto. }
  assert (Nrest : 0 <= csum rest).
  { apply csum_nonneg. eapply Forall_impl; [|exact Wrest]. intros a [? _]; auto. }
  assert (Nst : 0 <= count0 st) by (destruct Wst1; auto).
  destruct (@find_shard_spec (st :: rest) (csum sk) o' ltac:(discriminate)) as (sk2 & e & rest2 & E2 & Es2 & B2 & D2).
  { rewrite csum_cons. lia. }
  unfold piece, split_shards. rewrite E. cbn [split_loop]. rewrite E2. cbn [bind].
  eexists. split; [reflexivity|].
  (* the remaining rows after o *)
  assert (Lsk := all_rows_length Wsk).
  assert (Lst := rows_whole_length Wst1).
  assert (RS : skipn (Z.to_nat o) (all_rows shards)
               = skipn (Z.to_nat (o - csum sk)) (rows st) ++ all_rows rest).
  { rewrite Es, all_rows_app, skipn_all_app by lia.
    cbn [all_rows flat_map]. rewrite skipn_app. fold (all_rows rest).
    replace (Z.to_nat o - length (all_rows sk))%nat with (Z.to_nat (o - csum sk)) by lia.
    f_equal. replace (Z.to_nat (o - csum sk) - length (rows st))%nat with 0%nat by lia. reflexivity. }
  unfold seg. rewrite RS.
  destruct sk2 as [|s0 middle].
  - (* same shard *)
    cbn [app] in Es2. injection Es2 as <- <-. change (csum []) with 0 in *. rewrite Z.add_0_r in *.
    unfold all_rows at 1.
    assert (Hn : 0 <= o' - csum sk - (o - csum sk) <= csum shards) by lia.
    rewrite split_shard_exact; [|lia|apply Hex; exact Hn|apply Hex; exact Hn].
    rewrite rows_reshard_segment; [|assumption|lia|lia].
    rewrite firstn_in_app by (rewrite skipn_length; lia). do 2 f_equal. lia.
  - cbn [app] in Es2. injection Es2 as <- Es2.
    rewrite Es2 in Wrest. apply Forall_app in Wrest. destruct Wrest as [Wm We].
    inversion We as [|? ? We1 Wrest2]; subst x l.
    assert (Nm : 0 <= csum middle).
    { apply csum_nonneg. eapply Forall_impl; [|exact Wm]. intros a [? _]; auto. }
    assert (Nr2 : 0 <= csum rest2).
    { apply csum_nonneg. eapply Forall_impl; [|exact Wrest2]. intros a [? _]; auto. }
    assert (Ne : 0 <= count0 e) by (destruct We1; auto).
    assert (Htot2 : csum rest = csum middle + (count0 e + csum rest2)).
    { rewrite Es2, csum_app, csum_cons. reflexivity. }
    destruct D2 as [D2|D2]; [discriminate|].
    rewrite csum_cons in *.
    assert (Oe : offset0 e = 0). { destruct We1 as [_ W]. inversion W; subst. tauto. }
    unfold all_rows at 1. rewrite !flat_map_app.
    assert (S1 : flat_map rows (if o - csum sk <? count0 st
                   then split_shard st (o - csum sk) (count0 st) maxs else [])
                 = skipn (Z.to_nat (o - csum sk)) (rows st)).
    { destruct (Z.ltb_spec (o - csum sk) (count0 st)) as [C|C].
      - assert (Hn : 0 <= count0 st - (o - csum sk) <= csum shards) by lia.
        rewrite split_shard_exact; [|lia|apply Hex; exact Hn|apply Hex; exact Hn].
        rewrite rows_reshard_segment; [|assumption|lia|lia].
        apply firstn_all2. rewrite skipn_length. lia.
      - cbn. symmetry. apply skipn_all2. lia. }
    rewrite S1, flat_map_split_whole; [|assumption|intros n Hn; apply Hex; lia].
    rewrite Oe.
    assert (Hn : 0 <= o' - (csum sk + (count0 st + csum middle)) - 0 <= csum shards) by lia.
    rewrite split_shard_exact; [|lia|apply Hex; exact Hn|apply Hex; exact Hn].
    rewrite rows_reshard_segment; [|assumption|lia|lia].
    cbn [Z.to_nat skipn].
    assert (Lm := all_rows_length Wm).
    rewrite firstn_past_app by (rewrite skipn_length; lia).
    f_equal. rewrite Es2, all_rows_app. rewrite skipn_length.
    rewrite firstn_past_app by lia. f_equal.
    assert (Le := rows_whole_length We1).
    cbn [all_rows flat_map]. rewrite firstn_in_app by lia.
    f_equal. lia.
Qed.
