From Verif Require Import Base PyFloat PyFloatProofs Sharder SharderSpec BitrevProofs SharderProofs.
Local Open Scope Z_scope.

(* ------------------------------------------------------------------ *)
(** ** permute_counts *)

Lemma fold_upd_other (ps : list (nat * Z)) : forall acc j d, ~ In j (map fst ps) ->
  nth j (fold_left (fun acc p => upd acc (fst p) (snd p)) ps acc) d = nth j acc d.
Proof.
  induction ps as [|[i v] ps IH]; intros acc j d H; [reflexivity|].
  cbn [fold_left fst snd]. cbn in H. rewrite IH by tauto. apply nth_upd_other. tauto.
Qed.

Lemma fold_upd_length (ps : list (nat * Z)) : forall acc,
  length (fold_left (fun acc p => upd acc (fst p) (snd p)) ps acc) = length acc.
Proof. induction ps as [|[i v] ps IH]; intros acc; [reflexivity|]. cbn. rewrite IH. apply upd_length. Qed.

Lemma fold_upd_nth (p : list nat) : forall (old : list Z) acc, length p = length old -> NoDup p ->
  (forall j, In j p -> (j < length acc)%nat) ->
  forall i d, (i < length p)%nat ->
  nth (nth i p 0%nat) (fold_left (fun acc p => upd acc (fst p) (snd p)) (combine p old) acc) d = nth i old d.
Proof.
  induction p as [|x p IH]; intros [|v old] acc L ND B i d Hi; cbn in L, Hi; try lia.
  inversion ND as [|? ? Hx ND']; subst. cbn [combine fold_left fst snd].
  destruct i as [|i]; cbn [nth].
  - rewrite fold_upd_other.
    + apply nth_upd_same. apply B. left; auto.
    + intros Hin. apply in_map_iff in Hin. destruct Hin as ([a b] & Ea & Hin). cbn in Ea. subst a.
      apply in_combine_l in Hin. contradiction.
  - apply IH; auto; try lia. intros j Hj. rewrite upd_length. apply B. right; auto.
Qed.

Lemma permute_length p old : length (permute_counts p old) = length old.
Proof. unfold permute_counts. rewrite fold_upd_length, repeat_length. reflexivity. Qed.

Lemma permute_nth p old i d : Permutation p (seq 0 (length old)) -> (i < length old)%nat ->
  nth (nth i p 0%nat) (permute_counts p old) d = nth i old d.
Proof.
  intros P Hi. assert (L := Permutation_length P). rewrite seq_length in L.
  apply fold_upd_nth; auto; try lia.
  - eapply Permutation_NoDup; [symmetry; exact P|apply seq_NoDup].
  - intros j Hj. apply (Permutation_in j P) in Hj. apply in_seq in Hj. rewrite repeat_length. lia.
Qed.

Lemma map_nth_seq {A} (l : list A) d : map (fun i => nth i l d) (seq 0 (length l)) = l.
Proof.
  induction l as [|x l IH]; [reflexivity|]. cbn [length seq map nth]. f_equal.
  rewrite <- IH at 2. rewrite <- seq_shift, map_map. reflexivity.
Qed.

Lemma permute_perm p old : Permutation p (seq 0 (length old)) -> Permutation (permute_counts p old) old.
Proof.
  intros P. rewrite <- (map_nth_seq (permute_counts p old) 0), permute_length.
  rewrite <- (Permutation_map (fun i => nth i (permute_counts p old) 0) P).
  apply Permutation_refl'. 
  assert (L := Permutation_length P). rewrite seq_length in L.
  transitivity (map (fun i => nth i old 0) (seq 0 (length old))); [|apply map_nth_seq].
  transitivity (map (fun i => nth i (permute_counts p old) 0) (map (fun i => nth i p 0%nat) (seq 0 (length p)))).
  { rewrite map_nth_seq. reflexivity. }
  rewrite L, map_map. apply map_ext_in. intros i Hi. apply in_seq in Hi. apply permute_nth; [exact P|lia].
Qed.

(* ------------------------------------------------------------------ *)
(** ** counts_linear *)

Lemma rot_perm (G : nat) (rot : Z) : (0 < G)%nat ->
  Permutation (map (fun g => (Z.of_nat g - rot + Z.of_nat G) mod Z.of_nat G) (seq 0 G))
              (map Z.of_nat (seq 0 G)).
Proof.
  intros HG. apply NoDup_Permutation_bis.
  - assert (forall b n, (b + n <= G)%nat ->
      NoDup (map (fun g => (Z.of_nat g - rot + Z.of_nat G) mod Z.of_nat G) (seq b n))) as X.
    { intros b n. revert b. induction n as [|n IH]; intros b Hb; cbn [seq map]; constructor.
      - intros Hin. apply in_map_iff in Hin. destruct Hin as (g & E & Hin). apply in_seq in Hin.
        assert (Hz : (Z.of_nat g - Z.of_nat b) mod Z.of_nat G = 0).
        { replace (Z.of_nat g - Z.of_nat b) with
            ((Z.of_nat g - rot + Z.of_nat G) - (Z.of_nat b - rot + Z.of_nat G)) by lia.
          rewrite Zminus_mod, E, Z.sub_diag. apply Z.mod_0_l. lia. }
        rewrite Z.mod_small in Hz by lia. lia.
      - apply IH. lia. }
    apply X. lia.
  - rewrite !map_length, !seq_length. lia.
  - intros x Hx. apply in_map_iff in Hx. destruct Hx as (g & <- & Hg).
    apply in_map_iff. exists (Z.to_nat ((Z.of_nat g - rot + Z.of_nat G) mod Z.of_nat G)).
    pose proof (Z.mod_pos_bound (Z.of_nat g - rot + Z.of_nat G) (Z.of_nat G) ltac:(lia)).
    split; [lia|]. apply in_seq. lia.
Qed.

Lemma zsum_threshold b e n : 0 <= e ->
  zsum (map (fun x => if x <? e then b + 1 else b) (map Z.of_nat (seq 0 n))) = b * Z.of_nat n + Z.min (Z.of_nat n) e.
Proof.
  intros He. induction n as [|n IH]; [cbn; lia|].
  rewrite seq_S, !map_app, zsum_app, IH. cbn [map zsum fold_right]. rewrite Nat.add_0_l.
  destruct (Z.ltb_spec (Z.of_nat n) e); lia.
Qed.

Lemma py_int_div_nonneg a b : 0 <= a -> 0 < b -> 0 <= py_int (py_div a b).
Proof.
  intros Ha Hb. unfold py_int, py_div. destruct (Z.eq_dec a 0) as [->|].
  - cbn. lia.
  - destruct (@rnd_spec a b ltac:(lia) Hb). pose proof (@rnd_num_nonneg a b ltac:(lia) Hb).
    apply Z.div_pos; lia.
Qed.

Lemma counts_linear_length total G rot : length (counts_linear total G rot) = Z.to_nat G.
Proof. unfold counts_linear. rewrite map_length, seq_length. reflexivity. Qed.

Lemma counts_linear_nth total G rot i : (i < G)%nat ->
  nth i (counts_linear total (Z.of_nat G) rot) 0 =
  py_int (py_div total (Z.of_nat G)) +
  (if (Z.of_nat i - rot) mod Z.of_nat G <? total mod Z.of_nat G then 1 else 0).
Proof.
  intros Hi. unfold counts_linear.
  set (f := fun g : nat => _).
  rewrite (nth_indep _ 0 (f 0%nat)) by (rewrite map_length, seq_length; lia).
  rewrite map_nth, seq_nth by lia. unfold f. rewrite Nat.add_0_l.
  replace ((Z.of_nat i - rot + Z.of_nat G) mod Z.of_nat G) with ((Z.of_nat i - rot) mod Z.of_nat G).
  - destruct (_ <? _); lia.
  - rewrite <- (Z_mod_plus_full (Z.of_nat i - rot) 1 (Z.of_nat G)). f_equal. lia.
Qed.

Lemma counts_linear_nonneg total G rot : 0 <= total -> (0 < G)%nat ->
  Forall (fun c => 0 <= c) (counts_linear total (Z.of_nat G) rot).
Proof.
  intros Ht HG. unfold counts_linear. apply Forall_forall. intros x Hx. apply in_map_iff in Hx.
  destruct Hx as (g & <- & _). pose proof (@py_int_div_nonneg total (Z.of_nat G) Ht ltac:(lia)).
  destruct (_ <? _); lia.
Qed.

Lemma counts_linear_two total G rot : 0 <= total < 2 ^ 53 -> (0 < G)%nat ->
  Forall (fun c => c = total / Z.of_nat G \/ c = total / Z.of_nat G + 1) (counts_linear total (Z.of_nat G) rot).
Proof.
  intros Ht HG. unfold counts_linear. apply Forall_forall. intros x Hx. apply in_map_iff in Hx.
  destruct Hx as (g & <- & _). rewrite py_int_div_floor by lia. destruct (_ <? _); lia.
Qed.

Lemma counts_linear_sum total G rot : 0 <= total < 2 ^ 53 -> (0 < G)%nat ->
  zsum (counts_linear total (Z.of_nat G) rot) = total.
Proof.
  intros Ht HG. unfold counts_linear. rewrite Nat2Z.id.
  rewrite py_int_div_floor by lia.
  pose proof (Z.mod_pos_bound total (Z.of_nat G) ltac:(lia)) as B.
  rewrite <- (map_map (fun g => (Z.of_nat g - rot + Z.of_nat G) mod Z.of_nat G)
     (fun x => if x <? total mod Z.of_nat G then total / Z.of_nat G + 1 else total / Z.of_nat G)).
  rewrite (zsum_Permutation (Permutation_map _ (rot_perm rot HG))).
  rewrite zsum_threshold by lia. rewrite Z.min_r by lia.
  pose proof (Z.div_mod total (Z.of_nat G) ltac:(lia)). lia.
Qed.

(* ------------------------------------------------------------------ *)
(** ** prefix sums *)

Lemma prefix_sums_length l : forall c, length (prefix_sums c l) = S (length l).
Proof. induction l as [|x l IH]; intros c; cbn; [reflexivity|]. rewrite IH. reflexivity. Qed.

Lemma prefix_sums_nth l : forall c g, (g <= length l)%nat ->
  nth g (prefix_sums c l) 0 = c + zsum (firstn g l).
Proof.
  induction l as [|x l IH]; intros c [|g] H; cbn in H; try lia; cbn [prefix_sums nth firstn].
  - cbn. lia.
  - cbn. lia.
  - rewrite IH by lia. rewrite zsum_cons. lia.
Qed.

Lemma zsum_firstn_S l g : (g < length l)%nat -> zsum (firstn (S g) l) = zsum (firstn g l) + nth g l 0.
Proof.
  revert g; induction l as [|x l IH]; intros [|g] H; cbn in H; try lia.
  - cbn. lia.
  - cbn [firstn nth] in *. rewrite !zsum_cons. 
    change (zsum (x :: firstn (S g) l)) with (x + zsum (firstn (S g) l)).
    rewrite IH by lia. lia.
Qed.

(* ------------------------------------------------------------------ *)
(** ** shard_workers in closed form *)

(** offset of the first sample of global worker g *)
Definition P_ (shards : list shseq) (G : nat) (rot : Z) (g : nat) : Z :=
  match bitrev G with
  | Some p => zsum (firstn g (permute_counts p (counts_linear (csum shards) (Z.of_nat G) rot)))
  | None => 0
  end.

Definition keep_nonempty (l : list shseq) := filter (fun s => 0 <? count0 s) l.

Definition worker_piece (shards : list shseq) (maxs : option Z) (rot : Z) (G g : nat) : result (list shseq) :=
  bind (piece shards maxs (P_ shards G rot g) (P_ shards G rot (S g))) (fun p => Ok (keep_nonempty p)).

Lemma adj_map_seq (f : nat -> Z) a n : adj (f a) (map f (seq (S a) n)) = map (fun g => (f g, f (S g))) (seq a n).
Proof. revert a; induction n as [|n IH]; intros a; cbn [seq map adj]; [reflexivity|]. f_equal. apply IH. Qed.

Lemma incr_map_seq (f : nat -> Z) a n : (forall g, (a <= g < a + n)%nat -> f g <= f (S g)) ->
  incr (f a) (map f (seq (S a) n)).
Proof.
  revert a; induction n as [|n IH]; intros a H; cbn [seq map incr]; [exact I|]. split.
  - apply H. lia.
  - apply IH. intros g Hg. apply H. lia.
Qed.

Lemma sequence_bind_map {A B} (f : A -> B) (l : list (result A)) :
  bind (sequence l) (fun ll => Ok (map f ll)) = sequence (map (fun r => bind r (fun a => Ok (f a))) l).
Proof.
  induction l as [|[a|e] l IH]; cbn; auto. rewrite <- IH.
  destruct (sequence l); reflexivity.
Qed.

Lemma sequence_app {A} (a b : list (result A)) :
  sequence (a ++ b) = bind (sequence a) (fun x => bind (sequence b) (fun y => Ok (x ++ y))).
Proof.
  induction a as [|[x|e] a IH]; cbn; auto.
  - destruct (sequence b); reflexivity.
  - rewrite IH. destruct (sequence a); cbn; auto. destruct (sequence b); reflexivity.
Qed.

Lemma sequence_concat {A} (l : list (list (result A))) :
  bind (sequence (map sequence l)) (fun x => Ok (concat x)) = sequence (concat l).
Proof.
  induction l as [|x l IH]; cbn; auto. rewrite sequence_app, <- IH.
  destruct (sequence x); cbn; auto. destruct (sequence (map sequence l)); reflexivity.
Qed.

Lemma concat_seq nw : forall world a, concat (map (fun r => seq (r * nw) nw) (seq a world)) = seq (a * nw) (world * nw).
Proof.
  induction world as [|w IH]; intros a; cbn [seq map concat]; [reflexivity|].
  rewrite IH. cbn [Nat.mul]. rewrite seq_app. f_equal. f_equal. lia.
Qed.

Lemma P_mono shards G rot g : 0 <= csum shards -> (g < G)%nat -> P_ shards G rot g <= P_ shards G rot (S g).
Proof.
  intros Ht Hg. unfold P_. destruct (bitrev_perm G) as (p & -> & Pp).
  rewrite zsum_firstn_S by (rewrite permute_length, counts_linear_length; lia).
  assert (Pm : Permutation (permute_counts p (counts_linear (csum shards) (Z.of_nat G) rot))
     (counts_linear (csum shards) (Z.of_nat G) rot)).
  { apply permute_perm. rewrite counts_linear_length, Nat2Z.id. exact Pp. }
  pose proof (@counts_linear_nonneg (csum shards) G rot Ht ltac:(lia)) as N.
  rewrite <- Pm in N. rewrite Forall_forall in N.
  assert (0 <= nth g (permute_counts p (counts_linear (csum shards) (Z.of_nat G) rot)) 0); [|lia].
  apply N. apply nth_In. rewrite permute_length, counts_linear_length; lia.
Qed.

Lemma shard_workers_closed shards r world n maxs rot : 0 <= csum shards -> (r < world)%nat ->
  let nw := Nat.max 1 n in
  shard_workers shards (mkWcfg r world n) maxs rot
  = sequence (map (worker_piece shards maxs rot (nw * world)) (seq (r * nw) nw)).
Proof.
  intros Ht Hr nw. unfold shard_workers, eff_workers; cbn [w_nworkers w_world w_rank]. fold nw.
  set (G := (nw * world)%nat).
  assert (Hnw : (0 < nw)%nat) by (unfold nw; lia).
  assert (HG : (r * nw + nw <= G)%nat) by (unfold G; nia).
  destruct (Nat.eqb_spec G 0) as [C|_]; [lia|].
  unfold global_offsets. fold G.
  assert (E : forall g, (g <= G)%nat -> match bitrev G with
     | Some p => nth g (prefix_sums 0 (permute_counts p (counts_linear (csum shards) (Z.of_nat G) rot))) 0
     | None => 0 end = P_ shards G rot g).
  { intros g Hg. unfold P_. destruct (bitrev_perm G) as (p & -> & Pp).
    rewrite prefix_sums_nth by (rewrite permute_length, counts_linear_length; lia). lia. }
  destruct (bitrev_perm G) as (p & Eb & Pp). rewrite Eb in *.
  fold (csum shards).
  set (goffs := prefix_sums 0 _) in *.
  assert (Lg : length goffs = S G).
  { unfold goffs. rewrite prefix_sums_length, permute_length, counts_linear_length. lia. }
  assert (Hloc : slice (r * nw) ((r + 1) * nw + 1) goffs = map (P_ shards G rot) (seq (r * nw) (S nw))).
  { unfold slice. rewrite <- (map_nth_seq goffs 0) at 1. rewrite skipn_map, firstn_map.
    rewrite Lg.
    replace (S G) with (r * nw + (S nw + (G - r * nw - nw)))%nat by lia.
    rewrite seq_app, skipn_app, skipn_all2 by (rewrite seq_length; lia).
    rewrite seq_length, Nat.sub_diag. cbn [skipn app].
    rewrite seq_app, firstn_app, firstn_all2 by (rewrite seq_length; lia).
    rewrite seq_length.
    replace ((r + 1) * nw + 1 - r * nw - S nw)%nat with 0%nat by lia.
    cbn [firstn]. rewrite app_nil_r. rewrite Nat.add_0_l.
    apply map_ext_in. intros g Hg. apply in_seq in Hg. apply E. lia. }
  rewrite Hloc. rewrite map_length, seq_length.
  destruct (Nat.eqb_spec (S nw) (nw + 1)) as [_|C]; [|lia].
  cbn [seq map].
  rewrite split_shards_pieces.
  - rewrite adj_map_seq, map_map, sequence_bind_map, map_map. reflexivity.
  - apply incr_map_seq. intros g Hg. apply P_mono; [exact Ht|lia].
  - destruct nw; [lia|]. discriminate.
Qed.

Lemma shard_all_closed shards world n maxs rot : 0 <= csum shards ->
  let G := (Nat.max 1 n * world)%nat in
  shard_all_ranks shards world n maxs rot = sequence (map (worker_piece shards maxs rot G) (seq 0 G)).
Proof.
  intros Ht G. unfold shard_all_ranks. set (nw := Nat.max 1 n) in *.
  rewrite map_ext_in with (g := fun r => sequence (map (worker_piece shards maxs rot G) (seq (r * nw) nw))).
  - rewrite <- (map_map (fun r => map (worker_piece shards maxs rot G) (seq (r * nw) nw)) sequence).
    rewrite sequence_concat.
    rewrite <- (map_map (fun r => seq (r * nw) nw) (map (worker_piece shards maxs rot G))).
    rewrite <- concat_map, concat_seq. cbn [Nat.mul]. unfold G. rewrite (Nat.mul_comm nw). reflexivity.
  - intros r Hr. apply in_seq in Hr. apply (@shard_workers_closed shards r world n maxs rot Ht). lia.
Qed.

(* ------------------------------------------------------------------ *)
(** ** Results *)

Lemma all_rows_filter l : all_rows (keep_nonempty l) = all_rows l.
Proof.
  induction l as [|s l IH]; [reflexivity|]. cbn [keep_nonempty filter].
  destruct (Z.ltb_spec 0 (count0 s)) as [C|C]; cbn [all_rows flat_map]; fold (all_rows l).
  - fold (all_rows (filter (fun s => 0 <? count0 s) l)). fold (keep_nonempty l). rewrite IH. reflexivity.
  - fold (keep_nonempty l). rewrite IH. unfold rows. replace (Z.to_nat (count0 s)) with 0%nat by lia. reflexivity.
Qed.

Lemma csum_whole_nonneg shards : Forall whole_shard shards -> 0 <= csum shards.
Proof. intros H. apply csum_nonneg. eapply Forall_impl; [|exact H]. intros a [? _]; auto. Qed.

Section Results.
  Variables (shards : list shseq) (rot : Z) (maxs : option Z) (G : nat).
  Hypothesis Hne : shards <> [].
  Hypothesis HW : Forall whole_shard shards.
  Hypothesis Htot : csum shards < 2 ^ 53.
  Hypothesis HG : (0 < G)%nat.

  Let R := all_rows shards.
  Let P := P_ shards G rot.

  Lemma P_0 : P 0 = 0.
  Proof. unfold P, P_. destruct (bitrev G); reflexivity. Qed.

  Lemma P_G : P G = csum shards.
  Proof.
    unfold P, P_. destruct (bitrev_perm G) as (p & -> & Pp).
    rewrite firstn_all2 by (rewrite permute_length, counts_linear_length; lia).
    rewrite (zsum_Permutation (@permute_perm p (counts_linear (csum shards) (Z.of_nat G) rot)
       ltac:(rewrite counts_linear_length, Nat2Z.id; exact Pp))).
    apply counts_linear_sum; auto. split; [apply csum_whole_nonneg; auto|exact Htot].
  Qed.

  Lemma P_step g : (g < G)%nat -> P g <= P (S g).
  Proof. intros. apply P_mono; auto. apply csum_whole_nonneg; auto. Qed.

  Lemma P_le a b : (a <= b <= G)%nat -> P a <= P b.
  Proof.
    intros [H1 H2]. induction H1 as [|b H1 IH]; [lia|]. pose proof (@P_step b ltac:(lia)).
    specialize (IH ltac:(lia)). lia.
  Qed.

  Lemma P_bounds g : (g <= G)%nat -> 0 <= P g <= csum shards.
  Proof.
    intros H. pose proof (@P_le 0 g ltac:(lia)). pose proof (@P_le g G ltac:(lia)).
    rewrite P_0 in *. rewrite P_G in *. lia.
  Qed.

  Lemma seg_length g :  (g < G)%nat -> Z.of_nat (length (seg R (P g) (P (S g)))) = P (S g) - P g.
  Proof using HW Htot HG.
    intros Hg. unfold seg. rewrite firstn_length, skipn_length.
    pose proof (@P_bounds g ltac:(lia)). pose proof (@P_bounds (S g) ltac:(lia)).
    pose proof (P_step Hg). pose proof (all_rows_length HW). unfold R. lia.
  Qed.

  (** the worker at position bitrev[i] gets floor(total/G) samples, plus one iff
      (i - rot) mod G < total mod G *)
  Lemma P_diff i p : bitrev G = Some p -> (i < G)%nat ->
    P (S (nth i p 0%nat)) - P (nth i p 0%nat) = csum shards / Z.of_nat G +
      (if (Z.of_nat i - rot) mod Z.of_nat G <? csum shards mod Z.of_nat G then 1 else 0).
  Proof using HW Htot HG.
    intros Eb Hi. destruct (bitrev_perm G) as (p' & Eb' & Pp). rewrite Eb in Eb'. injection Eb' as <-.
    assert (Hin : (nth i p 0%nat < G)%nat).
    { assert (L := Permutation_length Pp). rewrite seq_length in L.
      assert (H : In (nth i p 0%nat) p) by (apply nth_In; lia).
      apply (Permutation_in _ Pp) in H. apply in_seq in H. lia. }
    unfold P, P_. rewrite Eb.
    rewrite zsum_firstn_S by (rewrite permute_length, counts_linear_length; lia).
    rewrite permute_nth.
    - rewrite counts_linear_nth by lia. rewrite py_int_div_floor; [lia| |lia].
      split; [apply csum_whole_nonneg; auto|exact Htot].
    - rewrite counts_linear_length, Nat2Z.id. exact Pp.
    - rewrite counts_linear_length, Nat2Z.id. exact Hi.
  Qed.
  Hypothesis Hex : forall n, 0 <= n <= csum shards -> max_ok maxs n /\ float_exact maxs n.

  Lemma worker_piece_ok g : (g < G)%nat ->
    exists p, worker_piece shards maxs rot G g = Ok p /\ all_rows p = seg R (P g) (P (S g)).
  Proof.
    intros Hg. pose proof (@P_bounds g ltac:(lia)). pose proof (@P_bounds (S g) ltac:(lia)).
    pose proof (P_step Hg).
    destruct (@piece_rows shards maxs (P g) (P (S g)) Hne HW ltac:(lia) ltac:(lia) Hex) as (p & E & Er).
    unfold worker_piece. unfold P in E. rewrite E. cbn [bind]. eexists; split; [reflexivity|].
    rewrite all_rows_filter. exact Er.
  Qed.

  Lemma pieces_ok a n : (a + n <= G)%nat ->
    exists ll, sequence (map (worker_piece shards maxs rot G) (seq a n)) = Ok ll /\
      map all_rows ll = map (fun g => seg R (P g) (P (S g))) (seq a n).
  Proof.
    revert a; induction n as [|n IH]; intros a H; cbn [seq map sequence].
    - exists []; auto.
    - destruct (@worker_piece_ok a ltac:(lia)) as (p & -> & Ep).
      destruct (IH (S a) ltac:(lia)) as (ll & -> & El).
      exists (p :: ll). split; [reflexivity|]. cbn [map]. rewrite Ep, El. reflexivity.
  Qed.

  Lemma segs_concat n : (n <= G)%nat ->
    concat (map (fun g => seg R (P g) (P (S g))) (seq 0 n)) = firstn (Z.to_nat (P n)) R.
  Proof.
    induction n as [|n IH]; intros H.
    - cbn. rewrite P_0. reflexivity.
    - rewrite seq_S, map_app, concat_app, IH by lia. cbn [map concat]. rewrite app_nil_r, Nat.add_0_l.
      unfold seg. pose proof (@P_bounds n ltac:(lia)). pose proof (@P_step n ltac:(lia)).
      replace (Z.to_nat (P (S n))) with (Z.to_nat (P n) + Z.to_nat (P (S n) - P n))%nat by lia.
      generalize (Z.to_nat (P (S n) - P n)) as k. generalize (Z.to_nat (P n)) as m.
      clear. generalize R as l. intros l m; revert l. induction m as [|m IHm]; intros l k; [reflexivity|].
      destruct l as [|x l]; cbn; [rewrite firstn_nil; reflexivity|]. rewrite IHm. reflexivity.
  Qed.

  Lemma all_ok : exists ll, sequence (map (worker_piece shards maxs rot G) (seq 0 G)) = Ok ll /\
    length ll = G /\ concat (map all_rows ll) = R /\
    (forall g, (g < G)%nat -> all_rows (nth g ll []) = seg R (P g) (P (S g))).
  Proof.
    destruct (@pieces_ok 0 G ltac:(lia)) as (ll & E & Em). exists ll. split; [exact E|].
    assert (L : length ll = G).
    { rewrite <- (map_length all_rows), Em, map_length, seq_length. reflexivity. }
    split; [exact L|]. split.
    - rewrite Em, segs_concat, P_G by lia. apply firstn_all2. unfold R.
      pose proof (all_rows_length HW). lia.
    - intros g Hg.
      transitivity (nth g (map all_rows ll) []).
      + change (@nil (list (nat * Z))) with (all_rows []). rewrite map_nth. reflexivity.
      + rewrite Em. rewrite (nth_indep _ [] (seg R (P 0) (P 1))) by (rewrite map_length, seq_length; lia).
        rewrite map_nth with (f := fun g => seg R (P g) (P (S g))). rewrite seq_nth by lia. reflexivity.
  Qed.

End Results.

(** C01 *)
Lemma shard_partition shards world n rot :
  shards <> [] -> Forall whole_shard shards -> total_samples shards < 2 ^ 53 -> (0 < world)%nat ->
  exists ll, shard_all_ranks shards world n None rot = Ok ll /\
    length ll = (world * Nat.max 1 n)%nat /\
    concat (map all_rows ll) = all_rows shards.
Proof.
  intros Hne HW Ht Hw. rewrite shard_all_closed by (apply csum_whole_nonneg; auto).
  destruct (@all_ok shards rot None (Nat.max 1 n * world) Hne HW Ht ltac:(nia)) as (ll & E & L & C & _).
  { intros m Hm. split; exact I. }
  exists ll. rewrite E. repeat split; auto. lia.
Qed.

Lemma shard_partition_max shards world n rot m :
  shards <> [] -> Forall whole_shard shards -> total_samples shards < 2 ^ 51 -> (0 < world)%nat -> 0 < m ->
  (forall k, 0 <= k <= total_samples shards -> float_exact (Some m) k) ->
  exists ll, shard_all_ranks shards world n (Some m) rot = Ok ll /\
    length ll = (world * Nat.max 1 n)%nat /\
    concat (map all_rows ll) = all_rows shards.
Proof.
  intros Hne HW Ht Hw Hm Hex. rewrite shard_all_closed by (apply csum_whole_nonneg; auto).
  assert (Ht2 : csum shards < 2 ^ 53).
  { unfold total_samples in Ht. unfold csum. 
    change (2 ^ 51) with 2251799813685248 in *. change (2 ^ 53) with 9007199254740992 in *. lia. }
  destruct (@all_ok shards rot (Some m) (Nat.max 1 n * world) Hne HW Ht2 ltac:(nia)) as (ll & E & L & C & _).
  { intros k Hk. split; [|apply Hex; exact Hk]. cbn [max_ok]. split; [exact Hm|].
    unfold total_samples in Ht. unfold csum in Hk. lia. }
  exists ll. rewrite E. repeat split; auto. lia.
Qed.

(** C03 *)
Lemma shard_reshape shards w1 n1 w2 n2 maxs rot : Forall whole_shard shards ->
  (w1 * Nat.max 1 n1 = w2 * Nat.max 1 n2)%nat ->
  shard_all_ranks shards w1 n1 maxs rot = shard_all_ranks shards w2 n2 maxs rot.
Proof.
  intros HW E. rewrite !shard_all_closed by (apply csum_whole_nonneg; auto).
  rewrite (Nat.mul_comm _ w1), (Nat.mul_comm _ w2), E. reflexivity.
Qed.

(** C02 *)
Lemma two_values_count b (l : list Z) : Forall (fun c => c = b \/ c = b + 1) l ->
  Z.of_nat (length (filter (fun c => c =? b + 1) l)) = zsum l - b * Z.of_nat (length l).
Proof.
  induction 1 as [|x l Hx H IH]; [cbn; lia|].
  cbn [filter length]. rewrite zsum_cons. destruct (Z.eqb_spec x (b + 1)) as [C|C]; cbn [length]; lia.
Qed.

Lemma shard_exact_load shards world n rot i p ll :
  shards <> [] -> Forall whole_shard shards -> total_samples shards < 2 ^ 53 ->
  let G := (world * Nat.max 1 n)%nat in
  (i < G)%nat -> bitrev G = Some p ->
  shard_all_ranks shards world n None rot = Ok ll ->
  nth (nth i p 0%nat) (loads ll) 0 = total_samples shards / Z.of_nat G +
    (if (Z.of_nat i - rot) mod Z.of_nat G <? total_samples shards mod Z.of_nat G then 1 else 0).
Proof.
  intros Hne HW Ht G Hi Eb E. rewrite shard_all_closed in E by (apply csum_whole_nonneg; auto).
  rewrite (Nat.mul_comm _ world) in E. fold G in E.
  destruct (@all_ok shards rot None G Hne HW Ht ltac:(lia)) as (ll' & E' & L & C & N).
  { intros m Hm. split; exact I. }
  rewrite E in E'. injection E' as <-.
  assert (Hin : (nth i p 0%nat < G)%nat).
  { destruct (bitrev_perm G) as (p' & Eb' & Pp). rewrite Eb in Eb'. injection Eb' as <-.
    assert (Lp := Permutation_length Pp). rewrite seq_length in Lp.
    assert (H : In (nth i p 0%nat) p) by (apply nth_In; lia).
    apply (Permutation_in _ Pp) in H. apply in_seq in H. lia. }
  unfold loads. change 0 with ((fun wk => Z.of_nat (length (all_rows wk))) []) at 1.
  rewrite map_nth. rewrite N by exact Hin.
  rewrite (@seg_length shards rot G HW Ht ltac:(lia) _ Hin).
  rewrite (@P_diff shards rot G HW Ht ltac:(lia) _ _ Eb Hi). reflexivity.
Qed.

Lemma shard_balance shards world n rot :
  shards <> [] -> Forall whole_shard shards -> total_samples shards < 2 ^ 53 -> (0 < world)%nat ->
  let G := Z.of_nat (world * Nat.max 1 n) in
  exists ll, shard_all_ranks shards world n None rot = Ok ll /\
    Forall (fun c => c = total_samples shards / G \/ c = total_samples shards / G + 1) (loads ll) /\
    Z.of_nat (length (filter (fun c => c =? total_samples shards / G + 1) (loads ll)))
      = total_samples shards mod G.
Proof.
  intros Hne HW Ht Hw G.
  destruct (@shard_partition shards world n rot Hne HW Ht Hw) as (ll & E & L & C).
  exists ll. split; [exact E|].
  assert (Hll : length (loads ll) = (world * Nat.max 1 n)%nat) by (unfold loads; rewrite map_length; exact L).
  destruct (bitrev_perm (world * Nat.max 1 n)) as (p & Eb & Pp).
  assert (F : Forall (fun c => c = total_samples shards / G \/ c = total_samples shards / G + 1) (loads ll)).
  { apply Forall_forall. intros x Hx.
    apply (In_nth _ _ 0) in Hx. destruct Hx as (j & Hj & <-). rewrite Hll in Hj.
    assert (Hin : In j p) by (apply (Permutation_in _ (Permutation_sym Pp)); apply in_seq; lia).
    apply (In_nth _ _ 0%nat) in Hin. destruct Hin as (i & Hi & <-).
    assert (Lp := Permutation_length Pp). rewrite seq_length in Lp. rewrite Lp in Hi.
    rewrite (@shard_exact_load shards world n rot i p ll Hne HW Ht Hi Eb E). fold G.
    destruct (_ <? _); lia. }
  split; [exact F|]. rewrite two_values_count by exact F.
  assert (S : zsum (loads ll) = total_samples shards).
  { unfold loads. rewrite <- (map_map all_rows (fun r => Z.of_nat (length r))).
    assert (X : forall (l : list (list (list (nat * Z)))), zsum (map (fun r => Z.of_nat (length r)) l) = Z.of_nat (length (concat l))).
    { induction l as [|x l IH]; [reflexivity|]. cbn [map concat]. rewrite zsum_cons, IH, app_length. lia. }
    rewrite X, C. apply (all_rows_length HW). }
  rewrite S, Hll. fold G. pose proof (Z.div_mod (total_samples shards) G ltac:(lia)). lia.
Qed.

(** C04 *)
Definition quota (T G i : Z) : Z := T / G + (if i <? T mod G then 1 else 0).

Lemma quota_step G i cum L : 0 < G -> 0 <= i < G -> 0 <= L ->
  quota (cum + L) G i = quota cum G i + (L / G + (if (i - cum mod G) mod G <? L mod G then 1 else 0)).
Proof.
  intros HG Hi HL. unfold quota.
  pose proof (Z.div_mod cum G ltac:(lia)) as E1. pose proof (Z.mod_pos_bound cum G HG) as B1.
  pose proof (Z.div_mod L G ltac:(lia)) as E2. pose proof (Z.mod_pos_bound L G HG) as B2.
  set (q1 := cum / G) in *. set (r1 := cum mod G) in *. set (q2 := L / G) in *. set (r2 := L mod G) in *.
  assert (HM : (i - r1) mod G = if r1 <=? i then i - r1 else i - r1 + G).
  { destruct (Z.leb_spec r1 i).
    - apply Z.mod_small. lia.
    - rewrite <- (Z_mod_plus_full (i - r1) 1 G). rewrite Z.mul_1_l. apply Z.mod_small. lia. }
  rewrite HM.
  assert (D : (cum + L) / G = q1 + q2 + (if r1 + r2 <? G then 0 else 1) /\
              (cum + L) mod G = r1 + r2 - (if r1 + r2 <? G then 0 else G)).
  { destruct (Z.ltb_spec (r1 + r2) G).
    - split; [symmetry; apply Z.div_unique with (r := r1 + r2); nia
             |symmetry; apply Z.mod_unique with (q := q1 + q2); nia].
    - split; [symmetry; apply Z.div_unique with (r := r1 + r2 - G); nia
             |symmetry; apply Z.mod_unique with (q := q1 + q2 + 1); nia]. }
  destruct D as [-> ->].
  destruct (Z.ltb_spec (r1 + r2) G); destruct (Z.leb_spec r1 i);
  repeat match goal with |- context[?a <? ?b] => destruct (Z.ltb_spec a b) end; lia.
Qed.

Lemma rotation_balance_gen dss world n i p : (0 < world)%nat ->
  let G := (world * Nat.max 1 n)%nat in
  Forall (fun ds => ds <> [] /\ Forall whole_shard ds /\ total_samples ds < 2 ^ 53) dss ->
  (i < G)%nat -> bitrev G = Some p -> forall cum,
  exists lls, shard_datasets dss (worker_offsets cum (map total_samples dss) (Z.of_nat G)) world n = Ok lls /\
    quota cum (Z.of_nat G) (Z.of_nat i) + combined_load lls (nth i p 0%nat)
    = quota (cum + zsum (map total_samples dss)) (Z.of_nat G) (Z.of_nat i).
Proof.
  intros Hw G HF Hi Eb. induction HF as [|ds dss (Hne & HW & Ht) HF IH]; intros cum.
  - exists []. split; [reflexivity|]. cbn. rewrite !Z.add_0_r. reflexivity.
  - cbn [map worker_offsets shard_datasets].
    destruct (@shard_partition ds world n (cum mod Z.of_nat G) Hne HW Ht Hw) as (ll & E & L & C).
    rewrite E. cbn [bind]. destruct (IH (cum + total_samples ds)) as (lls & El & Eq). rewrite El. cbn [bind].
    exists (ll :: lls). split; [reflexivity|].
    unfold combined_load in *. cbn [map]. rewrite !zsum_cons.
    rewrite (@shard_exact_load ds world n _ i p ll Hne HW Ht Hi Eb E). fold G.
    pose proof (csum_whole_nonneg HW) as N. fold (total_samples ds) in N. unfold csum in N. fold (total_samples ds) in N.
    rewrite quota_step in Eq; [|lia|lia|exact N].
    rewrite (Z.add_assoc cum). rewrite <- Eq. lia.
Qed.

Lemma rotation_balance dss world n : (0 < world)%nat ->
  let G := (world * Nat.max 1 n)%nat in
  Forall (fun ds => ds <> [] /\ Forall whole_shard ds /\ total_samples ds < 2 ^ 53) dss ->
  let T := zsum (map total_samples dss) in
  exists lls, shard_datasets dss (worker_offsets 0 (map total_samples dss) (Z.of_nat G)) world n = Ok lls /\
    forall j, (j < G)%nat ->
      combined_load lls j = T / Z.of_nat G \/ combined_load lls j = T / Z.of_nat G + 1.
Proof.
  intros Hw G HF T.
  destruct (bitrev_perm G) as (p & Eb & Pp).
  assert (HG : (0 < G)%nat) by (unfold G; nia).
  destruct (@rotation_balance_gen dss world n 0 p Hw HF HG Eb 0) as (lls & E & _).
  exists lls. split; [exact E|]. intros j Hj.
  assert (Hin : In j p) by (apply (Permutation_in _ (Permutation_sym Pp)); apply in_seq; lia).
  apply (In_nth _ _ 0%nat) in Hin. destruct Hin as (i & Hi & <-).
  assert (Lp := Permutation_length Pp). rewrite seq_length in Lp. rewrite Lp in Hi.
  destruct (@rotation_balance_gen dss world n i p Hw HF Hi Eb 0) as (lls' & E' & Eq).
  assert (lls = lls') as <- by (unfold G in E; rewrite E in E'; injection E' as <-; reflexivity).
  fold G in Eq.
  rewrite Z.add_0_l in Eq. unfold quota in Eq at 1. rewrite Z.mod_0_l, Z.div_0_l in Eq by lia.
  destruct (Z.ltb_spec (Z.of_nat i) 0) as [C|C]; [lia|].
  rewrite !Z.add_0_l in Eq. rewrite Eq. unfold quota. fold G T. destruct (_ <? _); lia.
Qed.
