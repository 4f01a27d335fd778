(** len() against the numbers of samples of the epochs (C66): induction over pipelines. *)
From Coq Require Import String QArith.
From Verif Require Import Base Dataset WrapSpec Rng Sharder SampleLoader SampleLoaderSpec Wrappers Batch BatchSpec TaskEncoder TaskEncoderSpec EndToEndProofs
  P_SampleLoader P_Wrappers P_Batch Concat Config ConfigProofs Length LengthSpec LengthProofs.
Local Close Scope Q_scope.
Local Close Scope Z_scope.
Local Open Scope list_scope.
Local Open Scope nat_scope.

(** ** sums *)
Lemma sum_cons x l : list_sum (x :: l) = x + list_sum l.
Proof. reflexivity. Qed.
Lemma sum_ext {X} (f g : X -> nat) l : (forall x, In x l -> f x = g x) -> list_sum (map f l) = list_sum (map g l).
Proof. intros H. f_equal. apply map_ext_in. exact H. Qed.
Lemma sum_le {X} (f g : X -> nat) l : (forall x, In x l -> f x <= g x) -> list_sum (map f l) <= list_sum (map g l).
Proof.
  induction l as [|x l IH]; intros H; [reflexivity|]. cbn [map]. rewrite !sum_cons. apply Nat.add_le_mono; [apply H; left; reflexivity|].
  apply IH. intros y Hy. apply H. right. exact Hy.
Qed.
Lemma sum_scale {X} (f : X -> nat) n l : list_sum (map (fun x => n * f x) l) = n * list_sum (map f l).
Proof. induction l as [|x l IH]; [cbn; lia|]. cbn [map]. rewrite !sum_cons, IH. lia. Qed.
Lemma sum_add {X} (f g : X -> nat) l : list_sum (map (fun x => f x + g x) l) = list_sum (map f l) + list_sum (map g l).
Proof. induction l as [|x l IH]; [reflexivity|]. cbn [map]. rewrite !sum_cons, IH. lia. Qed.
Lemma sum_swap {X Y} (f : X -> Y -> nat) l l' :
  list_sum (map (fun x => list_sum (map (f x) l')) l) = list_sum (map (fun y => list_sum (map (fun x => f x y) l)) l').
Proof.
  induction l as [|x l IH].
  - cbn. induction l'; cbn; auto.
  - cbn [map]. rewrite sum_cons, IH. rewrite <- sum_add. reflexivity.
Qed.
Lemma sum_seq_nth l n : length l = n -> list_sum (map (fun i => nth i l 0) (seq 0 n)) = list_sum l.
Proof.
  intros <-. induction l as [|x l IH]; [reflexivity|]. cbn [length seq map nth]. rewrite !sum_cons. f_equal. rewrite <- seq_shift, map_map. exact IH.
Qed.

(** the values are q or q + 1 *)
Lemma sum_two (f : nat -> nat) q l : Forall (fun v => q <= v <= q + 1) l ->
  exists c, c <= length l /\ list_sum l = q * length l + c /\ list_sum (map f l) = f q * (length l - c) + f (q + 1) * c.
Proof.
  induction 1 as [|v l Hv F (c & Hc & S1 & S2)]; [exists 0; cbn; lia|]. cbn [map length]. rewrite !sum_cons.
  assert (D : v = q \/ v = q + 1) by lia. destruct D as [-> | ->].
  - exists c. split; [lia|]. split; [lia|]. rewrite S2. replace (S (length l) - c) with (S (length l - c)) by lia. lia.
  - exists (S c). split; [lia|]. split; [lia|]. rewrite S2. replace (S (length l) - S c) with (length l - c) by lia. lia.
Qed.

Lemma batch_len_sum nw size drop n (v : nat -> nat) : 0 < nw -> 0 < size -> drop = true \/ n mod nw = 0 ->
  (forall w, w < nw -> n / nw <= v w <= n / nw + 1) -> list_sum (map v (seq 0 nw)) = n ->
  list_sum (map (fun w => group_count size drop (v w)) (seq 0 nw)) = batch_len nw size drop n.
Proof.
  intros Hn Hs HD HV HS. rewrite (C30_length_partial Hn Hs HD). rewrite total_split by exact Hn.
  destruct (@sum_two (group_count size drop) (n / nw) (map v (seq 0 nw))) as (c & Hc & S1 & S2).
  { apply Forall_map. apply Forall_forall. intros w Hw. apply in_seq in Hw. apply HV. lia. }
  rewrite map_length, seq_length in *. rewrite map_map in S2. rewrite S2. rewrite HS in S1.
  pose proof (Nat.div_mod n nw ltac:(lia)) as DM. assert (c = n mod nw) as -> by nia. reflexivity.
Qed.

Lemma nth_infos shards w : nth w (infos shards) [] = map (fun s => (cs_info (fst s), map cs_info (snd s))) (nth w shards []).
Proof. unfold infos. change (@nil shseq) with (map (fun s : cshard * list cshard => (cs_info (fst s), map cs_info (snd s))) []) at 1. apply map_nth. Qed.

Section Pipes.
  Context {V K : Type} (keq : K -> K -> bool) (E : @env V K) (len_map : nat -> nat -> nat) (wc : wconf).
  Hypothesis OK : rng_ok (gen E wc).
  Let nw := nworkers wc.
  Notation den := (denote keq E wc).
  Notation wl := (worker_len wc).
  Notation plen := (pipe_len len_map wc).

  Lemma nw_pos : 0 < nw.
  Proof. unfold nw, nworkers. lia. Qed.

  Lemma sizes_load shards exclude loop shuffle par pf h w m : whole_source E wc shards exclude loop shuffle par pf h -> w < nw ->
    epoch_sizes w (den (PLoad shards exclude loop shuffle par pf h)) (repeat (wl (PLoad shards exclude loop shuffle par pf h) w) m).
  Proof.
    intros (-> & HL & HP & Hpar & M & HC) Hw. cbn [denote].
    assert (Hw2 : w < length (infos shards)) by (unfold infos; rewrite map_length, HL; exact Hw).
    destruct (@loader_epochs V (gen E wc) (infos shards) (e_content E exclude pf h (paths shards)) par shuffle (e_restore E exclude pf h (paths shards)) w m OK HP Hpar Hw2 M)
      as (es & L & Em & F).
    exists (map (map pl) es). split; [exists es; auto|]. rewrite map_len_pl. rewrite (@all_repeat _ (wl (PLoad shards exclude false shuffle par pf h) w) (map (@length _) es)).
    - rewrite map_length, L. reflexivity.
    - apply Forall_map. eapply Forall_impl; [|exact F]. intros e He. apply Permutation_length in He. rewrite He. cbn [worker_len].
      assert (I : forall s, In s (nth w (infos shards) []) -> length (e_content E exclude pf h (paths shards) s) = Z.to_nat (count0 s)).
      { intros s Hs. apply (HC (nth w (infos shards) [])); auto. apply nth_In. exact Hw2. }
      rewrite nth_infos in *. revert I. generalize (nth w shards []). clear. induction l as [|s l IH]; intros I; [reflexivity|].
      cbn [map flat_map]. rewrite app_length, sum_cons, IH by (intros; apply I; right; assumption). f_equal. rewrite I by (left; reflexivity). reflexivity.
  Qed.

  Lemma fold_and {X} (P : X -> Prop) l : fold_right and True (map P l) <-> Forall P l.
  Proof. induction l as [|x l IH]; cbn [map fold_right]; [split; constructor|]. rewrite IH. split; [intros [? ?]; constructor; auto|intros F; inversion F; auto]. Qed.

  Lemma sizes_nil (D : dataset V) w : epoch_sizes w D [].
  Proof. exists []. split; [|reflexivity]. exists []. split; [constructor|reflexivity]. Qed.

  Theorem exact_sizes p : forall m w, exact keq E len_map wc p m -> w < nw -> epoch_sizes w (den p) (repeat (wl p w) m).
  Proof.
    induction p using pipe_ind'; intros m w X Hw; cbn [exact] in X; try contradiction; cbn [denote worker_len]; fold nw in X |- *.
    - apply sizes_load; auto.
    - destruct X as [(g0 & -> & HG) X]. apply sizes_map; auto.
    - destruct X as [Hs X]. apply sizes_shuffle; auto.
    - destruct X as ((g0 & -> & HG) & Hs & X & _). replace (repeat (group_count _ _ _) m) with (map (group_count a f) (repeat (wl p w) m)).
      + apply sizes_batch; auto.
      + clear. induction m; cbn; congruence.
    - destruct a as [n|]; [|contradiction]. destruct X as [Hm X]. destruct m as [|[|m]]; [apply sizes_nil| |lia].
      cbn [repeat]. replace (n * wl p w) with (list_sum (repeat (wl p w) n)).
      + apply sizes_repeat; auto. apply repeat_length.
      + rewrite (list_sum_all (n := wl p w)); [rewrite repeat_length; reflexivity|]. apply Forall_forall. intros y Hy. eapply repeat_spec; eauto.
    - apply sizes_epochize; auto.
    - destruct X as (X & HR & _). apply sizes_limit; auto. exact (IHp 1 w X Hw).
    - match goal with HF : Forall _ ds |- _ => rename HF into IH end. rewrite fold_and in X.
      set (D := fun i => nth i (map den ds) (list_ds [])).
      replace (repeat _ m) with (map (fun e => list_sum (map (fun i => nth e (nth i (map (fun d => repeat (wl d w) m) ds) []) 0) (seq 0 (length ds)))) (seq 0 m)).
      + apply (@sizes_concat V (length ds) D). intros i Hi. unfold D.
        destruct (nth_error ds i) as [d|] eqn:Hd; [|apply nth_error_None in Hd; lia].
        assert (Hin : In d ds) by (eapply nth_error_In; eauto).
        rewrite (@nth_error_nth _ (map (fun d => repeat (wl d w) m) ds) i _ _ (map_nth_error _ _ _ Hd)).
        rewrite (@nth_error_nth _ (map den ds) i _ _ (map_nth_error _ _ _ Hd)).
        split; [apply repeat_length|]. rewrite Forall_forall in X, IH. apply (IH d Hin); auto.
      + assert (G : forall e, e < m -> list_sum (map (fun i => nth e (nth i (map (fun d => repeat (wl d w) m) ds) []) 0) (seq 0 (length ds))) = list_sum (map (fun d => wl d w) ds)).
        { intros e He. rewrite <- (sum_seq_nth (l := map (fun d => wl d w) ds) (n := length ds)) by apply map_length. apply sum_ext. intros i Hi. apply in_seq in Hi.
          destruct (nth_error ds i) as [d|] eqn:Hd; [|apply nth_error_None in Hd; lia].
          rewrite (@nth_error_nth _ (map (fun d => repeat (wl d w) m) ds) i _ _ (map_nth_error _ _ _ Hd)).
          rewrite (@nth_error_nth _ (map (fun d => wl d w) ds) i _ _ (map_nth_error _ _ _ Hd)).
          rewrite (nth_indep _ _ (wl d w)) by (rewrite repeat_length; exact He). apply nth_repeat. }
        rewrite (@all_repeat _ (list_sum (map (fun d => wl d w) ds)) (map _ (seq 0 m))).
        * rewrite map_length, seq_length. reflexivity.
        * apply Forall_map. apply Forall_forall. intros e He. apply in_seq in He. apply G. lia.
    - apply sizes_gc. auto.
    - apply sizes_log; auto.
  Qed.

  Lemma share_sum len : list_sum (map (local_share nw len) (seq 0 nw)) = len.
  Proof. apply C26_shares_add_up. exact nw_pos. Qed.

  Lemma load_sum (shards : list (list (cshard * list cshard))) : length shards = nw ->
    list_sum (map (fun w => list_sum (map (fun s => Z.to_nat (sh_count (cs_info (fst s)))) (nth w shards []))) (seq 0 nw)) =
    list_sum (map (fun ws => list_sum (map (fun s => Z.to_nat (sh_count (cs_info (fst s)))) ws)) shards).
  Proof.
    intros HL. rewrite <- (sum_seq_nth (l := map _ shards) (n := nw)) by (rewrite map_length; exact HL). apply sum_ext. intros i _.
    exact (eq_sym (map_nth (fun ws : list (cshard * list cshard) => list_sum (map (fun s => Z.to_nat (sh_count (cs_info (fst s)))) ws)) shards [] i)).
  Qed.

  Theorem exact_len p : forall m, exact keq E len_map wc p m -> list_sum (map (wl p) (seq 0 nw)) = plen p.
  Proof.
    induction p using pipe_ind'; intros m X; cbn [exact] in X; try contradiction; cbn [pipe_len worker_len]; fold nw in X |- *.
    - apply load_sum. apply X.
    - destruct X as [_ X]. exact (IHp m X).
    - destruct X as [_ X]. exact (IHp m X).
    - destruct X as (_ & Hs & X & HD & HV). apply batch_len_sum; auto using nw_pos. exact (IHp m X).
    - destruct a as [n|]; [|contradiction]. destruct X as [_ X]. rewrite sum_scale, (IHp n X). lia.
    - apply share_sum.
    - destruct X as (X & _ & D). pose proof (IHp 1 X) as IH. pose proof (share_sum a) as SS. destruct D as [D|D].
      + rewrite (@sum_ext _ _ (local_share nw a)) by (intros w Hw; apply in_seq in Hw; apply Nat.min_l; apply D; lia).
        rewrite SS. symmetry. apply Nat.min_l. rewrite <- SS, <- IH. apply sum_le. intros w Hw. apply in_seq in Hw. apply D. lia.
      + rewrite (@sum_ext _ _ (wl p)) by (intros w Hw; apply in_seq in Hw; apply Nat.min_r; apply D; lia).
        rewrite IH. symmetry. apply Nat.min_r. rewrite <- SS, <- IH. apply sum_le. intros w Hw. apply in_seq in Hw. apply D. lia.
    - rewrite fold_and in X. rewrite (sum_swap (fun w d => wl d w)). apply sum_ext. intros d Hd. rewrite Forall_forall in X.
      match goal with HF : Forall _ ds |- _ => rewrite Forall_forall in HF; apply (HF d Hd m) end. auto.
    - exact (IHp m X).
    - exact (IHp m X).
  Qed.

  (** *** the upper bound *)
  Theorem bounded_len p : forall m, bounded keq E wc p m -> list_sum (map (wl p) (seq 0 nw)) <= plen p.
  Proof.
    induction p using pipe_ind'; intros m X; cbn [bounded] in X; try contradiction; cbn [pipe_len worker_len]; fold nw in X |- *.
    - rewrite load_sum; [lia|]. apply X.
    - destruct X as [_ X]. exact (IHp m X).
    - destruct X as [_ X]. exact (IHp m X).
    - destruct X as [_ X]. exact (IHp m X).
    - destruct X as (_ & _ & _ & X). exact (IHp m X).
    - destruct a as [n|]; [|contradiction]. destruct X as [_ X]. rewrite sum_scale. pose proof (IHp n X). nia.
    - rewrite share_sum. lia.
    - destruct X as (X & _). pose proof (IHp 1 X) as IH. apply Nat.min_glb.
      + pose proof (share_sum a) as SS. etransitivity; [|apply (Nat.eq_le_incl _ _ SS)]. apply sum_le. intros. lia.
      + etransitivity; [|exact IH]. apply sum_le. intros. lia.
    - rewrite fold_and in X. rewrite (sum_swap (fun w d => wl d w)). apply sum_le. intros d Hd. rewrite Forall_forall in X.
      match goal with HF : Forall _ ds |- _ => rewrite Forall_forall in HF; apply (HF d Hd m) end. auto.
    - exact (IHp m X).
    - exact (IHp m X).
  Qed.

  Definition at_most (D : dataset V) w m n : Prop := exists ns, epoch_sizes w D ns /\ length ns = m /\ Forall (fun x => x <= n) ns.

  Lemma at_most_le (D D' : dataset V) w m n : (forall ns, epoch_sizes w D ns -> exists ns', epoch_sizes w D' ns' /\ Forall2 le ns' ns) ->
    at_most D w m n -> at_most D' w m n.
  Proof.
    intros H (ns & He & L & F). destruct (H ns He) as (ns' & He' & F'). exists ns'. split; [exact He'|]. clear - L F F'. subst m.
    induction F' as [|x y l l' Hx F' IH]; [split; [reflexivity|constructor]|]. inversion F; subst. destruct IH as [IH1 IH2]; auto. cbn [length]. split; [congruence|].
    constructor; [lia|auto].
  Qed.

  Theorem bounded_sizes p : forall m w, bounded keq E wc p m -> w < nw -> at_most (den p) w m (wl p w).
  Proof.
    induction p using pipe_ind'; intros m w X Hw; cbn [bounded] in X; try contradiction; cbn [denote worker_len]; fold nw in X |- *.
    - exists (repeat (wl (PLoad a b c d e f g) w) m). split; [apply sizes_load; auto|]. split; [apply repeat_length|].
      apply Forall_forall. intros y Hy. apply repeat_spec in Hy. subst y. reflexivity.
    - destruct X as [(g0 & -> & HG) X]. eapply at_most_le; [|apply IHp; eauto]. intros ns. apply sizes_map_le; auto.
    - destruct X as [HG X]. eapply at_most_le; [|apply IHp; eauto]. intros ns. apply sizes_filter_le; auto.
    - destruct X as [Hs X]. destruct (IHp m w X Hw) as (ns & He & L & F). exists ns. split; [apply sizes_shuffle; auto|auto].
    - destruct X as (Hk & (cls & size & HB & HS) & Hf & X). eapply at_most_le; [|apply IHp; eauto]. intros ns.
      exact (@sizes_group_le V V K keq nw a g (e_key E (c_code b) (c_code h)) (e_group E (c_code c) (c_code h)) (den p) w cls size ns Hw Hk (HB w) HS Hf).
    - destruct a as [n|]; [|contradiction]. destruct X as [Hm X]. destruct m as [|[|m]]; [exists []; split; [apply sizes_nil|split; [reflexivity|constructor]]| |lia].
      destruct (IHp n w X Hw) as (ns & He & L & F). exists [list_sum ns]. split; [apply sizes_repeat; auto|]. split; [reflexivity|]. constructor; [|constructor].
      clear - L F. subst n. induction F as [|x l Hx F IH]; [cbn; lia|]. rewrite sum_cons. cbn [length]. lia.
    - exists (repeat (local_share nw a w) m). split; [apply sizes_epochize; auto|]. split; [apply repeat_length|].
      apply Forall_forall. intros y Hy. apply repeat_spec in Hy. subst y. reflexivity.
    - destruct X as (X & HR). destruct (IHp 1 w X Hw) as (ns & He & L & F). destruct ns as [|n [|? ?]]; try discriminate. inversion F; subst.
      exists (repeat (Nat.min (local_share nw a w) n) m). split; [apply sizes_limit; auto|]. split; [apply repeat_length|].
      apply Forall_forall. intros y Hy. apply repeat_spec in Hy. subst y. lia.
    - match goal with HF : Forall _ ds |- _ => rename HF into IH end. rewrite fold_and in X.
      rewrite Forall_forall in X, IH.
      destruct (@finite_choice (list nat) [] (fun i ns => epoch_sizes w (nth i (map den ds) (list_ds [])) ns /\ length ns = m /\ Forall (fun x => x <= nth i (map (fun d => wl d w) ds) 0) ns) (length ds)) as (f & Hf).
      { intros i Hi. destruct (nth_error ds i) as [d|] eqn:Hd; [|apply nth_error_None in Hd; lia].
        assert (Hin : In d ds) by (eapply nth_error_In; eauto).
        rewrite (@nth_error_nth _ (map den ds) i _ _ (map_nth_error _ _ _ Hd)).
        rewrite (@nth_error_nth _ (map (fun d => wl d w) ds) i _ _ (map_nth_error _ _ _ Hd)).
        exact (IH d Hin m w (X d Hin) Hw). }
      exists (map (fun e => list_sum (map (fun i => nth e (f i) 0) (seq 0 (length ds)))) (seq 0 m)). split.
      + apply sizes_concat. intros i Hi. destruct (Hf i Hi) as (H1 & H2 & _). auto.
      + split; [rewrite map_length, seq_length; reflexivity|]. apply Forall_map. apply Forall_forall. intros e He. apply in_seq in He.
        rewrite <- (sum_seq_nth (l := map (fun d => wl d w) ds) (n := length ds)) by apply map_length. apply sum_le. intros i Hi. apply in_seq in Hi.
        destruct (Hf i ltac:(lia)) as (_ & L & F). rewrite Forall_forall in F. apply F. apply nth_In. lia.
    - destruct (IHp m w X Hw) as (ns & He & L & F). exists ns. split; [apply sizes_gc; auto|auto].
    - destruct (IHp m w X Hw) as (ns & He & L & F). exists ns. split; [apply sizes_log; auto|auto].
  Qed.
End Pipes.
