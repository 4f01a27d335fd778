(** Property C52: loaders without checkpointing workers: an epoch of a BasicDataLoader with worker processes, and the
    SavableDataLoader with num_workers = 0. *)
From Coq Require Import String QArith.
From Verif Require Import Base Dataset DatasetProofs Wrap WrapProofs WrapSpec WrapLib SourceProofs Rng RngProofs Wrappers Sharder SharderSpec
  SampleLoader SampleLoaderSpec P_Wrappers P_SampleLoader EndToEndProofs P_EndToEnd EpochLoader EpochLoaderSpec EpochLoaderProofs EpochLoaderOrder
  SimpleLoader SimpleLoaderSpec SimpleLoaderProofs.
Local Close Scope Q_scope.
Local Close Scope Z_scope.
Local Open Scope list_scope.
Local Open Scope nat_scope.

(** ** An epoch of a loader with worker processes
    [n] workers, worker [p]'s dataset yields [xs p] in this epoch; [eruns]: any interleaving of the workers and the main
    process; [o]: what the loader has returned, with the worker each sample came from; [e_stops]: StopIteration. *)

(** When the loader stops, it has returned the workers' samples in turn, each exactly once, in an order that does not depend on
    how fast the workers are. *)
Theorem C52_epoch_in_turn : forall X n f (xs : nat -> list X) o s, 0 < n -> 0 < f ->
  eruns n (e_start n f xs) o s -> e_stops s -> o = in_turn n xs.
Proof. intros. eapply epoch_order; eauto. Qed.
Print Assumptions C52_epoch_in_turn.

Theorem C52_epoch_each_once : forall X n f (xs : nat -> list X) o s, 0 < n -> 0 < f ->
  eruns n (e_start n f xs) o s -> e_stops s ->
  Permutation (map snd o) (concat (map xs (seq 0 n))) /\
  (forall p, p < n -> map snd (filter (fun px => fst px =? p) o) = xs p).
Proof.
  intros X n f xs o s Hn Hf H HS. assert (E := epoch_complete Hn Hf H HS). split; [|exact E].
  rewrite (@outs_permutation X n Hn o).
  - replace (map (fun p => outs_of p o) (seq 0 n)) with (map xs (seq 0 n)); [reflexivity|]. apply map_ext_in. intros p Ip. apply in_seq in Ip. symmetry. apply E. lia.
  - rewrite (epoch_order Hn Hf H HS). intros px I. apply (@turn_workers X n Hn xs). exact I.
Qed.
Print Assumptions C52_epoch_each_once.

(** Before that, it has returned a prefix of the same sequence. *)
Theorem C52_epoch_prefix : forall X n f (xs : nat -> list X) o s, 0 < n -> 0 < f ->
  eruns n (e_start n f xs) o s -> exists rest, in_turn n xs = o ++ rest.
Proof. intros. eapply epoch_order_prefix; eauto. Qed.
Print Assumptions C52_epoch_prefix.

(** It never blocks (some process can always go on until StopIteration) and every way to go on comes to the end: there is a
    measure each step decreases. *)
Theorem C52_epoch_never_blocks : forall X n f (xs : nat -> list X) o (s : @el X), 0 < n -> 0 < f ->
  eruns n (e_start n f xs) o s -> e_stops s \/ exists o' s', estep n s o' s'.
Proof. intros. eapply epoch_progress; eauto. Qed.
Print Assumptions C52_epoch_never_blocks.

Theorem C52_epoch_terminates : forall X n, 0 < n -> exists measure : @el X -> nat,
  forall f xs o s o' s', 0 < f -> eruns n (e_start n f xs) o s -> estep n s o' s' -> measure s' < measure s.
Proof.
  intros X n Hn. exists (weight n). intros f xs o s o' s' Hf H ST. destruct (runs_inv Hn Hf H) as [I _]. exact (step_weight Hn I ST).
Qed.
Print Assumptions C52_epoch_terminates.

(** Non-vacuity: two workers with three samples and one; one of the interleavings. *)
Definition ex_xs (p : nat) : list nat := match p with 0 => [10; 11; 12] | _ => [20] end.
Example C52_epoch_example : in_turn 2 ex_xs = [(0, 10); (1, 20); (0, 11); (0, 12)] /\
  exists s, eruns 2 (e_start 2 2 ex_xs) [(0, 10); (1, 20); (0, 11); (0, 12)] s /\ e_stops s.
Proof.
  split; [reflexivity|].
  destruct (@epoch_finishes nat 2 ltac:(lia) 2 ex_xs (e_start 2 2 ex_xs) [] ltac:(lia) (er_nil _ _)) as (o & s & R & S).
  exists s. split; [|exact S]. cbn [app] in R. rewrite (epoch_order (n := 2) ltac:(lia) (f := 2) ltac:(lia) R S) in R. exact R.
Qed.

(** ** SimpleSavableDatasetWrapper *)
(** it shows its dataset's samples, numbered, epoch ends and errors included; and nothing else *)
Theorem C52_simple_shows : forall A nw gid (D : dataset A) w l, w < nw ->
  (emits w (fresh (wrap (simple_ds nw gid) D)) l <-> exists l0, emits w (fresh D) l0 /\ l = numbered (gid w) 0 l0).
Proof.
  intros A nw gid D w l Hw. assert (SZ : @sized A nw gid D (fresh (wrap (simple_ds nw gid) D))) by apply repeat_length.
  assert (I0 : @idx A nw gid D w (fresh (wrap (simple_ds nw gid) D)) = 0) by (unfold idx; cbn; apply nth_repeat).
  split.
  - intros E. destruct (simple_emits_inv Hw SZ E) as (l0 & E0 & ->). rewrite I0. exists l0. split; [exact E0|reflexivity].
  - intros (l0 & E0 & ->). rewrite <- I0. apply (simple_emits Hw SZ). exact E0.
Qed.
Print Assumptions C52_simple_shows.

(** a saved and restored loader without workers goes on with exactly the samples (contents and the dataset's own keys), epoch
    ends and errors that were to come ... *)
Theorem C52_simple_resumes_partial : forall A nw gid (D : dataset A) rst, resumable D rst nw ->
  let W := wrap (simple_ds nw gid) D in
  forall w (s : st W) sts, w < nw -> reach w rst nw s -> length sts = nw -> nth_error sts w = Some (Some (ds_save W w (fst s))) ->
  let restored := (ds_restore W (Some (ds_merge W sts)) (ds_init W), ds_iter W) in
  exists i, forall l, (emits w s l -> exists l0, l = numbered (gid w) i l0 /\ emits w restored (numbered (gid w) 0 l0)) /\
                      (emits w restored l -> exists l0, l = numbered (gid w) 0 l0 /\ emits w s (numbered (gid w) i l0)).
Proof.
  intros A nw gid D rst HR W w s sts Hw Rs Hl Hs restored. destruct (simple_reach Hw Rs) as [RE SZ].
  assert (SR : @sized A nw gid D restored) by apply repeat_length. assert (I0 : @idx A nw gid D w restored = 0) by (unfold idx; cbn; apply nth_repeat).
  assert (Q := HR w (eff s) (map (option_map snd) sts) Hw RE). rewrite map_length in Q. specialize (Q Hl (map_nth_error (option_map snd) w sts Hs)).
  exists (idx w s). intros l. split; intros E.
  - destruct (simple_emits_inv Hw SZ E) as (l0 & E0 & ->). exists l0. split; [reflexivity|]. rewrite <- I0. apply (simple_emits Hw SR). apply Q. exact E0.
  - destruct (simple_emits_inv Hw SR E) as (l0 & E0 & ->). rewrite I0. exists l0. split; [reflexivity|]. apply (simple_emits Hw SZ). apply Q. exact E0.
Qed.
Print Assumptions C52_simple_resumes_partial.

(** ... but numbers them from 0 again: the restore keys, and the batch index the user's functions see, are not those of the
    uninterrupted run, although the dataset resumes exactly. *)
Theorem C52_simple_keys_not_resumed : resumable (stream_ds (fun k : nat => k)) true 1 /\
  ~ resumable (wrap (simple_ds 1 (fun _ => 0)) (stream_ds (fun k : nat => k))) true 1.
Proof.
  split; [apply stream_resumable|].
  set (W := wrap _ _). apply (@not_resumable _ W 0 true 1 50 1 1 [Some (ds_save W 0 (fst (stk 0 50 1 (ds_init W, ds_iter W))))]); auto. vm_compute. congruence.
Qed.
Print Assumptions C52_simple_keys_not_resumed.

(** every sample can be brought back by its key, with the number it had *)
Theorem C52_simple_restorable : forall A nw gid (D : dataset A) rst, restorable D rst nw -> restorable (wrap (simple_ds nw gid) D) rst nw.
Proof.
  intros A nw gid D rst HR w s a s' Hw Rs N. destruct (simple_reach Hw Rs) as [RE SZ]. destruct (simple_next Hw SZ N) as (e0 & s1 & EO & N1 & _).
  destruct e0 as [b| | |y]; try discriminate. injection EO as ->. assert (Q := HR w _ b s1 Hw RE N1).
  cbn [wrap ds_restore_sample simple_ds t_restore_sample shown rk]. cbn [String.eqb Ascii.eqb Bool.eqb]. rewrite Q. reflexivity.
Qed.
Print Assumptions C52_simple_restorable.

(** ** End to end: a validation epoch through the loaders of all ranks *)
(** the sample without the loader's part of the key *)
Definition inner_of {A} (a : sample A) : sample A := mkS (pl a) (skipn 3 (rk a)).

Theorem C52_validation_epoch_covers_dataset :
  forall X (R : nat -> rng_ops) shards (row : list (nat * Z) -> sample X) world n maxs rot par shuffle k rs shs gid gc f,
  shards <> [] -> Forall whole_shard shards -> (total_samples shards < 2 ^ 51)%Z ->
  match maxs with Some m => (0 < m)%Z | None => True end -> 0 < world ->
  NoDup (map (fun s : shseq => sh_name (fst s)) shards) ->
  (forall r, rng_ok (R r)) -> par >= 1 -> 0 < n -> 0 < f ->
  (shuffle = NoShuffle /\ par = 1 /\ k = 1) \/ shuffle = Over k ->
  (forall r, r < world -> shard_workers shards (mkWcfg r world n) maxs rot = Ok (shs r)) ->
  let D r := wrap (simple_ds n (gid r)) (wrap (gc_ds true gc) (loader_ds (R r) (shs r) (fun s => map row (rows s)) par shuffle false rs)) in
  exists used, sublist used (all_rows shards) /\ (maxs = None -> used = all_rows shards) /\
  exists ys : nat -> nat -> list (sample X),
    (forall r w, r < world -> w < n -> produces w (fresh (D r)) (ys r w)) /\
    forall o s, (forall r, r < world -> eruns n (e_start n f (ys r)) (o r) (s r) /\ e_stops (s r)) ->
      Permutation (map inner_of (concat (map (fun r => map snd (o r)) (seq 0 world)))) (concat (repeat (map row used) k)).
Proof.
  intros X R shards row world n maxs rot par shuffle k rs shs gid gc f H1 H2 H3 H4 H5 H6 H7 H8 Hn Hf H9 H10 D.
  destruct (@C46_epoch_covers_dataset X R shards row world n maxs rot par shuffle k rs shs H1 H2 H3 H4 H5 H6 H7 H8 H9 H10) as (used & U1 & U2 & xs & EX & EP).
  replace (Nat.max 1 n) with n in * by lia. exists used. split; [exact U1|]. split; [exact U2|].
  set (num := fix num (g i : nat) (l : list (sample X)) := match l with [] => [] | a :: l' => shown g i a :: num g (S i) l' end).
  exists (fun r w => num (gid r w) 0 (xs r w)). split.
  - intros r w Hr Hw. unfold produces. apply C52_simple_shows; [exact Hw|]. exists (epoch (xs r w)). split.
    + apply C36_gc_transparent; [|exact (EX r w Hr Hw)]. unfold epoch, clean. apply Forall_app. split; [apply clean_Yields|repeat constructor].
    + unfold epoch. generalize 0. generalize (xs r w). induction l as [|a l IH]; intros i; [reflexivity|]. cbn [map app num numbered]. f_equal. apply IH.
  - intros o s HO. assert (IN : forall g l i, map inner_of (num g i l) = l).
    { intros g l. induction l as [|[a ka] l IH]; intros i; [reflexivity|]. cbn [num map]. rewrite IH. reflexivity. }
    rewrite <- EP. rewrite concat_map, map_map.
    assert (G : forall l, (forall r, In r l -> r < world) -> Permutation (concat (map (fun r => map inner_of (map snd (o r))) l)) (concat (map (fun r => concat (map (xs r) (seq 0 n))) l))).
    { induction l as [|r l IH]; intros HL; [constructor|]. cbn [map concat]. apply Permutation_app; [|apply IH; intros; apply HL; right; assumption].
      destruct (HO r (HL r (or_introl eq_refl))) as [RU ST]. destruct (C52_epoch_each_once Hn Hf RU ST) as [P _]. apply (Permutation_map inner_of) in P. rewrite P, concat_map, map_map.
      replace (map (fun x => map inner_of (num (gid r x) 0 (xs r x))) (seq 0 n)) with (map (xs r) (seq 0 n)); [reflexivity|]. apply map_ext. intros. rewrite IN. reflexivity. }
    apply G. intros r Ir. apply in_seq in Ir. lia.
Qed.
Print Assumptions C52_validation_epoch_covers_dataset.
