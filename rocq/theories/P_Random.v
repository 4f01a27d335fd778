(** Property C67: user functions that use the global random generators (torch, numpy, random) continue with the same random
    numbers when a SavableDataLoader with workers is restored. *)
From Coq Require Import String.
From Verif Require Import Base Dataset DatasetProofs Wrap WrapProofs WrapRun WrapTrace WrapSpec WrapLib SourceProofs
  Wrappers MapModel Batch RandomFns RandomProofs Rng Loader LoaderSpec LoaderProofs P_Loader.

(** ** Specification *)
Section Spec.
  Context {V G : Type}.
  (** a function that always returns something; it reads and advances the generators *)
  Definition rfun (X : Type) : Type := G -> nat -> nat -> X -> V * G.
  Definition always {X} (f : rfun X) : G -> nat -> nat -> X -> ures V * G :=
    fun g w i x => let '(y, g') := f g w i x in (UOk y, g').

  (** the function is called for the samples [xs], the first of which has number [i]: the results, and the generators afterwards *)
  Fixpoint draw_all (f : rfun V) (w i : nat) (g : G) (xs : list V) : list V * G :=
    match xs with
    | [] => ([], g)
    | x :: xs' => let '(y, g1) := f g w i x in let '(ys, g2) := draw_all f w (S i) g1 xs' in (y :: ys, g2)
    end.

  (** [n] batches, the first of which has number [b]: for each batch the samples are encoded one by one, then the batcher is
      called, then the batch is encoded, with one and the same generators *)
  Fixpoint draw_batches (f : rfun V) (bf : rfun (list V)) (h : rfun V) (size w n b : nat) (g : G) (xs : list V) : list V :=
    match n with
    | O => []
    | S n' =>
        let '(ys, g1) := draw_all f w (b * size) g (firstn size xs) in
        let '(z, g2) := bf g1 w b ys in
        let '(u, g3) := h g2 w b z in
        u :: draw_batches f bf h size w n' (S b) g3 (skipn size xs)
    end.
End Spec.
Arguments rfun : clear implicits.

(** ** resuming *)
(** Whatever the functions draw: a saved and restored worker goes on with exactly what the uninterrupted worker would have
    delivered.  (A batcher that skips a batch leaves its keys behind, see C28; an incomplete last batch is C29.) *)
Theorem C67_random_resumes {V G} nw (seed : nat -> G) (P : rpipe V G) (D : dataset V) rst :
  (forall b, rp_batch P = Some b -> forall g w i l, exists y g', rb_fn b g w i l = (UOk y, g')) ->
  endless D rst nw \/ (forall b, rp_batch P = Some b -> rb_drop b = true) ->
  resumable D rst nw -> resumable (wrap (random_ds nw seed P) D) rst nw.
Proof.
  intros HB [HE|HD] HR.
  - apply (@wrap_resumable V V _ D nw rst rst true false); auto; try discriminate.
    + left. apply random_no_reset.
    + apply random_local_resumable; [exact HB|left; reflexivity].
  - apply (@wrap_resumable V V _ D nw rst rst false false); auto; try discriminate.
    + left. apply random_no_reset.
    + apply random_local_resumable; [exact HB|right; exact HD].
Qed.
Print Assumptions C67_random_resumes.

(** ... also through the worker's own checkpoints: asked for its state after sample [k], the worker hands out an older
    checkpoint and the number of samples to skip; the skipped samples are computed again, with the old generators, so the
    numbers drawn for the following ones are right *)
Theorem C67_worker_resumes {V G} nw (seed : nat -> G) (P : rpipe V G) (D : dataset V) w gid min_n n_cp b
    (s : wstate (wrap (random_ds nw seed P) D)) k c off cks ys :
  (forall b, rp_batch P = Some b -> forall g w i l, exists y g', rb_fn b g w i l = (UOk y, g')) ->
  endless D false nw \/ (forall b, rp_batch P = Some b -> rb_drop b = true) ->
  resumable D false nw -> w < nw ->
  wreach w gid nw min_n n_cp b s -> b <= k < k_index s -> get_checkpoint s k = Ok (c, off) ->
  length cks = nw -> nth_error cks w = Some (c, off) ->
  (delivers w gid min_n n_cp (w_restored w cks) ys <->
   exists pre, length pre = S k /\ delivers w gid min_n n_cp (w_fresh (wrap (random_ds nw seed P) D)) (pre ++ ys)).
Proof.
  intros HB HE HR Hw R HK HG HL HN. eapply C37_worker_resumes; eauto. apply C67_random_resumes; auto.
Qed.
Print Assumptions C67_worker_resumes.

(** the restored worker may run in another process, which was started with another seed *)
Theorem C67_any_process {V G} nw (seed seed' : nat -> G) (P : rpipe V G) (D : dataset V) rst w
    (s : st (wrap (random_ds nw seed P) D)) sts l :
  (forall b, rp_batch P = Some b -> forall g w i l, exists y g', rb_fn b g w i l = (UOk y, g')) ->
  endless D rst nw \/ (forall b, rp_batch P = Some b -> rb_drop b = true) ->
  resumable D rst nw -> w < nw -> reach w rst nw s -> length sts = nw ->
  nth_error sts w = Some (Some (ds_save (wrap (random_ds nw seed P) D) w (fst s))) ->
  (emits w s l <->
   emits (D := wrap (random_ds nw seed' P) D) w
     (ds_restore (wrap (random_ds nw seed' P) D) (Some (ds_merge (wrap (random_ds nw seed' P) D) sts)) (ds_init (wrap (random_ds nw seed' P) D)),
      ds_iter (wrap (random_ds nw seed' P) D)) l).
Proof.
  intros HB HE HR Hw Rs HL HS.
  rewrite (C67_random_resumes HB HE HR Hw Rs HL HS l).
  assert (TW : forall s1 s2 : nat -> G, twins (nw := nw) (s1 := s1) (s2 := s2) (P := P) (D := D) w
     (ds_restore (wrap (random_ds nw s1 P) D) (Some (ds_merge (wrap (random_ds nw s1 P) D) sts)) (ds_init (wrap (random_ds nw s1 P) D)), ds_iter (wrap (random_ds nw s1 P) D))
     (ds_restore (wrap (random_ds nw s2 P) D) (Some (ds_merge (wrap (random_ds nw s2 P) D) sts)) (ds_init (wrap (random_ds nw s2 P) D)), ds_iter (wrap (random_ds nw s2 P) D))).
  { intros s1 s2. split; [reflexivity|]. split; [reflexivity|]. split; [reflexivity|]. split; [reflexivity|]. cbn.
    rewrite !map_length. split; [exact HL|]. exists (rc_gen seed w (w_loc (fst s))). eapply nth_error_nth. rewrite map_map.
    etransitivity; [eapply map_nth_error; exact HS|reflexivity]. }
  split; intros E; eapply twins_emits; eauto.
Qed.
Print Assumptions C67_any_process.

(** ** which numbers are drawn *)
Lemma samples_of_inp {V} (xs : list (sample V)) : map inp (map Some xs) = map Yield xs.
Proof. rewrite map_map. reflexivity. Qed.

(** one random function per sample: the generators start as the process was seeded and are passed from sample to sample *)
Theorem C67_sample_draws {V G} nw (seed : nat -> G) (f : @rfun V G V) (D : dataset V) w xs :
  w < nw -> starts_with w (fresh D) xs ->
  exists ys, starts_with w (fresh (wrap (random_ds nw seed (mkRpipe [RMap (always f)] None [])) D)) ys /\
    map pl ys = fst (draw_all f w 0 (seed w) (map pl xs)).
Proof.
  intros Hw E. set (P := mkRpipe [RMap (always f)] None []).
  assert (F : forall xs n g, exists ys st, rc_fold P w (mkRidx [n] 0 []) g [] [] (map Some xs) = (map Yield ys, st) /\
            map pl ys = fst (draw_all f w n g (map pl xs))).
  { clear. induction xs as [|x xs IH]; intros n g; [exists [], (mkRidx [n] 0 [], g, ([], [])); split; reflexivity|].
    cbn [map rc_fold draw_all]. unfold run_pull. cbn [rp_pre P ri_pre run_stages rp_batch ri_batch ri_post]. unfold always at 1.
    destruct (f g w n (pl x)) as [y g1]. unfold run_post. cbn [rp_post P ri_post run_stages ri_pre ri_batch fst snd rc_here].
    destruct (IH (S n) g1) as (ys & st & EQ & EM). rewrite EQ. destruct (draw_all f w (S n) g1 (map pl xs)) as [zs g2].
    eexists (_ :: ys), st. split; [reflexivity|]. cbn. rewrite EM. reflexivity. }
  destruct (F xs 0 (seed w)) as (ys & st & EQ & EM). exists ys. split; [|exact EM].
  unfold starts_with in *. rewrite <- samples_of_inp in E.
  assert (X : emits (D := wrap (random_ds nw seed P) D) w (fresh (wrap (random_ds nw seed P) D)) (fst (rc_fold P w (ridx0 P) (seed w) [] [] (map Some xs)))).
  { apply rc_forward; auto.
    - intros b HB. discriminate.
    - right. discriminate.
    - intros i g b k [a|]; [|reflexivity]. unfold run_pull. cbn [rp_pre P rp_batch].
      destruct (ri_pre i) as [|n ns]; cbn [run_stages]; unfold run_post; cbn [rp_post P run_stages]; [reflexivity|].
      unfold always. destruct (f g w n (pl a)) as [y g1]. reflexivity. }
  change (ridx0 P) with (mkRidx [0] 0 []) in X. rewrite EQ in X. exact X.
Qed.
Print Assumptions C67_sample_draws.

(** ... also by samples that are not delivered: a filter that draws, then a function that draws and may skip the sample.  The
    filter is called for every sample, the function for the accepted ones; the numbers drawn for a rejected or skipped sample
    are not drawn again *)
Fixpoint draw_some {V G} (p : G -> nat -> nat -> V -> bool * G) (f : G -> nat -> nat -> V -> option V * G) (w i j : nat) (g : G) (xs : list V) : list V :=
  match xs with
  | [] => []
  | x :: xs' =>
      let '(b, g1) := p g w i x in
      if b then let '(r, g2) := f g1 w j x in
                match r with Some y => y :: draw_some p f w (S i) (S j) g2 xs' | None => draw_some p f w (S i) (S j) g2 xs' end
      else draw_some p f w (S i) j g1 xs'
  end.
Definition picky {V G} (p : G -> nat -> nat -> V -> bool * G) : G -> nat -> nat -> V -> result bool * G :=
  fun g w i x => let '(b, g') := p g w i x in (Ok b, g').
Definition skipping {V G} (f : G -> nat -> nat -> V -> option V * G) : G -> nat -> nat -> V -> ures V * G :=
  fun g w i x => let '(r, g') := f g w i x in (match r with Some y => UOk y | None => USkip end, g').

Theorem C67_skip_draws {V G} nw (seed : nat -> G) (p : G -> nat -> nat -> V -> bool * G) (f : G -> nat -> nat -> V -> option V * G) (D : dataset V) w xs :
  w < nw -> starts_with w (fresh D) xs ->
  exists ys, starts_with w (fresh (wrap (random_ds nw seed (mkRpipe [RFilter (picky p); RMap (skipping f)] None [])) D)) ys /\
    map pl ys = draw_some p f w 0 0 (seed w) (map pl xs).
Proof.
  intros Hw E. set (P := mkRpipe [RFilter (picky p); RMap (skipping f)] None []).
  assert (F : forall xs n m g, exists ys st, rc_fold P w (mkRidx [n; m] 0 []) g [] [] (map Some xs) = (map Yield ys, st) /\
            map pl ys = draw_some p f w n m g (map pl xs)).
  { clear. induction xs as [|x xs IH]; intros n m g; [exists [], (mkRidx [n; m] 0 [], g, ([], [])); split; reflexivity|].
    cbn [map rc_fold draw_some]. unfold run_pull. cbn [rp_pre P ri_pre run_stages rp_batch ri_batch ri_post]. unfold picky at 1.
    destruct (p g w n (pl x)) as [[|] g1].
    - unfold skipping at 1. destruct (f g1 w m (pl x)) as [[y|] g2].
      + unfold run_post. cbn [rp_post P ri_post run_stages ri_pre ri_batch fst snd rc_here].
        destruct (IH (S n) (S m) g2) as (ys & st & EQ & EM). rewrite EQ. eexists (_ :: ys), st. split; [reflexivity|]. cbn. rewrite EM. reflexivity.
      + cbn [fst snd rc_here ri_pre ri_batch ri_post]. destruct (IH (S n) (S m) g2) as (ys & st & EQ & EM). rewrite EQ. exists ys, st. split; [reflexivity|exact EM].
    - cbn [fst snd rc_here ri_pre ri_batch ri_post]. destruct (IH (S n) m g1) as (ys & st & EQ & EM). rewrite EQ. exists ys, st. split; [reflexivity|exact EM]. }
  destruct (F xs 0 0 (seed w)) as (ys & st & EQ & EM). exists ys. split; [|exact EM].
  unfold starts_with in *. rewrite <- samples_of_inp in E.
  assert (X : emits (D := wrap (random_ds nw seed P) D) w (fresh (wrap (random_ds nw seed P) D)) (fst (rc_fold P w (ridx0 P) (seed w) [] [] (map Some xs)))).
  { apply rc_forward; auto.
    - intros b HB. discriminate.
    - right. discriminate.
    - intros i g b k [a|]; [|reflexivity]. unfold run_pull. cbn [rp_pre P rp_batch].
      destruct (ri_pre i) as [|n ns]; cbn [run_stages]; unfold run_post; cbn [rp_post P run_stages]; [reflexivity|].
      unfold picky. destruct (p g w n (pl a)) as [[|] g1]; [|reflexivity]. destruct ns as [|m ns]; [reflexivity|].
      unfold skipping. destruct (f g1 w m (pl a)) as [[y|] g2]; reflexivity. }
  change (ridx0 P) with (mkRidx [0; 0] 0 []) in X. rewrite EQ in X. exact X.
Qed.
Print Assumptions C67_skip_draws.

(** a filter that rejects when its number is 3 or 4 modulo 5, and a function that skips when its number is divisible by three *)
Example C67_skip_nonvacuous :
  let p := fun (g w i x : nat) => (g mod 5 <? 3, S g) in let f := fun (g w i x : nat) => (if g mod 3 =? 0 then None else Some (x + 100 * g), S g) in
  (exists xs, starts_with 0 (fresh (stream_ds (fun i => i))) xs /\ map pl xs = seq 0 7) /\
  draw_some p f 0 0 0 0 (seq 0 7) = [100; 804; 1106].
Proof.
  split; [|vm_compute; reflexivity].
  pose proof (@runk_emits _ (stream_ds (fun i => i)) 0 10 7 (fresh (stream_ds (fun i => i)))) as X.
  match type of X with emits _ _ ?l => let v := eval vm_compute in l in change l with v in X end.
  match type of X with emits _ _ [Yield ?a; Yield ?b; Yield ?c; Yield ?d; Yield ?e; Yield ?f; Yield ?g] => exists [a; b; c; d; e; f; g] end.
  split; [exact X|reflexivity].
Qed.

Section Batches.
  Context {V G : Type} (nw size : nat) (f h : @rfun V G V) (bf : @rfun V G (list V)) (drop : bool) (w : nat).
  Definition batch_pipe : rpipe V G := mkRpipe [RMap (always f)] (Some (mkRbatch size drop (always bf))) [RMap (always h)].
  Notation P := batch_pipe.

  Lemma fold_fill : forall (xs : list (sample V)) n b g bt k, length bt + length xs < size ->
    exists ys ks, rc_fold P w (mkRidx [n] b [b]) g bt k (map Some xs) =
      ([], (mkRidx [n + length xs] b [b], snd (draw_all f w n g (map pl xs)), (bt ++ ys, k ++ ks))) /\
      map pl ys = fst (draw_all f w n g (map pl xs)) /\ length ys = length xs.
  Proof.
    induction xs as [|x xs IH]; intros n b g bt k HL.
    - exists [], []. cbn. rewrite !app_nil_r, Nat.add_0_r. auto.
    - cbn [map rc_fold draw_all]. cbn [length] in HL. unfold run_pull. cbn [rp_pre P ri_pre run_stages rp_batch ri_batch ri_post]. unfold always at 1.
      destruct (f g w n (pl x)) as [y g1]. cbn [run_stages rb_size].
      replace (length (bt ++ [mkS y (map_key n (rk x))]) =? size) with false by (symmetry; apply Nat.eqb_neq; rewrite app_length; cbn; lia).
      cbn [rc_here fst snd]. destruct (IH (S n) b g1 (bt ++ [mkS y (map_key n (rk x))]) (k ++ [map_key n (rk x)])) as (ys & ks & EQ & EM & EL).
      { rewrite app_length. cbn. lia. }
      cbn [rk]. rewrite EQ. destruct (draw_all f w (S n) g1 (map pl xs)) as [zs g2]. cbn [fst snd] in *.
      exists (mkS y (map_key n (rk x)) :: ys), (map_key n (rk x) :: ks). rewrite <- !app_assoc. cbn [app length map pl].
      rewrite EM, EL. replace (n + S (length xs)) with (S n + length xs) by lia. auto.
  Qed.

  Lemma draw_all_snoc xs x : forall n g, draw_all f w n g (xs ++ [x]) =
    let '(ys, g1) := draw_all f w n g xs in let '(y, g2) := f g1 w (n + length xs) x in (ys ++ [y], g2).
  Proof.
    induction xs as [|z xs IH]; intros n g; cbn [app draw_all length].
    - rewrite Nat.add_0_r. destruct (f g w n x) as [y g1]. reflexivity.
    - destruct (f g w n z) as [y g1]. rewrite IH. destruct (draw_all f w (S n) g1 xs) as [ys g2].
      replace (n + S (length xs)) with (S n + length xs) by lia. destruct (f g2 w (S n + length xs) x) as [u g3]. reflexivity.
  Qed.

  Lemma fold_group (xs : list (sample V)) b g : length xs = size -> 0 < size ->
    exists y : sample V, rc_fold P w (mkRidx [b * size] b [b]) g [] [] (map Some xs) =
      (let '(ys, g1) := draw_all f w (b * size) g (map pl xs) in
      let '(z, g2) := bf g1 w b ys in
      let '(u, g3) := h g2 w b z in
      ([Yield y], (mkRidx [S b * size] (S b) [S b], g3, ([], [])))) /\
      pl y = (let '(ys, g1) := draw_all f w (b * size) g (map pl xs) in let '(z, g2) := bf g1 w b ys in fst (h g2 w b z)).
  Proof.
    intros HL HS. destruct (@exists_last _ xs) as (xs' & x & ->); [destruct xs; cbn in HL; [lia|discriminate]|].
    rewrite app_length in HL. cbn in HL.
    rewrite !map_app, rc_fold_app. destruct (@fold_fill xs' (b * size) b g [] []) as (ys & ks & EQ & EM & EL); [cbn; lia|].
    rewrite EQ. cbn [map rc_fold]. unfold run_pull. cbn [rp_pre P ri_pre run_stages rp_batch ri_batch ri_post]. unfold always at 1.
    rewrite draw_all_snoc, map_length. destruct (draw_all f w (b * size) g (map pl xs')) as [zs g1]. cbn [fst snd] in *.
    destruct (f g1 w (b * size + length xs') (pl x)) as [u g2]. cbn [run_stages rb_size app].
    replace (length (ys ++ [mkS u (map_key (b * size + length xs') (rk x))]) =? size) with true by (symmetry; apply Nat.eqb_eq; rewrite app_length; cbn; lia).
    unfold run_flush. cbn [rb_fn ri_batch]. unfold always at 1. rewrite map_app, EM. cbn [map pl].
    destruct (bf g2 w b (zs ++ [u])) as [z g3]. unfold run_post. cbn [rp_post P ri_post run_stages pl ri_pre ri_batch]. unfold always.
    destruct (h g3 w b z) as [v g4]. cbn [obs app rc_here fst snd].
    eexists (mkS v _). split; [|reflexivity]. replace (S (b * size + length xs')) with (S b * size) by lia. reflexivity.
  Qed.

  Lemma fold_batches : 0 < size -> forall n b g (xs : list (sample V)), n * size <= length xs -> length xs < S n * size ->
    exists ys st, rc_fold P w (mkRidx [b * size] b [b]) g [] [] (map Some xs) = (map Yield ys, st) /\
      map pl ys = draw_batches f bf h size w n b g (map pl xs).
  Proof.
    intros HS. induction n as [|n IH]; intros b g xs H1 H2.
    - destruct (@fold_fill xs (b * size) b g [] []) as (ys & ks & EQ & _ & _); [cbn; lia|].
      exists [], (snd (rc_fold P w (mkRidx [b * size] b [b]) g [] [] (map Some xs))). rewrite EQ. split; reflexivity.
    - assert (SP : map Some xs = map Some (firstn size xs) ++ map Some (skipn size xs)) by (rewrite <- map_app, firstn_skipn; reflexivity).
      rewrite SP, rc_fold_app.
      destruct (@fold_group (firstn size xs) b g) as (y & EQ); [rewrite firstn_length; lia|exact HS|].
      cbn [draw_batches]. rewrite firstn_map, skipn_map.
      destruct (draw_all f w (b * size) g (map pl (firstn size xs))) as [zs g1]. destruct (bf g1 w b zs) as [z g2].
      destruct (h g2 w b z) as [u g3] eqn:EH. destruct EQ as [-> EY]. cbn [fst] in EY.
      destruct (IH (S b) g3 (skipn size xs)) as (ys & st & EQ & EM); [rewrite skipn_length; lia|rewrite skipn_length; lia|].
      rewrite EQ. exists (y :: ys), st. split; [reflexivity|]. cbn. rewrite EY, EM. reflexivity.
  Qed.
End Batches.

(** random encode_sample, batch and encode_batch: all three draw from the same generators, in the order in which they are
    called (so the incomplete last batch has already advanced them) *)
Theorem C67_batch_draws {V G} nw (seed : nat -> G) size (f h : @rfun V G V) (bf : @rfun V G (list V)) (D : dataset V) w xs :
  w < nw -> 0 < size -> starts_with w (fresh D) xs ->
  exists ys, starts_with w (fresh (wrap (random_ds nw seed
       (mkRpipe [RMap (always f)] (Some (mkRbatch size true (always bf))) [RMap (always h)])) D)) ys /\
    map pl ys = draw_batches f bf h size w (length xs / size) 0 (seed w) (map pl xs).
Proof.
  intros Hw HS E.
  destruct (@fold_batches V G size f h bf true w HS (length xs / size) 0 (seed w) xs) as (ys & st & EQ & EM).
  { pose proof (Nat.mul_div_le (length xs) size). lia. }
  { pose proof (Nat.mul_succ_div_gt (length xs) size). lia. }
  exists ys. split; [|exact EM]. unfold starts_with in *. rewrite <- samples_of_inp in E.
  fold (batch_pipe size f h bf true). set (P := batch_pipe size f h bf true) in *.
  assert (X : emits (D := wrap (random_ds nw seed P) D) w (fresh (wrap (random_ds nw seed P) D)) (fst (rc_fold P w (ridx0 P) (seed w) [] [] (map Some xs)))).
  { apply rc_forward; auto.
    - intros b HB g w0 i l. injection HB as <-. cbn. unfold always. destruct (bf g w0 i l) as [y g']. eauto.
    - right. intros b HB. injection HB as <-. reflexivity.
    - assert (PS : forall fs (idx : list nat) (g : G) (a : sample V), (forall s, In s fs -> exists q, s = RMap (always q)) ->
        is_raise (fst (fst (run_stages fs w idx g a))) = false).
      { clear. induction fs as [|s fs IH]; intros idx g a HF; [reflexivity|].
        destruct (HF s (or_introl eq_refl)) as [q ->]. cbn [run_stages]. destruct idx as [|n ns]; [reflexivity|]. unfold always.
        destruct (q g w n (pl a)) as [y g1]. specialize (IH ns g1 (mkS y (map_key n (rk a))) (fun s H => HF s (or_intror H))).
        destruct (run_stages fs w ns g1 _) as [[e i2] g2]. exact IH. }
      intros i g b k [a|]; unfold run_pull; cbn [rp_batch P batch_pipe].
      + specialize (PS (rp_pre P) (ri_pre i) g a) as P1.
        destruct (run_stages (rp_pre P) w (ri_pre i) g a) as [[e idx] g1]. destruct e as [a'| | |x]; try reflexivity.
        * cbn [rb_size]. destruct (length (b ++ [a']) =? size); [|reflexivity]. unfold run_flush. cbn [rb_fn]. unfold always at 1.
          destruct (bf g1 w _ _) as [z g2]. unfold run_post.
          match goal with |- context [run_stages ?fs w ?ix g2 ?aa] => specialize (PS fs ix g2 aa); destruct (run_stages fs w ix g2 aa) as [[e2 i2] g3] end.
          cbn [fst] in *. apply PS. intros s0 [<- | []]. eauto.
        * apply P1. intros s0 [<- | []]. eauto.
      + cbn [rb_drop negb]. rewrite andb_false_r. reflexivity. }
  change (ridx0 P) with (mkRidx [0 * size] 0 [0]) in X. rewrite EQ in X. exact X.
Qed.
Print Assumptions C67_batch_draws.

(** ** concrete functions *)
(** encode_sample adds a random number to the sample; batch adds the samples and a random number; a generator as in Rng.v *)
Definition jitter : @rfun nat nat nat := fun g w i x => (x + g, lcg_next g).
Definition jitter_sum : @rfun nat nat (list nat) := fun g w i l => (list_sum l + g, lcg_next g).
Definition seeds (w : nat) : nat := 7 * w + 1.
Definition jitter_pipe : rpipe nat nat := mkRpipe [RMap (always jitter)] (Some (mkRbatch 2 true (always jitter_sum))) [RMap (always jitter)].
Definition jitter_ds : dataset nat := wrap (random_ds 2 seeds jitter_pipe) (stream_ds (fun i => i)).

(** the hypotheses can be met: worker 1 after two batches; the random numbers matter *)
Example C67_nonvacuous :
  (forall b, rp_batch jitter_pipe = Some b -> forall g w i l, exists y g', rb_fn b g w i l = (UOk y, g')) /\
  resumable jitter_ds false 2 /\
  (exists s ys, reach (D := jitter_ds) 1 false 2 s /\ starts_with (D := jitter_ds) 1 s ys /\ map pl ys = [123; 111]) /\
  draw_batches jitter jitter_sum jitter 2 1 4 0 (seeds 1) (seq 0 8) = [83; 71; 123; 111].
Proof.
  split. { intros b HB g w i l. injection HB as <-. cbn. eauto. }
  split. { apply C67_random_resumes; [intros b HB g w i l; injection HB as <-; cbn; eauto|left; apply stream_endless|apply stream_resumable]. }
  split; [|vm_compute; reflexivity].
  exists (stk (D := jitter_ds) 1 50 2 (fresh jitter_ds)). 
  pose proof (@runk_emits _ jitter_ds 1 50 2 (stk (D := jitter_ds) 1 50 2 (fresh jitter_ds))) as X.
  eexists. split; [apply stk_reach; constructor|]. split.
  - match type of X with emits _ _ ?l => let v := eval vm_compute in l in change l with v in X end.
    unfold starts_with. match type of X with emits _ _ [Yield ?a; Yield ?b] => instantiate (1 := [a; b]) end. exact X.
  - vm_compute. reflexivity.
Qed.

(** ** where it does not hold *)

(** Without workers (num_workers = 0) the generators are not part of the saved state: the restored loader goes on with the right
    sample (number 1 of the stream), but with other random numbers (those a new process starts with) *)
Theorem C67_no_workers_refuted :
  let W := wrap (random_simple_ds 1 seeds (mkRpipe [RMap (always jitter)] None [])) (stream_ds (fun i => i)) in
  exists (s : st W) y s1 y' s2, reach 0 false 1 s /\ next 0 s (Yield y) s1 /\
    next (D := W) 0 (ds_restore W (Some (ds_merge W [Some (ds_save W 0 (fst s))])) (ds_init W), ds_iter W) (Yield y') s2 /\
    rk y = rk y' /\ rk y = map_key 1 (src_key 1) /\
    pl y = fst (jitter (snd (jitter (seeds 0) 0 0 0)) 0 1 1) /\ pl y' = fst (jitter (seeds 0) 0 1 1) /\ pl y <> pl y'.
Proof.
  cbv zeta. set (W := wrap _ _).
  exists (stk (D := W) 0 50 1 (fresh W)). eexists _, _, _, _. split; [apply stk_reach; constructor|].
  split; [exists 50; vm_compute; reflexivity|]. split; [exists 50; vm_compute; reflexivity|]. split; [reflexivity|]. split; [reflexivity|].
  split; [reflexivity|]. split; [reflexivity|]. vm_compute. congruence.
Qed.
Print Assumptions C67_no_workers_refuted.

(** A map function that is a generator function: the samples delivered before the checkpoint are computed again when resuming,
    but with the generators as they were after them, so different numbers are drawn for the remaining ones *)
Theorem C67_generator_refuted :
  let W := wrap (randomgen_ds 1 seeds 3 (fun g w i x j => jitter g w j x)) (stream_ds (fun i => i)) in
  exists (s : st W) y s1 y' s2, reach 0 false 1 s /\ next 0 s (Yield y) s1 /\
    next (D := W) 0 (ds_restore W (Some (ds_merge W [Some (ds_save W 0 (fst s))])) (ds_init W), ds_iter W) (Yield y') s2 /\
    pl y = 8 /\ pl y' = 43.
Proof.
  cbv zeta. set (W := wrap _ _).
  exists (stk (D := W) 0 50 1 (fresh W)). eexists _, _, _, _. split; [apply stk_reach; constructor|].
  split; [exists 50; vm_compute; reflexivity|]. split; [exists 50; vm_compute; reflexivity|]. split; reflexivity.
Qed.
Print Assumptions C67_generator_refuted.

(** A worker that had not delivered anything when the state was saved has no saved generators: the process it is restored in
    starts it with its own seed.  Here worker 1 of 2 is restored in process 0 (the turn order was rotated by one): it delivers the
    samples that worker 1 would have delivered, but with the random numbers of worker 0. *)
Theorem C67_unstarted_worker_refuted : let P := mkRpipe [RMap (always jitter)] None [] in
  let W := wrap (random_ds 2 seeds P) (stream_ds (fun i => i)) in
  let W' := wrap (random_ds 2 (fun w => seeds ((w + 1) mod 2)) P) (stream_ds (fun i => i)) in
  exists (s : st W) sts l l', reach 0 false 2 s /\ nth_error sts 0 = Some (Some (ds_save W 0 (fst s))) /\ nth_error sts 1 = Some None /\ length sts = 2 /\
    emits (D := W) 1 (fresh W) l /\
    emits (D := W') 1 (ds_restore W' (Some (ds_merge W' sts)) (ds_init W'), ds_iter W') l' /\
    length l = 3 /\ length l' = 3 /\
    map pl (samples l) = fst (draw_all jitter 1 0 (seeds 1) [0; 1; 2]) /\
    map pl (samples l') = fst (draw_all jitter 0 0 (seeds 0) [0; 1; 2]) /\ l <> l'.
Proof.
  cbv zeta. set (W := wrap (random_ds 2 seeds _) _). set (W' := wrap (random_ds 2 (fun w => seeds ((w + 1) mod 2)) _) _).
  exists (stk 0 50 1 (fresh W)), [Some (ds_save W 0 (fst (stk 0 50 1 (fresh W)))); None],
    (runk 1 50 3 (fresh W)),
    (runk 1 50 3 (ds_restore W' (Some (ds_merge W' [Some (ds_save W 0 (fst (stk 0 50 1 (fresh W)))); None])) (ds_init W'), ds_iter W')).
  split; [apply stk_reach; constructor|]. split; [reflexivity|]. split; [reflexivity|]. split; [reflexivity|].
  split; [apply runk_emits|]. split; [apply runk_emits|].
  split; [vm_compute; reflexivity|]. split; [vm_compute; reflexivity|]. split; [vm_compute; reflexivity|]. split; [vm_compute; reflexivity|].
  vm_compute. congruence.
Qed.
Print Assumptions C67_unstarted_worker_refuted.
