(** What the sample loader yields is a row of one of the worker's sub-shards, so it can be restored
    whenever the rows of the sub-shards can (C15). *)
From Coq Require Import QArith.
From Verif Require Import Base Dataset DatasetProofs Rng Sharder SharderSpec SampleLoader SampleLoaderSpec SampleLoaderProofs
  SampleLoaderProofs3.
Local Close Scope Q_scope.
Local Close Scope Z_scope.
Local Open Scope nat_scope.

Section P.
  Context {X : Type} (R : rng_ops).
  Variables (shards : list (list shseq)) (content : shseq -> list (sample X))
            (par : nat) (shuffle : shuffling) (loop : bool)
            (rsample : nat -> rkey -> result (sample X)).
  Notation L := (loader_ds R shards content par shuffle loop rsample).
  Notation ws := (worker_shards shards).
  Hypothesis HK : forall w, distinct_keys (ws w).

  Definition row_of (w : nat) (a : sample X) : Prop := exists t k, In t (ws w) /\ nth_error (content t) k = Some a.

  Lemma loop_row w r (s : slot) probs r' s' g' a : slot_ok shards par w s ->
    @sl_loop X R shards content par shuffle loop w r s probs = (r', s', g', Yield a) -> row_of w a.
  Proof.
    intros (_ & HA & _) E. unfold sl_loop in E. destruct (forallb _ _).
    { destruct loop; discriminate. }
    destruct (match shuffle with NoShuffle => (0, r) | _ => wrng_choice_idx w probs r end) as [i r1].
    destruct (match shuffle with NoShuffle => negb (par =? 1) | _ => false end); [discriminate|].
    destruct (nth_error (sl_act s) i) as [[[sh k]|]|] eqn:Ei; try discriminate.
    assert (Ish : In sh (ws w)) by exact (proj1 (Forall_forall _ _) HA _ (nth_error_In _ _ Ei)).
    destruct (nth_error (content sh) k) as [row|] eqn:Ek.
    - injection E as _ _ _ <-. exists sh, k. auto.
    - destruct (sl_pend s); [|discriminate]. destruct shuffle; try discriminate.
      destruct (@draw R w (ws w) r1) as [[t|e] r2]; discriminate.
  Qed.

  Lemma head_no_yield w r (s : slot) r' s' g' a : @sl_head X R shards par shuffle w r s <> (r', s', g', @Yield (sample X) a).
  Proof.
    unfold sl_head. destruct (existsb _ _ || _); [destruct (_ =? par); discriminate|].
    destruct (@shards_once R par shuffle w (ws w) r) as [[o|e] q]; discriminate.
  Qed.

  Lemma loader_yields_rows rst w (s s' : st L) a : w < length shards -> reach w rst (length shards) s ->
    next w s (Yield a) s' -> row_of w a.
  Proof.
    intros W HR N. destruct (reach_savable HK W HR) as [HI _]. clear HR.
    apply (@next_inv _ L w (sinv (R := R) (content := content) (loop := loop) (rsample := rsample) (par := par) (shuffle := shuffle) w)
             (fun e _ => match e with Yield a => row_of w a | _ => True end)) in N; auto.
    intros [o g] H. pose proof (step_inv HK W H) as SI. destruct H as (HL & HS & HG). cbn [fst snd] in *.
    destruct (ds_step L w o g) as [[o1 g1] e] eqn:E. destruct e as [b| | |]; auto.
    cbn [ds_step loader_ds] in E. destruct g as [| |probs].
    - destruct (sl_bad _); [discriminate|]. destruct (ws w); discriminate.
    - destruct (@sl_head X R shards par shuffle w (so_rng o) (slot_at par w o)) as [[[r s1] g2] e2] eqn:EH.
      injection E as _ _ ->. exfalso. exact (head_no_yield EH).
    - destruct (@sl_loop X R shards content par shuffle loop w (so_rng o) (slot_at par w o) probs) as [[[r s1] g2] e2] eqn:EH.
      injection E as _ _ ->. exact (loop_row HS EH).
  Qed.

  Theorem loader_restorable rst :
    (forall w t k a, w < length shards -> In t (ws w) -> nth_error (content t) k = Some a -> rsample w (rk a) = Ok a) ->
    restorable L rst (length shards).
  Proof.
    intros HRS w s a s' W HR N. destruct (loader_yields_rows W HR N) as (t & k & It & E).
    cbn [ds_restore_sample loader_ds]. eauto.
  Qed.
End P.
