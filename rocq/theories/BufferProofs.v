From Verif Require Import Base Dataset Buffer.

Lemma nth_clear_others {X} w (l : list (list X)) : nth w (clear_others w l) [] = nth w l [].
Proof.
  unfold clear_others.
  assert (G : forall (l : list (list X)) b i, nth i (map (fun p => if fst p =? b + i then snd p else []) (combine (seq b (length l)) l)) [] = nth i l []).
  { clear l. induction l as [|x l IH]; intros b i; [destruct i; reflexivity|]. cbn. destruct i as [|i].
    - rewrite Nat.add_0_r, Nat.eqb_refl. reflexivity.
    - rewrite <- (IH (S b) i). f_equal. replace (b + S i) with (S b + i) by lia. reflexivity. }
  apply (G l 0 w).
Qed.

Lemma clear_others_length {X} w (l : list (list X)) : length (clear_others w l) = length l.
Proof. unfold clear_others. rewrite map_length, combine_length, seq_length. lia. Qed.

Lemma nth_repeat_nil {X} w n : nth w (repeat (@nil X) n) [] = [].
Proof. revert w; induction n as [|n IH]; intros [|w]; cbn; auto. Qed.

Lemma remove_at_length {X} (l : list X) i : i < length l -> S (length (remove_at i l)) = length l.
Proof. intros H. unfold remove_at. rewrite app_length, firstn_length, skipn_length. lia. Qed.

Lemma remove_at_map {X Y} (f : X -> Y) l i : remove_at i (map f l) = map f (remove_at i l).
Proof. unfold remove_at. rewrite map_app, firstn_map, skipn_map. reflexivity. Qed.

Lemma remove_at_perm {X} (l : list X) i x : nth_error l i = Some x -> Permutation l (x :: remove_at i l).
Proof.
  intros H. unfold remove_at. rewrite <- (firstn_skipn i l) at 1. rewrite (skipn_cons_nth H).
  symmetry. apply Permutation_middle.
Qed.

Lemma restore_all_ok {A} (rs : rkey -> result (sample A)) l :
  Forall (fun a => rs (rk a) = Ok a) l -> restore_all rs (map rk l) = Ok l.
Proof. induction 1 as [|a l H _ IH]; cbn; [reflexivity|]. rewrite H, IH. reflexivity. Qed.

Section Buf.
  Context {A : Type} (w nw : nat) (Hw : w < nw).

  (** worker [w]'s part of the buffer is consistent and holds [l] *)
  Definition buf_is (l : list (sample A)) (b : buffer A) : Prop :=
    b_pend b = false /\ length (b_buf b) = nw /\ length (b_keys b) = nw /\
    buf_at w b = l /\ keys_at w b = map rk l.

  (** ... or will hold it once worker_start has restored it *)
  Definition buf_pending (l : list (sample A)) (b : buffer A) : Prop :=
    b_pend b = true /\ length (b_buf b) = nw /\ length (b_keys b) = nw /\
    buf_at w b = [] /\ keys_at w b = map rk l.

  Lemma buf_is_len l b : buf_is l b -> buf_len w b = length l.
  Proof using. intros (_ & _ & _ & _ & H). unfold buf_len. rewrite H. apply map_length. Qed.

  Lemma buf_init_is : buf_is [] (buf_init nw).
  Proof using.
    unfold buf_is, buf_init, buf_at, keys_at. cbn. rewrite !repeat_length, !nth_repeat_nil. auto.
  Qed.

  Lemma buf_set_is l l' ks b : buf_is l b -> ks = map rk l' -> buf_is l' (buf_set w l' ks b).
  Proof using Hw.
    intros (H1 & H2 & H3 & _ & _) ->. unfold buf_is, buf_set, buf_at, keys_at. cbn.
    rewrite !upd_length, !nth_upd_same by lia. auto.
  Qed.

  Lemma buf_append_is l a b : buf_is l b -> buf_is (l ++ [a]) (buf_append w a b).
  Proof using Hw.
    intros H. pose proof H as (_ & _ & _ & H4 & H5). unfold buf_append. rewrite H4, H5.
    eapply buf_set_is; eauto. rewrite map_app. reflexivity.
  Qed.

  Lemma buf_pop_is l i b : buf_is l b ->
    buf_pop w i b = match nth_error l i with
                    | Some a => Some (a, buf_set w (remove_at i l) (map rk (remove_at i l)) b)
                    | None => None
                    end.
  Proof using.
    intros (_ & _ & _ & H4 & H5). unfold buf_pop. rewrite H4, H5. destruct (nth_error l i); [|reflexivity].
    rewrite remove_at_map. reflexivity.
  Qed.

  Lemma buf_extend_is l l' ks b : buf_is l b -> ks = map rk l' -> buf_is (l ++ l') (buf_extend w l' ks b).
  Proof using Hw.
    intros H ->. pose proof H as (_ & _ & _ & H4 & H5). unfold buf_extend. rewrite H4, H5.
    eapply buf_set_is; eauto. rewrite map_app. reflexivity.
  Qed.

  Lemma buf_flush_is l b : buf_is l b ->
    buf_flush w b = (l, map rk l, buf_set w [] [] b) /\ buf_is [] (buf_set w [] [] b).
  Proof using Hw.
    intros H. pose proof H as (_ & _ & _ & H4 & H5). unfold buf_flush. rewrite H4, H5.
    split; [reflexivity|]. eapply buf_set_is; eauto.
  Qed.

  Lemma buf_start_is rs l b : buf_is l b -> exists b', buf_start rs w b = Ok b' /\ buf_is l b'.
  Proof using.
    intros (H1 & H2 & H3 & H4 & H5). unfold buf_start. cbn [b_pend b_buf b_keys]. rewrite H1. cbn [bind].
    unfold buf_at, keys_at in *. cbn [b_pend b_buf b_keys]. rewrite !nth_clear_others, H4, H5, map_length, Nat.eqb_refl.
    eexists. split; [reflexivity|]. unfold buf_is, buf_at, keys_at. cbn [b_pend b_buf b_keys].
    rewrite !clear_others_length, !nth_clear_others. auto.
  Qed.

  Lemma buf_start_pending rs l b : Forall (fun a => rs (rk a) = Ok a) l -> buf_pending l b ->
    exists b', buf_start rs w b = Ok b' /\ buf_is l b'.
  Proof using Hw.
    intros HF (H1 & H2 & H3 & H4 & H5). unfold buf_start. cbn [b_pend b_buf b_keys]. rewrite H1.
    unfold buf_at, keys_at in *. cbn [b_pend b_buf b_keys]. rewrite !nth_clear_others, H4, H5.
    cbn [length Nat.eqb]. rewrite (restore_all_ok HF). cbn [bind]. cbn [b_pend b_buf b_keys].
    rewrite nth_upd_same by (rewrite clear_others_length; lia).
    rewrite nth_clear_others, H5, map_length, Nat.eqb_refl.
    eexists. split; [reflexivity|]. unfold buf_is, buf_at, keys_at. cbn [b_pend b_buf b_keys].
    rewrite upd_length, !clear_others_length, nth_clear_others, nth_upd_same by (rewrite clear_others_length; lia). auto.
  Qed.

  Lemma buf_restore_pending l b sts : buf_is l b \/ buf_pending l b -> length sts = nw ->
    nth_error sts w = Some (Some (buf_save w b)) -> buf_pending l (buf_restore (A := A) nw (Some (buf_merge sts))).
  Proof using.
    intros H Hl Hs. assert (K : buf_save w b = map rk l) by (destruct H as [(_ & _ & _ & _ & H)|(_ & _ & _ & _ & H)]; exact H).
    unfold buf_pending, buf_restore, buf_merge, buf_at, keys_at. cbn.
    rewrite map_length, repeat_length, nth_repeat_nil, Hl. repeat split; auto.
    rewrite K in Hs.
    erewrite nth_error_nth; [reflexivity|]. rewrite nth_error_map, Hs. reflexivity.
  Qed.

  Lemma buf_restore_none : buf_is [] (buf_restore nw None).
  Proof using. apply buf_init_is. Qed.
End Buf.
