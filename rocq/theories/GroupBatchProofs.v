(** GroupBatchDataset: its steps in terms of the buckets' contents. *)
From Coq Require Import String.
From Verif Require Import Base Dataset DatasetProofs Wrap WrapProofs WrapRun WrapTrace WrapSpec WrapLib
  Wrappers IdxProofs Buffer BufferProofs Batch BatchSpec GroupBatch.
From Verif Require BatchProofs.
Local Open Scope nat_scope.
Local Open Scope list_scope.

Lemma Forall2_nth_error {X Y} (R : X -> Y -> Prop) l1 l2 j : Forall2 R l1 l2 ->
  match nth_error l1 j, nth_error l2 j with
  | Some x, Some y => R x y
  | None, None => True
  | _, _ => False
  end.
Proof. intros H. revert j. induction H as [|x y l1 l2 Hxy H IH]; intros [|j]; cbn; auto. exact (IH j). Qed.

Lemma Forall2_len {X Y} (R : X -> Y -> Prop) l1 l2 : Forall2 R l1 l2 -> length l1 = length l2.
Proof. induction 1; cbn; auto. Qed.

Lemma Forall2_upd {X Y} (R : X -> Y -> Prop) l1 l2 j x y : Forall2 R l1 l2 -> R x y -> Forall2 R (upd l1 j x) (upd l2 j y).
Proof. intros H. revert j. induction H as [|x' y' l1 l2 Hxy H IH]; intros [|j] Hn; cbn; constructor; auto. Qed.

Lemma Forall_upd {X} (P : X -> Prop) l j x : Forall P l -> P x -> Forall P (upd l j x).
Proof. intros H. revert j. induction H as [|x' l Hx H IH]; intros [|j] Hn; cbn; constructor; auto. Qed.

Section GB.
  Context {A B K : Type} (keq : K -> K -> bool) (nw : nat) (fixed : option nat) (drop_last repaired : bool).
  Variable kf : nat -> nat -> A -> ures (K * option nat).
  Variable f : nat -> nat -> list A -> ures B.
  Notation T := (groupbatch_ds keq nw fixed drop_last repaired kf f).

  Lemma gb_no_reset : no_reset T.
  Proof.
    intros rs w o g o' g'. destruct g; cbn [groupbatch_ds t_act].
    - destruct (gb_start rs w (gb_at w o)); discriminate.
    - discriminate.
    - destruct (nth_error (gb_at w o) j) as [[k [bs b]]|]; [|discriminate]. destruct (0 <? buf_len w b); [|discriminate].
      destruct (gb_flush f w j (gb_at w o) o (GFlush (S j))) as [[? ?] ?]. discriminate.
  Qed.

  (** the buckets' contents, and the two counters *)
  Definition content : Type := list (K * (nat * list (sample A))).
  Definition pst : Type := (nat * nat * content)%type.

  Section W.
    Variable w : nat.
    Hypothesis Hw : w < nw.

    Definition bview (p : bucket) (q : K * (nat * list (sample A))) : Prop :=
      fst p = fst q /\ fst (snd p) = fst (snd q) /\ buf_is w nw (snd (snd q)) (snd (snd p)).
    Definition eview (p : bucket) (q : K * (nat * list (sample A))) : Prop :=
      fst p = fst q /\ fst (snd p) = fst (snd q) /\
      (buf_is w nw (snd (snd q)) (snd (snd p)) \/ buf_pending w nw (snd (snd q)) (snd (snd p))).

    Definition sizes (o : gb_obj) : Prop := length (gb_kidx o) = nw /\ length (gb_bidx o) = nw /\ length (gb_bks (K := K) (A := A) o) = nw.
    Definition holds (V : bucket -> K * (nat * list (sample A)) -> Prop) (o : gb_obj) (p : pst) : Prop :=
      let '(ki, bi, v) := p in
      sizes o /\ nth w (gb_kidx o) 0 = ki /\ nth w (gb_bidx o) 0 = bi /\ Forall2 V (gb_at w o) v.

    (** *** the same steps on contents *)
    Definition p_flush (j : nat) (p : pst) : pst * event (sample B) :=
      let '(ki, bi, v) := p in
      match nth_error v j with
      | None => (p, Raise IndexError)
      | Some (k, (bs, l)) =>
          ((ki, S bi, upd v j (k, (bs, []))),
           match f w bi (map pl l) with
           | UOk y => Yield (mkS y (group_key bi (map rk l)))
           | USkip | UErr => Tau
           | UFatal => Raise OtherError
           end)
      end.
    Definition p_add (k : K) (bs : nat) (a : sample A) (v : content) : result (content * nat) :=
      match kpos keq k v with
      | None => Ok (v ++ [(k, (bs, [a]))], length v)
      | Some j =>
          match nth_error v j with
          | Some (k', (bs', l)) => if bs' =? bs then Ok (upd v j (k', (bs', l ++ [a])), j) else Err AssertionError
          | None => Err IndexError
          end
      end.
    Definition p_len (j : nat) (v : content) : nat :=
      match nth_error v j with Some (_, (_, l)) => length l | None => 0 end.
    Definition p_sample (p : pst) (a : sample A) : pst * event (sample B) :=
      let '(ki, bi, v) := p in
      match kf w ki (pl a) with
      | USkip | UErr => ((S ki, bi, v), Tau)
      | UFatal => ((S ki, bi, v), Raise OtherError)
      | UOk (k, mbs) =>
          match gb_size fixed mbs with
          | None => ((S ki, bi, v), Tau)
          | Some bs =>
              match p_add k bs a v with
              | Err e => ((S ki, bi, v), Raise e)
              | Ok (v', j) => if bs <=? p_len j v' then p_flush j (S ki, bi, v') else ((S ki, bi, v'), Tau)
              end
          end
      end.

    Lemma kpos_view {X Y} (V : K * X -> K * Y -> Prop) (HV : forall p q, V p q -> fst p = fst q) bks v k : Forall2 V bks v -> kpos keq k bks = kpos keq k v.
    Proof.
      induction 1 as [|[k1 x1] [k2 x2] bks v H _ IH]; cbn; [reflexivity|]. apply HV in H. cbn in H. subst k2. destruct (keq k1 k); [reflexivity|]. rewrite IH. reflexivity.
    Qed.

    Lemma bview_key p q : bview p q -> fst p = fst q.
    Proof. intros H. apply H. Qed.

    Lemma gb_add_view k bs a bks v : Forall2 bview bks v ->
      match gb_add keq nw w k bs a bks, p_add k bs a v with
      | Ok (bks', j), Ok (v', j') => j = j' /\ Forall2 bview bks' v'
      | Err e, Err e' => e = e'
      | _, _ => False
      end.
    Proof.
      intros H. unfold gb_add, p_add. rewrite (kpos_view bview_key k H). destruct (kpos keq k v) as [j|].
      - pose proof (Forall2_nth_error j H) as N. destruct (nth_error bks j) as [[k1 [b1 bf]]|], (nth_error v j) as [[k2 [b2 l]]|]; try contradiction; [|reflexivity].
        destruct N as (N1 & N2 & N3). cbn in N1, N2, N3. subst k2 b2. destruct (b1 =? bs); [|reflexivity]. split; [reflexivity|].
        apply Forall2_upd; [exact H|]. split; [reflexivity|]. split; [reflexivity|]. cbn. apply buf_append_is; assumption.
      - split; [apply (Forall2_len H)|]. apply Forall2_app; [exact H|]. constructor; [|constructor].
        split; [reflexivity|]. split; [reflexivity|]. cbn. apply (buf_append_is Hw a (buf_init_is w nw)).
    Qed.

    Lemma gb_len_view j bks v : Forall2 bview bks v -> gb_len w j bks = p_len j v.
    Proof.
      intros H. unfold gb_len, p_len. pose proof (Forall2_nth_error j H) as N.
      destruct (nth_error bks j) as [[k1 [b1 bf]]|], (nth_error v j) as [[k2 [b2 l]]|]; try contradiction; [|reflexivity].
      apply (buf_is_len (proj2 (proj2 N))).
    Qed.

    Lemma flush_holds j bks o g ki bi v0 v : holds bview o (ki, bi, v0) -> Forall2 bview bks v ->
      exists o', gb_flush f w j bks o g = (o', g, snd (p_flush j (ki, bi, v))) /\
        (is_raise (snd (p_flush j (ki, bi, v))) = false -> holds bview o' (fst (p_flush j (ki, bi, v)))).
    Proof.
      intros ((H1 & H2 & H3) & H4 & H5 & _) H. unfold gb_flush, p_flush. pose proof (Forall2_nth_error j H) as N.
      destruct (nth_error bks j) as [[k1 [b1 bf]]|], (nth_error v j) as [[k2 [b2 l]]|]; try contradiction; [|exists o; split; [reflexivity|discriminate]].
      destruct N as (N1 & N2 & N3). cbn in N1, N2, N3. subst k2 b2. destruct (buf_flush_is Hw N3) as [-> N4]. rewrite H5. cbv zeta.
      eexists. split; [destruct (f w bi (map pl l)); reflexivity|]. intros _. cbn [fst holds]. unfold sizes, gb_at. cbn [gb_kidx gb_bidx gb_bks].
      rewrite !upd_length, !nth_upd_same by lia. repeat split; auto. apply Forall2_upd; [exact H|]. split; [reflexivity|]. split; [reflexivity|]. exact N4.
    Qed.

    Lemma sample_holds o p a : holds bview o p ->
      exists o', gb_sample keq nw fixed kf f w o a = (o', GLoop, snd (p_sample p a)) /\
        (is_raise (snd (p_sample p a)) = false -> holds bview o' (fst (p_sample p a))).
    Proof.
      destruct p as [[ki bi] v]. intros H. pose proof H as ((H1 & H2 & H3) & H4 & H5 & H6). unfold gb_sample, p_sample. rewrite H4. cbv zeta.
      assert (HO : forall v', Forall2 bview (gb_at w o) v' -> holds bview (mkGb (upd (gb_kidx o) w (S ki)) (gb_bidx o) (gb_bks o)) (S ki, bi, v')).
      { intros v' Hv. unfold holds, sizes, gb_at. cbn [gb_kidx gb_bidx gb_bks]. rewrite upd_length, nth_upd_same by lia. auto. }
      destruct (kf w ki (pl a)) as [[k mbs]| | |]; try (eexists; split; [reflexivity|]; intros _; apply HO; exact H6).
      destruct (gb_size fixed mbs) as [bs|]; [|eexists; split; [reflexivity|]; intros _; apply HO; exact H6].
      pose proof (gb_add_view k bs a H6) as HA.
      destruct (gb_add keq nw w k bs a (gb_at w o)) as [[bks j]|e], (p_add k bs a v) as [[v' j']|e']; try contradiction.
      - destruct HA as [<- HA]. rewrite (gb_len_view j HA). destruct (bs <=? p_len j v').
        + eapply flush_holds; [apply HO; exact H6|exact HA].
        + eexists. split; [reflexivity|]. intros _. unfold holds, sizes, gb_at, gb_put. cbn [gb_kidx gb_bidx gb_bks fst].
          rewrite !upd_length, !nth_upd_same by lia. auto.
      - subst e'. eexists. split; [reflexivity|]. discriminate.
    Qed.

    Lemma start_holds rs o p : holds eview o p -> Forall (fun q => Forall (fun a => rs (rk a) = Ok a) (snd (snd q))) (snd p) ->
      exists bks, gb_start rs w (gb_at w o) = Ok bks /\ holds bview (mkGb (gb_kidx o) (gb_bidx o) (upd (clear_others w (gb_bks o)) w bks)) p.
    Proof.
      destruct p as [[ki bi] v]. intros ((H1 & H2 & H3) & H4 & H5 & H6) HF. cbn [snd] in HF.
      assert (X : exists bks, gb_start rs w (gb_at w o) = Ok bks /\ Forall2 bview bks v).
      { unfold gb_start. clear -H6 HF Hw. revert HF. induction H6 as [|[k1 [b1 bf]] [k2 [b2 l]] bks v N _ IH]; intros HF; [exists []; split; [reflexivity|constructor]|].
        inversion_clear HF as [|? ? HF1 HF2]. destruct (IH HF2) as (bks' & E & F2). destruct N as (N1 & N2 & N3). cbn in N1, N2, N3, HF1. subst k2 b2.
        assert (Y : exists b', buf_start rs w bf = Ok b' /\ buf_is w nw l b') by (destruct N3 as [N3|N3]; [apply buf_start_is; exact N3|apply buf_start_pending; auto]).
        destruct Y as (b' & E' & I'). exists ((k1, (b1, b')) :: bks'). split; [|constructor; [|exact F2]; split; [reflexivity|]; split; [reflexivity|exact I']].
        cbn [map sequence snd fst]. rewrite E'. cbn [bind]. rewrite E. reflexivity. }
      destruct X as (bks & E & F2). exists bks. split; [exact E|]. unfold holds, sizes, gb_at. cbn [gb_kidx gb_bidx gb_bks].
      rewrite upd_length, clear_others_length, nth_upd_same by (rewrite clear_others_length; lia). auto.
    Qed.

    (** *** saving and restoring *)
    Lemma combine_nth_error {X Y} (l1 : list X) (l2 : list Y) j x y : nth_error l1 j = Some x -> nth_error l2 j = Some y ->
      nth_error (combine l1 l2) j = Some (x, y).
    Proof.
      revert l2 j. induction l1 as [|a l1 IH]; intros [|c l2] [|j]; cbn; try discriminate; [congruence|]. apply IH.
    Qed.

    Definition emptied (v : content) : content := map (fun q => (fst q, (fst (snd q), []))) v.

    Lemma slot_w (r : bool) (ks : list rkey) :
      nth w (map (fun j => if xorb r (j =? w) then [] else ks) (seq 0 nw)) [] = if r then ks else [].
    Proof.
      erewrite nth_error_nth; [|erewrite map_nth_error; [reflexivity|apply nth_error_nth' with (d := 0); rewrite seq_length; exact Hw]].
      rewrite seq_nth by exact Hw. cbn [Nat.add]. rewrite Nat.eqb_refl. destruct r; reflexivity.
    Qed.

    Lemma restore_holds o ki bi v sts : holds eview o (ki, bi, v) -> length sts = nw ->
      nth_error sts w = Some (Some (t_save T w o)) ->
      holds eview (t_restore T (Some (t_merge T sts)) (t_init T)) (ki, bi, if repaired then v else emptied v).
    Proof.
      intros ((H1 & H2 & H3) & H4 & H5 & H6) Hl Hs. cbn [groupbatch_ds t_restore t_merge t_init holds gb_bks].
      unfold sizes, gb_at. cbn [gb_kidx gb_bidx gb_bks].
      assert (LB : length (map (fun s : option (nat * nat * list (K * (nat * list rkey))) => match s with None => [] | Some (_, l) => l end) sts) = nw) by (rewrite map_length; exact Hl).
      split; [|split; [|split]].
      - split; [unfold merge_nat; rewrite !map_length; exact Hl|]. split; [unfold merge_nat; rewrite !map_length; exact Hl|].
        rewrite app_length, map_length, combine_length, seq_length, skipn_length, repeat_length, LB. lia.
      - rewrite <- H4. apply merge_nat_nth. exact (nth_error_map_some (option_map _) Hs).
      - rewrite <- H5. apply merge_nat_nth. exact (nth_error_map_some (option_map _) Hs).
      - rewrite app_nth1 by (rewrite map_length, combine_length, seq_length, LB; lia).
        erewrite nth_error_nth.
        2:{ apply map_nth_error. apply combine_nth_error; [rewrite (nth_error_nth' _ 0) by (rewrite seq_length; exact Hw); rewrite seq_nth by exact Hw; reflexivity|].
            exact (nth_error_map_some _ Hs). }
        cbn [fst snd t_save groupbatch_ds]. clear -H6 Hw.
        induction H6 as [|[k1 [b1 bf]] [k2 [b2 l]] bks v N _ IH]; [destruct repaired; constructor|].
        assert (P : eview (k1, (b1, buf_restore nw (Some (map (fun j => if xorb repaired (j =? 0 + w) then [] else buf_save w bf) (seq 0 nw)))))
                          (k2, (b2, if repaired then l else []))).
        { destruct N as (N1 & N2 & N3). cbn in N1, N2, N3. subst. split; [reflexivity|]. split; [reflexivity|]. right. cbn [snd].
          unfold buf_pending, buf_restore, buf_at, keys_at. cbn [b_pend b_buf b_keys Nat.add]. rewrite map_length, seq_length, repeat_length, nth_repeat_nil, slot_w.
          repeat split. assert (E : buf_save w bf = map rk l) by (destruct N3 as [(_ & _ & _ & _ & E)|(_ & _ & _ & _ & E)]; exact E).
          rewrite E. destruct repaired; reflexivity. }
        destruct repaired; (constructor; [exact P|exact IH]).
    Qed.

    Lemma emptied_id v : Forall (fun q : K * (nat * list (sample A)) => snd (snd q) = []) v -> emptied v = v.
    Proof. induction 1 as [|[k [bs l]] v H _ IH]; [reflexivity|]. unfold emptied in *. cbn [map fst snd] in *. rewrite IH, H. reflexivity. Qed.

    (** *** invariant *)
    Section Inv.
      Variables (rs : rkey -> result (sample A)) (ne : bool).
      Definition okq (q : K * (nat * list (sample A))) : Prop := Forall (fun a => rs (rk a) = Ok a) (snd (snd q)).

      Lemma p_flush_ok j p : Forall okq (snd p) -> Forall okq (snd (fst (p_flush j p))) /\
        forall y, snd (p_flush j p) = Yield y -> t_restore_sample T rs w (rk y) = Ok y.
      Proof.
        destruct p as [[ki bi] v]. cbn [snd p_flush]. intros H. destruct (nth_error v j) as [[k [bs l]]|] eqn:N; [|split; [exact H|discriminate]]. cbn [fst snd].
        split; [apply Forall_upd; [exact H|constructor]|]. intros y. destruct (f w bi (map pl l)) as [x| | |] eqn:E; try discriminate. intros Y. injection Y as <-.
        unfold group_key, group_name. cbn [groupbatch_ds t_restore_sample rk]. change (String.eqb "GroupBatchDataset" "GroupBatchDataset") with true. cbn iota.
        rewrite BatchProofs.restore_all_ok; [cbn [bind]; rewrite E; reflexivity|]. rewrite Forall_forall in H. apply (H (k, (bs, l))). eapply nth_error_In. exact N.
      Qed.

      Lemma p_sample_ok p a : Forall okq (snd p) -> rs (rk a) = Ok a -> Forall okq (snd (fst (p_sample p a))) /\
        forall y, snd (p_sample p a) = Yield y -> t_restore_sample T rs w (rk y) = Ok y.
      Proof.
        destruct p as [[ki bi] v]. cbn [snd p_sample]. intros H Ha.
        destruct (kf w ki (pl a)) as [[k mbs]| | |]; try (split; [exact H|discriminate]).
        destruct (gb_size fixed mbs) as [bs|]; [|split; [exact H|discriminate]].
        destruct (p_add k bs a v) as [[v' j]|e] eqn:PA; [|split; [exact H|discriminate]].
        assert (H' : Forall okq v').
        { unfold p_add in PA. destruct (kpos keq k v) as [i|].
          - destruct (nth_error v i) as [[k' [bs' l]]|] eqn:N; [|discriminate]. destruct (bs' =? bs); [|discriminate]. injection PA as <- <-.
            apply Forall_upd; [exact H|]. unfold okq. cbn. apply Forall_app. split; [|repeat constructor; exact Ha].
            rewrite Forall_forall in H. apply (H (k', (bs', l))). eapply nth_error_In. exact N.
          - injection PA as <- <-. apply Forall_app. split; [exact H|]. repeat constructor. exact Ha. }
        destruct (bs <=? p_len j v'); [apply p_flush_ok; exact H'|]. split; [exact H'|discriminate].
      Qed.

      Lemma p_sample_not_done p a : snd (p_sample p a) <> Done.
      Proof.
        destruct p as [[ki bi] v]. unfold p_sample. destruct (kf w ki (pl a)) as [[k m]| | |]; try discriminate.
        destruct (gb_size fixed m); [|discriminate]. destruct (p_add k n a v) as [[v' j]|]; [|discriminate]. destruct (n <=? p_len j v'); [|discriminate].
        cbn [p_flush]. destruct (nth_error v' j) as [[? [? ?]]|]; [|discriminate]. cbn [snd]. destruct (f _ _ _); discriminate.
      Qed.

      Definition gb_Inv (b : bool) (x : lst T) : Prop := exists p, Forall okq (snd p) /\
        match snd x with
        | GStart => holds eview (fst x) p
        | GLoop => holds bview (fst x) p
        | GFlush j => b = true /\ ne = false /\ drop_last = false /\ holds bview (fst x) p
        end.

      Lemma bview_eview o p : holds bview o p -> holds eview o p.
      Proof.
        destruct p as [[ki bi] v]. intros (H1 & H2 & H3 & H4). repeat (split; [assumption|]). clear -H4.
        induction H4 as [|x y l1 l2 (N1 & N2 & N3) _ IH]; constructor; [|exact IH]. split; [exact N1|]. split; [exact N2|]. left. exact N3.
      Qed.

      Lemma gb_cleared V o p : holds V o p -> holds eview (gb_put w [] o) (fst p, []).
      Proof.
        destruct p as [[ki bi] v]. intros ((H1 & H2 & H3) & H4 & H5 & _). unfold holds, sizes, gb_put, gb_at. cbn [fst gb_kidx gb_bidx gb_bks].
        rewrite upd_length, nth_upd_same by lia. repeat split; auto.
      Qed.

      Lemma gb_local_ok rst :
        local_ok (T := T) rs w nw rst (Qof ne true rs) (fun y => t_restore_sample T rs w (rk y) = Ok y) (ne = false) gb_Inv gb_Inv.
      Proof.
        constructor.
        - exists (0, 0, []). split; [constructor|]. cbn [snd fst groupbatch_ds t_init t_iter holds]. unfold sizes, gb_at. cbn [gb_kidx gb_bidx gb_bks].
          rewrite !repeat_length, nth_repeat_nil. repeat split; [| |constructor]; clear; revert w; induction nw as [|n IH]; intros [|w]; cbn; auto.
        - auto.
        - intros b [o g] o' g' e (p & HF & H) Ha. unfold act in Ha. cbn [fst snd groupbatch_ds t_act] in *. destruct g as [| |j].
          + destruct (start_holds H HF) as (bks & E & H'). rewrite E in Ha. injection Ha as <- <- <-. exists p. split; [exact HF|exact H'].
          + discriminate.
          + destruct H as (-> & Hne & Hdl & H). destruct p as [[ki bi] v]. pose proof H as (HS & H4 & H5 & H6).
            pose proof (Forall2_nth_error j H6) as N. destruct (nth_error (gb_at w o) j) as [[k [bs bf]]|] eqn:NE.
            * destruct (0 <? buf_len w bf).
              -- destruct (flush_holds j (GFlush (S j)) H H6) as (o1 & E & H').
                 destruct (@p_flush_ok j (ki, bi, v) HF) as [F1 F2].
                 assert (ND : snd (p_flush j (ki, bi, v)) <> Done).
                 { cbn [p_flush]. destruct (nth_error v j) as [[? [? ?]]|]; [|discriminate]. cbn [snd]. destruct (f _ _ _); discriminate. }
                 destruct (p_flush j (ki, bi, v)) as [p' ev]. cbn [fst snd] in *. rewrite E in Ha. injection Ha as <- <- <-.
                 destruct ev as [y| | |x]; cbn [post].
                 ++ split; [apply F2; reflexivity|]. exists p'. split; [exact F1|]. cbn [snd fst]. auto.
                 ++ exists p'. split; [exact F1|]. cbn [snd fst]. auto.
                 ++ congruence.
                 ++ exact I.
              -- injection Ha as <- <- <-. exists (ki, bi, v). split; [exact HF|]. cbn [snd fst]. auto.
            * injection Ha as <- <- <-. cbn [post]. split; [exact Hne|]. split; [auto|]. exists (ki, bi, []). split; [constructor|]. exact (gb_cleared H).
        - intros b [o g] k r (p & HF & H) Ha HQ. unfold act in Ha. cbn [fst snd groupbatch_ds t_act] in *. destruct g as [| |j].
          + destruct (gb_start rs w (gb_at w o)); discriminate.
          + injection Ha as <-. destruct r as [a|]; cbn [is_none].
            * destruct (sample_holds a H) as (o1 & -> & H'). destruct (@p_sample_ok p a HF (HQ eq_refl)) as [F1 F2].
              pose proof (@p_sample_not_done p a) as ND. destruct (p_sample p a) as [p' ev]. cbn [fst snd] in *.
              destruct ev as [y| | |x]; cbn [post].
              -- split; [apply F2; reflexivity|]. exists p'. split; [exact F1|]. apply H'. reflexivity.
              -- exists p'. split; [exact F1|]. apply H'. reflexivity.
              -- congruence.
              -- exact I.
            * cbn in HQ. destruct drop_last eqn:HD; cbn [post].
              -- split; [exact HQ|]. split; [auto|]. exists (fst p, []). split; [constructor|]. exact (gb_cleared H).
              -- exists p. split; [exact HF|]. cbn. auto.
          + destruct (nth_error (gb_at w o) j) as [[? [? bf]]|]; [|discriminate]. destruct (0 <? buf_len w bf); [|discriminate].
            destruct (gb_flush f w j (gb_at w o) o (GFlush (S j))) as [[? ?] ?]. discriminate.
        - intros b [o g] o' g' _ Ha. exfalso. eapply gb_no_reset; exact Ha.
        - intros b [o g] sts (p & HF & H) Hl Hs. destruct p as [[ki bi] v].
          assert (HE : holds eview o (ki, bi, v)) by (cbn [fst snd] in H; destruct g; [exact H|apply bview_eview; exact H|apply bview_eview; apply H]).
          exists (ki, bi, if repaired then v else emptied v). split; [|exact (restore_holds HE Hl Hs)]. cbn [snd]. destruct repaired; [exact HF|].
          unfold emptied. apply Forall_map, Forall_forall. intros q _. constructor.
        - intros b [o g] _ (p & HF & H). destruct p as [[ki bi] v].
          assert (HE : holds eview o (ki, bi, v)) by (cbn [fst snd] in H; destruct g; [exact H|apply bview_eview; exact H|apply bview_eview; apply H]).
          exists (ki, bi, []). split; [constructor|]. destruct HE as ((H1 & H2 & H3) & H4 & H5 & _). cbn [fst snd groupbatch_ds t_restore holds t_iter]. unfold sizes, gb_at.
          cbn [gb_kidx gb_bidx gb_bks]. rewrite repeat_length, nth_repeat_nil. repeat split; auto.
      Qed.

      Definition st_ok (p : pst) (x : lst T) : Prop :=
        match snd x with GStart => holds eview (fst x) p | GLoop => holds bview (fst x) p | GFlush _ => False end.

      Lemma gb_settle p x : Forall okq (snd p) -> st_ok p x -> exists o', ltaus rs w x (o', GLoop) /\ holds bview o' p.
      Proof.
        destruct x as [o g]. intros HF H. unfold st_ok in H. cbn [fst snd] in H. destruct g as [| |j]; [| |destruct H].
        - destruct (start_holds H HF) as (bks & E & H'). eexists. split; [|exact H']. eapply lt_step; [|constructor]. unfold act. cbn [groupbatch_ds t_act fst snd]. rewrite E. reflexivity.
        - exists o. split; [constructor|exact H].
      Qed.
    End Inv.
  End W.

  (** no sample is waiting in a bucket of worker [w] *)
  Definition gb_nothing_waits (w : nat) (o : gb_obj) : Prop :=
    Forall (fun p : bucket => keys_at w (snd (snd p)) = []) (gb_at (A := A) (K := K) w o).

  Lemma gb_local_resumable rst ne : ne = true \/ drop_last = true ->
    local_resumable_at (T := T) rst nw ne true (fun w l => repaired = true \/ gb_nothing_waits w (fst l)).
  Proof.
    intros HD w rs Hw. exists (gb_Inv w rs ne), (gb_Inv w rs ne), (fun _ x y => exists p, Forall (okq rs) (snd p) /\ st_ok w p x /\ st_ok w p y).
    split; [|split].
    - eapply local_ok_weaken; [| |apply gb_local_ok; exact Hw]; auto.
    - intros b x y (p & HF & H1 & H2). destruct (gb_settle Hw HF H1) as (o1 & L1 & B1). destruct (gb_settle Hw HF H2) as (o2 & L2 & B2).
      exists (o1, GLoop), (o2, GLoop). split; [exact L1|]. split; [exact L2|]. unfold act. cbn [groupbatch_ds t_act fst snd amatch].
      intros [a|] HQ; cbn [is_none].
      + destruct (sample_holds Hw a B1) as (o1' & -> & H1'). destruct (sample_holds Hw a B2) as (o2' & -> & H2').
        destruct (@p_sample_ok w rs p a HF (HQ eq_refl)) as [F1 _]. pose proof (@p_sample_not_done w p a) as ND.
        destruct (p_sample w p a) as [p' ev]. cbn [fst snd] in *. destruct ev as [z| | |e]; cbn [ematch].
        * split; [reflexivity|]. exists p'. split; [exact F1|]. split; [apply H1'|apply H2']; reflexivity.
        * exists p'. split; [exact F1|]. split; [apply H1'|apply H2']; reflexivity.
        * congruence.
        * reflexivity.
      + cbn in HQ. destruct HD as [->|HD]; [discriminate|]. rewrite HD. cbn [ematch]. split; [auto|].
        exists (fst p, []). split; [constructor|]. split; [exact (gb_cleared Hw B1)|exact (gb_cleared Hw B2)].
    - intros b [o g] sts (p & HF & H) HP Hl Hs. destruct p as [[ki bi] v]. cbn [fst snd] in *.
      assert (HE : holds w (eview w) o (ki, bi, v)) by (destruct g; [exact H|apply bview_eview; exact H|apply bview_eview; apply H]).
      assert (EV : (if repaired then v else emptied v) = v).
      { destruct repaired; [reflexivity|]. destruct HP as [HP|HP]; [discriminate|]. apply emptied_id.
        destruct HE as (_ & _ & _ & F2). unfold gb_nothing_waits in HP. revert HP. clear -F2. induction F2 as [|x y l1 l2 N _ IH]; intros HP; [constructor|].
        inversion_clear HP as [|? ? P1 P2]. constructor; [|apply IH; exact P2]. destruct N as (_ & _ & [(_ & _ & _ & _ & E)|(_ & _ & _ & _ & E)]);
          rewrite P1 in E; destruct (snd (snd y)); [reflexivity|discriminate|reflexivity|discriminate]. }
      exists (ki, bi, v). split; [exact HF|]. split.
      + unfold st_ok. cbn [fst snd]. destruct g as [| |j]; [exact H|exact H|]. destruct H as (_ & N1 & N2 & _). destruct HD; congruence.
      + unfold st_ok. cbn [fst snd t_iter groupbatch_ds]. exact (eq_rect _ (fun z => holds w (eview w) _ (ki, bi, z)) (restore_holds Hw HE Hl Hs) _ EV).
  Qed.

  Lemma gb_restores rst ne : local_yields T rst nw ne true (fun rs w y => t_restore_sample T rs w (rk y) = Ok y) (ne = false).
  Proof. intros w rs Hw. eexists _, _. apply gb_local_ok. exact Hw. Qed.

  (** *** what comes out *)
  (** the final flush: the remaining groups, in bucket order *)
  Fixpoint p_drain (w bi : nat) (v : content) : list (event (sample B)) :=
    match v with
    | [] => []
    | (k, (bs, l)) :: v' =>
        if 0 <? length l then
          match f w bi (map pl l) with UOk y => [Yield (mkS y (group_key bi (map rk l)))] | _ => [] end ++ p_drain w (S bi) v'
        else p_drain w bi v'
    end.
  Fixpoint p_drained (v : content) : nat :=
    match v with [] => 0 | (k, (bs, l)) :: v' => (if 0 <? length l then 1 else 0) + p_drained v' end.

  Fixpoint gb_events (w : nat) (p : pst) (l : list (event (sample A))) : list (event (sample B)) :=
    match l with
    | [] => []
    | Yield a :: l' => obs (snd (p_sample w p a)) ++ gb_events w (fst (p_sample w p a)) l'
    | Done :: l' =>
        let '(ki, bi, v) := p in
        if drop_last then Done :: gb_events w (ki, bi, []) l'
        else p_drain w bi v ++ Done :: gb_events w (ki, bi + p_drained v, []) l'
    | _ :: l' => gb_events w p l'
    end.

  Section Trace.
    Variables (D : dataset A) (w : nat).
    Hypothesis Hw : w < nw.
    (** a property of the buckets' contents kept by every step *)
    Variable Pv : content -> Prop.
    Hypothesis Pv_nil : Pv [].
    Hypothesis Pv_sample : forall p a, Pv (snd p) -> is_raise (snd (p_sample w p a)) = false -> Pv (snd (fst (p_sample w p a))).
    Hypothesis Pv_flush : forall j p, Pv (snd p) -> is_raise (snd (p_flush w j p)) = false -> Pv (snd (fst (p_flush w j p))).

    Definition gb_rest (x : lst T) (p : pst) (rest : list (event (sample A))) : list (event (sample B)) :=
      match snd x with
      | GFlush j => let '(ki, bi, v) := p in p_drain w bi (skipn j v) ++ Done :: gb_events w (ki, bi + p_drained (skipn j v), []) rest
      | _ => gb_events w p rest
      end.
    Definition gb_J (ins : list (option (sample A))) (outs : list (event (sample B))) (b : bool) (x : lst T) : Prop :=
      exists p, Pv (snd p) /\ match snd x with GStart => snd p = [] /\ holds w (bview w) (fst x) p | GLoop => holds w (bview w) (fst x) p | GFlush j => b = true /\ holds w (bview w) (fst x) p end /\
      forall rest, gb_events w (0, 0, []) (map inp ins ++ rest) = outs ++ gb_rest x p rest.

    Lemma gb_trace_ok : trace_ok (T := T) D w gb_J.
    Proof.
      intros ins outs b [o g] (p & HPv & H & HE). cbn [fst snd] in *. unfold act. cbn [fst snd groupbatch_ds t_act]. destruct g as [| |j].
      - destruct H as [E H]. assert (HF : Forall (okq (ds_restore_sample D w)) (snd p)) by (rewrite E; constructor).
        destruct (start_holds Hw (bview_eview H) HF) as (bks & -> & H'). intros _. cbn [done_ok obs after]. split; [exact I|]. exists p. split; [exact HPv|]. split; [exact H'|].
        rewrite app_nil_r. exact HE.
      - intros r Hr.
        assert (HE' : forall rest, gb_events w (0, 0, []) (map inp (ins ++ [r]) ++ rest) = outs ++ gb_events w p (inp r :: rest)).
        { intros rest. rewrite map_inp_snoc, <- app_assoc. cbn [app]. rewrite HE. reflexivity. }
        destruct r as [a|]; cbn [is_none inp gb_events] in *.
        + destruct (sample_holds Hw a H) as (o1 & E & H'). rewrite E in *. cbn [ev_of snd] in Hr. pose proof (@p_sample_not_done w p a) as ND. pose proof (@Pv_sample p a HPv) as HPv'.
          destruct (p_sample w p a) as [p' ev]. cbn [fst snd ev_of] in *. specialize (H' Hr). specialize (HPv' Hr).
          split; [destruct ev; try exact I; congruence|].
          assert (AF : after (T := T) (o1, GLoop, ev) = (o1, GLoop)) by (destruct ev; try reflexivity; congruence). rewrite AF.
          exists p'. split; [exact HPv'|]. split; [exact H'|]. intros rest. rewrite HE', <- app_assoc. reflexivity.
        + destruct p as [[ki bi] v]. destruct drop_last eqn:DL; cbn [ev_of snd done_ok obs after fst].
          * split; [right; reflexivity|]. exists (ki, bi, []). split; [exact Pv_nil|]. split; [split; [reflexivity|]|].
            -- destruct H as ((H1 & H2 & H3) & H4 & H5 & _). unfold holds, sizes, gb_put, gb_at. cbn [fst gb_kidx gb_bidx gb_bks].
               rewrite upd_length, nth_upd_same by lia. repeat split; auto.
            -- intros rest. rewrite HE', <- app_assoc. reflexivity.
          * split; [exact I|]. exists (ki, bi, v). split; [exact HPv|]. split; [split; [reflexivity|exact H]|]. intros rest. rewrite HE', app_nil_r. reflexivity.
      - destruct H as [Hb H]. destruct p as [[ki bi] v]. pose proof H as (HS & H4 & H5 & H6).
        pose proof (Forall2_nth_error j H6) as N. destruct (nth_error (gb_at w o) j) as [[k [bs bf]]|] eqn:NE; destruct (nth_error v j) as [[k2 [bs2 l]]|] eqn:NV; try contradiction.
        + assert (BL := buf_is_len (proj2 (proj2 N))). cbn [snd] in BL. rewrite BL. assert (SK := skipn_cons_nth NV).
          destruct (0 <? length l) eqn:LL.
          * destruct (flush_holds Hw j (GFlush (S j)) H H6) as (o1 & E & H'). rewrite E. pose proof (@Pv_flush j (ki, bi, v) HPv) as HPv'. cbn [p_flush] in *. rewrite NV in *. cbn [fst snd] in *.
            intros Hr. specialize (H' Hr). specialize (HPv' Hr).
            assert (SU : skipn (S j) (upd v j (k2, (bs2, []))) = skipn (S j) v) by (clear; revert j; induction v as [|x v IH]; intros [|j]; [reflexivity..|]; exact (IH j)).
            destruct (f w bi (map pl l)) as [y| | |] eqn:F; try discriminate; cbn [done_ok obs after]; (split; [exact I|]);
              (exists (ki, S bi, upd v j (k2, (bs2, []))); split; [exact HPv'|]; split; [split; [exact Hb|exact H']|]); intros rest; rewrite HE; cbn [gb_rest snd];
              rewrite SU, SK; cbn [p_drain p_drained]; rewrite LL, F; rewrite <- ?app_assoc; cbn [app]; rewrite ?Nat.add_succ_r; reflexivity.
          * intros _. cbn [done_ok obs after]. split; [exact I|]. exists (ki, bi, v). split; [exact HPv|]. split; [split; [exact Hb|exact H]|]. intros rest. rewrite HE, app_nil_r. cbn [gb_rest snd].
            rewrite SK. cbn [p_drain p_drained]. rewrite LL. reflexivity.
        + intros _. cbn [done_ok obs after]. split; [right; exact Hb|]. exists (ki, bi, []). split; [exact Pv_nil|]. split; [split; [reflexivity|]|].
          * destruct H as ((H1 & H2 & H3) & _). unfold holds, sizes, gb_put, gb_at. cbn [fst gb_kidx gb_bidx gb_bks].
            rewrite upd_length, nth_upd_same by lia. repeat split; auto.
          * intros rest. rewrite HE. cbn [gb_rest snd]. rewrite skipn_all2 by (apply nth_error_None; exact NV). cbn [p_drain p_drained app]. rewrite Nat.add_0_r, <- app_assoc. reflexivity.
    Qed.

    Lemma gb_J_init : gb_J [] [] true (t_init T, t_iter T).
    Proof.
      exists (0, 0, []). cbn [fst snd groupbatch_ds t_init t_iter]. split; [exact Pv_nil|]. split; [|reflexivity]. split; [reflexivity|].
      unfold holds, sizes, gb_at. cbn [gb_kidx gb_bidx gb_bks].
      rewrite !repeat_length, nth_repeat_nil. repeat split; [| |constructor]; clear; revert w; induction nw as [|n IH]; intros [|w]; cbn; auto.
    Qed.

    Theorem gb_trace outs : clean outs -> emits w (fresh (wrap T D)) outs ->
      exists ins more, clean ins /\ emits w (fresh D) ins /\ gb_events w (0, 0, []) ins = outs ++ more.
    Proof.
      intros HC E.
      destruct (@wrap_trace _ _ T D w gb_J gb_trace_ok outs (fresh (wrap T D)) true HC gb_J_init (@fresh_it_ok _ _ T D true) E)
        as (ins & b & l & E1 & (p & _ & _ & J1)).
      exists (map inp ins). specialize (J1 []). rewrite app_nil_r in J1. exists (gb_rest l p []). split; [|split; [exact E1|exact J1]].
      apply Forall_forall. intros e He. apply in_map_iff in He as ([a|] & <- & _); exact I.
    Qed.
  End Trace.
End GB.
