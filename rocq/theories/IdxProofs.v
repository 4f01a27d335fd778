(** Wrappers that turn each inner sample into at most one sample. *)
From Coq Require Import String.
From Verif Require Import Base Dataset DatasetProofs Wrap WrapProofs WrapRun WrapTrace WrapSpec WrapLib
  Wrappers MapModel.

Lemma merge_nat_nth w sts v : nth_error sts w = Some (Some v) -> nth w (merge_nat sts) 0 = v.
Proof. intros H. erewrite nth_error_nth; [reflexivity|]. unfold merge_nat. rewrite nth_error_map, H. reflexivity. Qed.

Lemma merge_nat_length sts : length (merge_nat sts) = length sts.
Proof. apply map_length. Qed.

Section Idx.
  Context {A B : Type} (nw : nat) (h : nat -> nat -> sample A -> event (sample B))
    (rsam : (rkey -> result (sample A)) -> nat -> rkey -> result (sample B)).
  Notation T := (idx_ds nw h rsam).

  Definition idx_Inv (b : bool) (x : lst T) : Prop := length (fst x) = nw.

  Lemma idx_local_ok rst ne nr w rs (Y : sample B -> Prop) : w < nw ->
    (forall i a, h w i a <> Done) ->
    (forall i a y, h w i a = Yield y -> (nr = true -> rs (rk a) = Ok a) -> Y y) ->
    local_ok (T := T) rs w nw rst (Qof ne nr rs) Y (ne = false) idx_Inv idx_Inv.
  Proof.
    intros Hw HD HY. constructor; unfold idx_Inv; cbn.
    - apply repeat_length.
    - auto.
    - intros b [o g] o' g' e _ Ha. discriminate.
    - intros b [o g] k r Hl Ha HQ. injection Ha as <-. cbn in Hl. destruct r as [a|]; cbn.
      + destruct (h w (nth w o 0) a) as [y| | |e] eqn:E; cbn.
        * split; [eapply HY; eauto|]. rewrite upd_length. exact Hl.
        * rewrite upd_length. exact Hl.
        * exfalso. eapply HD; eauto.
        * exact I.
      + split; [exact HQ|]. split; [auto|exact Hl].
    - discriminate.
    - intros b [o g] sts _ Hl Hs. rewrite merge_nat_length. exact Hl.
    - intros. apply repeat_length.
  Qed.

  Lemma idx_local_resumable rst ne nr : (forall w i a, h w i a <> Done) -> local_resumable T rst nw ne nr.
  Proof.
    intros HD w rs Hw. exists idx_Inv, idx_Inv,
      (fun _ x y => length (fst x) = nw /\ length (fst y) = nw /\ nth w (fst x) 0 = nth w (fst y) 0).
    split; [|split].
    - eapply local_ok_weaken; [| |apply idx_local_ok with (Y := fun _ => True); auto]; auto.
    - intros b [o1 g1] [o2 g2] (H1 & H2 & E). cbn in H1, H2, E.
      exists (o1, g1), (o2, g2). split; [constructor|]. split; [constructor|].
      cbn. intros [a|] HQ; cbn; [|auto]. rewrite E.
      destruct (h w (nth w o2 0) a) as [y| | |e] eqn:Eh; cbn; rewrite ?upd_length, ?nth_upd_same by lia; auto.
      exfalso. eapply HD; eauto.
    - intros b [o g] sts Hi _ Hl Hs. cbn in *. unfold idx_Inv in Hi. cbn in Hi.
      split; [exact Hi|]. split; [rewrite merge_nat_length; exact Hl|].
      symmetry. apply merge_nat_nth. exact Hs.
  Qed.

  Lemma idx_no_reset : no_reset T.
  Proof. intros rs w o g o' g' H. discriminate. Qed.

  (** the samples that come out of inner samples [xs] whose indexes start at [i] *)
  Fixpoint idx_outs (w i : nat) (xs : list (sample A)) : list (sample B) :=
    match xs with
    | [] => []
    | a :: xs' => match h w i a with Yield y => [y] | _ => [] end ++ idx_outs w (S i) xs'
    end.

  Lemma idx_outs_app w xs ys : forall i, idx_outs w i (xs ++ ys) = idx_outs w i xs ++ idx_outs w (i + length xs) ys.
  Proof.
    induction xs as [|a xs IH]; intros i; cbn; [rewrite Nat.add_0_r; reflexivity|].
    rewrite IH, <- app_assoc. do 2 f_equal. f_equal. lia.
  Qed.

  (** the image of a whole event list *)
  Fixpoint idx_events (w i : nat) (l : list (event (sample A))) : list (event (sample B)) :=
    match l with
    | [] => []
    | Yield a :: l' => match h w i a with Yield y => [Yield y] | _ => [] end ++ idx_events w (S i) l'
    | Done :: l' => Done :: idx_events w i l'
    | _ :: l' => idx_events w i l'
    end.

  Lemma idx_events_snoc w l e : forall i, idx_events w i (l ++ [e]) =
    idx_events w i l ++ match e with
                        | Yield a => match h w (i + n_yields l) a with Yield y => [Yield y] | _ => [] end
                        | Done => [Done]
                        | _ => []
                        end.
  Proof.
    induction l as [|x l IH]; intros i; cbn.
    - destruct e as [a| | |]; cbn; rewrite ?Nat.add_0_r, ?app_nil_r; reflexivity.
    - destruct x as [a| | |]; rewrite IH; cbn; auto.
      rewrite <- app_assoc. do 2 f_equal. replace (i + S (n_yields l)) with (S i + n_yields l) by lia. reflexivity.
  Qed.

  Section Trace.
    Variables (D : dataset A) (w : nat).
    Hypothesis Hw : w < nw.
    Hypothesis HD : forall w i a, h w i a <> Done.

    Definition idx_J (ins : list (option (sample A))) (outs : list (event (sample B))) (b : bool) (x : lst T) : Prop :=
      length (fst x) = nw /\ nth w (fst x) 0 = n_yields (map inp ins) /\ outs = idx_events w 0 (map inp ins).

    Lemma idx_trace_ok : trace_ok D w idx_J.
    Proof.
      intros ins outs b [o g] (H1 & H2 & ->). cbn in H1, H2. unfold act. cbn.
      intros [a|] Hr; cbn in *.
      - rewrite H2 in *. split.
        { destruct (h w (n_yields (map inp ins)) a) eqn:E; cbn; auto. exfalso; eapply HD; eauto. }
        split; [|split].
        + destruct (h w (n_yields (map inp ins)) a); cbn; rewrite upd_length; exact H1.
        + rewrite map_inp_snoc, n_yields_snoc. cbn.
          destruct (h w (n_yields (map inp ins)) a); cbn; rewrite nth_upd_same by lia; lia.
        + rewrite map_inp_snoc, idx_events_snoc. cbn. f_equal.
          destruct (h w (n_yields (map inp ins)) a) eqn:E; cbn; auto. exfalso; eapply HD; eauto.
      - split; [auto|]. split; [exact H1|]. split.
        + rewrite map_inp_snoc, n_yields_snoc. cbn. lia.
        + rewrite map_inp_snoc, idx_events_snoc. reflexivity.
    Qed.

    Lemma idx_J_init : idx_J [] [] true (t_init T, t_iter T).
    Proof.
      split; [apply repeat_length|]. split; [|reflexivity]. cbn. clear. revert w. induction nw as [|n IH]; intros [|w]; cbn; auto.
    Qed.

    (** everything the wrapper emits is the image of something the inner dataset emits *)
    Theorem idx_trace outs : clean outs -> emits (D := wrap T D) w (fresh (wrap T D)) outs ->
      exists ins, clean ins /\ emits w (fresh D) ins /\ outs = idx_events w 0 ins.
    Proof.
      intros HC E.
      destruct (@wrap_trace _ _ T D w idx_J idx_trace_ok outs (fresh (wrap T D)) true HC idx_J_init
                  (@fresh_it_ok _ _ T D true) E) as (ins & b & l & E1 & (_ & _ & J1)).
      exists (map inp ins). split; [|split; [exact E1|exact J1]].
      apply Forall_forall. intros e He. apply in_map_iff in He as ([a|] & <- & _); exact I.
    Qed.

    (** ... and the whole of its image is emitted *)
    Theorem idx_forward ins : (forall w i a e, h w i a <> Raise e) -> clean ins -> emits w (fresh D) ins ->
      emits (D := wrap T D) w (fresh (wrap T D)) (idx_events w 0 ins).
    Proof.
      intros HR HC E. destruct (clean_inp HC) as (ins' & ->).
      assert (P : trace_progress D w idx_J (fun _ => 0)).
      { intros i o b [oo gg] _. unfold act. cbn. intros [a|]; cbn; [|reflexivity].
        destruct (h w (nth w oo 0) a) eqn:Eh; try reflexivity. exact (False_ind _ (HR _ _ _ _ Eh)). }
      destruct (@wrap_forward _ _ T D w idx_J idx_trace_ok _ P (fresh (wrap T D)) true ins' idx_J_init
                  (@fresh_it_ok _ _ T D true) E) as (outs & b & l & E1 & (_ & _ & ->) & _).
      exact E1.
    Qed.
  End Trace.
End Idx.

(** *** MapDataset *)
Section Map.
  Context {A B : Type} (nw : nat) (f : nat -> nat -> A -> ures B).
  Notation T := (map_ds nw f).

  Lemma map_h_not_done w i (a : sample A) :
    match f w i (pl a) with
    | UOk b => Yield (mkS b (map_key i (rk a)))
    | USkip | UErr => Tau
    | UFatal => Raise OtherError
    end <> Done.
  Proof. destruct (f w i (pl a)); discriminate. Qed.

  Lemma map_local_resumable rst ne nr : local_resumable T rst nw ne nr.
  Proof. apply idx_local_resumable. intros; apply map_h_not_done. Qed.

  Lemma map_restores rst ne : local_yields T rst nw ne true
    (fun rs w y => t_restore_sample T rs w (rk y) = Ok y) (ne = false).
  Proof.
    intros w rs Hw. exists (@idx_Inv _ _ nw _ _), (@idx_Inv _ _ nw _ _). apply idx_local_ok; auto.
    - intros; apply map_h_not_done.
    - intros i a y E HR. destruct (f w i (pl a)) eqn:Ef; try discriminate. injection E as <-.
      cbn [rk]. unfold map_ds. cbn. rewrite (HR eq_refl). cbn. rewrite Ef. reflexivity.
  Qed.
End Map.
