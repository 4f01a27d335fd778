(** GcDataset, FilterDataset, LogSampleDataset. *)
From Verif Require Import Base Dataset DatasetProofs Wrap WrapProofs WrapRun WrapTrace WrapSpec WrapLib
  Wrappers IdxProofs RepeatProofs EpochizeProofs.

Section Gc.
  Context {A : Type} (every_n : nat).
  Notation T := (gc_ds (A := A) true every_n).

  Lemma gc_no_reset : no_reset T.
  Proof. intros rs w o g o' g'. destruct g; cbn; discriminate. Qed.

  Lemma gc_local_ok rst ne nr nw w rs :
    local_ok (T := T) rs w nw rst (Qof ne nr rs) (fun y => nr = true -> rs (rk y) = Ok y) (ne = false) (fun _ _ => True) (fun _ _ => True).
  Proof.
    constructor; auto.
    - intros b [[] g] o' g' e _ Ha. unfold act in Ha. destruct g; cbn in Ha; [discriminate|]. injection Ha as <- <- <-. exact I.
    - intros b [[] g] k r _ Ha HQ. unfold act in Ha. destruct g; cbn in Ha; [|discriminate]. injection Ha as <-.
      destruct r as [a|]; cbn; auto.
  Qed.

  Lemma gc_settle rs w (x : lst T) : exists n, ltaus rs w x (tt, Some n).
  Proof.
    destruct x as [[] [n|]].
    - exists n. constructor.
    - exists 0. eapply lt_step; [reflexivity|constructor].
  Qed.

  Lemma gc_local_resumable rst nw ne nr : local_resumable T rst nw ne nr.
  Proof.
    intros w rs Hw. exists (fun _ _ => True), (fun _ _ => True), (fun _ _ _ => True). split; [|split; auto].
    - eapply local_ok_weaken; [| |apply gc_local_ok]; auto.
    - intros b x y _. destruct (gc_settle rs w x) as (n & Hx). destruct (gc_settle rs w y) as (m & Hy).
      exists (tt, Some n), (tt, Some m). split; [exact Hx|]. split; [exact Hy|].
      unfold act. cbn [gc_ds t_act fst snd amatch]. intros [a|] _; cbn; auto.
  Qed.

  Section Trace.
    Variables (D : dataset A) (w : nat).
    Definition gc_J (ins : list (option (sample A))) (outs : list (event (sample A))) (b : bool) (x : lst T) : Prop :=
      outs = map inp ins.
    Lemma gc_trace_ok : trace_ok D w gc_J.
    Proof.
      intros ins outs b [[] g] ->. unfold act. destruct g as [n|]; cbn [gc_ds t_act fst snd].
      - unfold gc_J. intros [a|] _; cbn [ev_of obs after done_ok is_none]; rewrite map_inp_snoc; auto.
      - intros _. split; [exact I|]. cbn. apply app_nil_r.
    Qed.
    Theorem gc_transparent outs : clean outs ->
      (emits (D := wrap T D) w (fresh (wrap T D)) outs <-> emits w (fresh D) outs).
    Proof.
      intros HC. split; intros E.
      - destruct (@wrap_trace _ _ T D w gc_J gc_trace_ok outs (fresh (wrap T D)) true HC eq_refl
                    (@fresh_it_ok _ _ T D true) E) as (ins & b & l & E1 & ->). exact E1.
      - destruct (clean_inp HC) as (ins' & ->).
        assert (P : trace_progress D w gc_J (fun x => match snd x with None => 1 | Some _ => 0 end)).
        { intros i o b [[] g] _. unfold act. destruct g as [n|]; cbn [gc_ds t_act fst snd].
          - intros [a|]; reflexivity.
          - split; [reflexivity|cbn; lia]. }
        destruct (@wrap_forward _ _ T D w gc_J gc_trace_ok _ P (fresh (wrap T D)) true ins' eq_refl
                    (@fresh_it_ok _ _ T D true) E) as (outs & b & l & E1 & -> & _). exact E1.
    Qed.
  End Trace.
End Gc.

Section FilterLog.
  Context {A : Type} (nw : nat).

  Lemma filter_not_done (p : nat -> nat -> A -> result bool) w i (a : sample A) :
    match p w i (pl a) with Ok true => Yield a | Ok false => Tau | Err e => Raise e end <> Done.
  Proof. destruct (p w i (pl a)) as [[|]|]; discriminate. Qed.

  Lemma filter_resumable p rst ne nr : local_resumable (filter_ds (A := A) nw p) rst nw ne nr.
  Proof. apply idx_local_resumable. intros; apply filter_not_done. Qed.
  Lemma log_resumable rst ne nr : local_resumable (log_ds (A := A) nw) rst nw ne nr.
  Proof. apply idx_local_resumable. intros; discriminate. Qed.

  (** the events left when the samples not satisfying [p] (which may look at the sample's position)
      are dropped *)
  Fixpoint filter_events (p : nat -> sample A -> bool) (i : nat) (l : list (event (sample A))) : list (event (sample A)) :=
    match l with
    | [] => []
    | Yield a :: l' => if p i a then Yield a :: filter_events p (S i) l' else filter_events p (S i) l'
    | e :: l' => e :: filter_events p i l'
    end.

  Lemma log_events w l : forall i, clean l -> idx_events (fun _ _ (a : sample A) => Yield a) w i l = l.
  Proof.
    induction l as [|e l IH]; intros i H; [reflexivity|]. inversion H as [|? ? He Hl]; subst.
    destruct e as [a| | |x]; try contradiction; cbn; rewrite IH; auto.
  Qed.

  Lemma filt_events (q : nat -> nat -> A -> bool) w l : forall i, clean l ->
    idx_events (fun w i (a : sample A) => match Ok (q w i (pl a)) with Ok true => Yield a | Ok false => Tau | Err e => Raise e end) w i l
    = filter_events (fun i a => q w i (pl a)) i l.
  Proof.
    induction l as [|e l IH]; intros i H; [reflexivity|]. inversion H as [|? ? He Hl]; subst.
    destruct e as [a| | |x]; try contradiction; cbn; [destruct (q w i (pl a))|]; cbn; rewrite IH; auto.
  Qed.
End FilterLog.
