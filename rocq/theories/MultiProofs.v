From Coq Require Import Eqdep_dec.
From Verif Require Import Base Dataset DatasetProofs WrapSpec Multi.

Lemma dupd_same {F : nat -> Type} (f : forall i, F i) i (v : F i) : dupd f v i = v.
Proof.
  unfold dupd. destruct (nat_dec i i) as [e|n]; [|congruence].
  rewrite (UIP_dec nat_dec e eq_refl). reflexivity.
Qed.
Lemma dupd_other {F : nat -> Type} (f : forall i, F i) i (v : F i) j : i <> j -> dupd f v j = f j.
Proof. intros H. unfold dupd. destruct (nat_dec i j); [contradiction|reflexivity]. Qed.

(** next() of the repeated dataset: [while True: yield from dataset] *)
Section Repeat.
  Context {P : Type} (D : dataset P) (w : nat).
  Inductive pull : st D -> event (sample P) -> st D -> Prop :=
  | pull_now s e s' : next w s e s' -> e <> Done -> pull s e s'
  | pull_again s s1 e s' : next w s Done s1 -> pull (fst s1, ds_iter D) e s' -> pull s e s'.

  Lemma pull_not_done s s' : ~ pull s Done s'.
  Proof. intros H. remember Done as e. induction H; subst; congruence. Qed.
  Lemma pull_not_tau s s' : ~ pull s Tau s'.
  Proof. intros H. remember (@Tau (sample P)) as e. induction H; subst; auto. eapply next_not_tau; eauto. Qed.

  Lemma pull_same s1 s2 e s1' : same_stream w s1 s2 -> pull s1 e s1' ->
    exists s2', pull s2 e s2' /\ match e with Yield _ => same_stream w s1' s2' | _ => True end.
  Proof.
    intros S H. revert s2 S. induction H as [s e s' N E|s s1 e s' N _ IH]; intros s2 S.
    - destruct (same_stream_fsim S N) as (s2' & N2 & Q). exists s2'. split; [apply pull_now; auto|].
      destruct e; auto.
    - destruct (same_stream_fsim S N) as (s2' & N2 & Q). destruct (IH _ Q) as (s3 & H3 & Q3).
      exists s3. split; [eapply pull_again; eauto|exact Q3].
  Qed.

  Lemma pull_det s e1 s1 : pull s e1 s1 -> forall e2 s2, pull s e2 s2 -> e1 = e2 /\ s1 = s2.
  Proof.
    intros H. induction H as [s e a N E|s s1 e a N _ IH]; intros e' s' H'; inversion H'; subst.
    - eapply next_det; eauto.
    - destruct (next_det N H); congruence.
    - destruct (next_det N H); congruence.
    - destruct (next_det N H) as [_ ->]. auto.
  Qed.

  (** reachable states stay reachable *)
  Lemma pull_reach rst nw s a s' : reach w rst nw s -> pull s (Yield a) s' -> reach w rst nw s'.
  Proof.
    intros HR H. remember (Yield a) as e. revert HR. induction H as [s e s' N E|s s1 e s' N _ IH]; intros HR; subst.
    - eapply r_yield; eauto.
    - apply IH; auto. eapply r_done; eauto.
  Qed.

  Lemma pull_restorable nw rst s a s' : restorable D rst nw -> w < nw -> reach w rst nw s -> pull s (Yield a) s' ->
    ds_restore_sample D w (rk a) = Ok a.
  Proof.
    intros HS W HR H. remember (Yield a) as e. revert HR. induction H as [s e s' N E|s s1 e s' N _ IH]; intros HR; subst.
    - eapply HS; eauto.
    - apply IH; auto. eapply r_done; eauto.
  Qed.

  (** what a pull shows of the dataset's own stream *)
  Lemma pull_emits s a s' l : pull s (Yield a) s' -> emits w s' l ->
    exists m, emits w s (repeat Done m ++ Yield a :: l).
  Proof.
    intros H. remember (Yield a) as e. induction H as [s e s' N E|s s1 e s' N _ IH]; intros HE; subst.
    - exists 0. cbn. eapply em_yield; eauto.
    - destruct (IH eq_refl HE) as [m HM]. exists (S m). cbn. eapply em_done; eauto.
  Qed.

  Definition lively (s : st D) : Prop := forall k, exists l, emits w s l /\ n_yields l = k.

  Lemma lively_pull s : lively s -> exists a s', pull s (Yield a) s' /\ lively s'.
  Proof.
    intros H.
    assert (Q : forall l s, emits w s l -> 0 < n_yields l -> exists a s', pull s (Yield a) s').
    { induction l as [|e l IH]; intros s0 E L; cbn in L; [lia|]. inversion E; subst.
      - exists a, s'. apply pull_now; [auto|discriminate].
      - destruct (IH _ H4 L) as (a & s2 & P2). exists a, s2. eapply pull_again; eauto.
      - cbn in L. lia. }
    destruct (H 1) as (l & E & L). destruct (Q l s E ltac:(lia)) as (a & s' & HP).
    exists a, s'. split; [exact HP|]. intros k. destruct (H (S k)) as (l2 & E2 & L2). clear E L l.
    remember (Yield a) as e eqn:Ee. revert l2 E2 L2. clear H.
    induction HP as [s e s' N E|s s1 e s' N _ IH]; intros l2 E2 L2; subst.
    - inversion E2 as [|? a1 s1 ? N1 E1|? s1 ? N1 E1|? x1 s1 N1]; subst; cbn in L2; try lia.
      + destruct (next_det N N1) as [_ ->]. exists l. split; [exact E1|lia].
      + destruct (next_det N N1) as [? _]; discriminate.
    - inversion E2 as [|? a1 s2 ? N1 E1|? s2 ? N1 E1|? x1 s2 N1]; subst; cbn in L2; try lia.
      + destruct (next_det N N1) as [? _]; discriminate.
      + destruct (next_det N N1) as [_ ->]. eapply IH; eauto.
  Qed.
End Repeat.
