From Verif Require Import Base Dataset.

Section Facts.
  Context {P : Type} (D : dataset P) (w : nat).
  Implicit Types s : st D.

  Lemma nextn_mono n m s r : nextn w n s = Some r -> n <= m -> nextn w m s = Some r.
  Proof.
    revert m s; induction n as [|n IH]; intros [|m] s E L; cbn in *; try lia; try discriminate.
    destruct (ds_step D w (fst s) (snd s)) as [[o g] [a| | |e]]; auto. apply IH; auto; lia.
  Qed.

  Lemma nextn_not_tau n s s' : nextn w n s <> Some (Tau, s').
  Proof.
    revert s; induction n as [|n IH]; intros s E; cbn in E; [discriminate|].
    destruct (ds_step D w (fst s) (snd s)) as [[o g] [a| | |e]]; try discriminate. eapply IH; eauto.
  Qed.

  Lemma next_det s e1 s1 e2 s2 : next w s e1 s1 -> next w s e2 s2 -> e1 = e2 /\ s1 = s2.
  Proof.
    intros [n1 E1] [n2 E2].
    assert (X1 := nextn_mono E1 (Nat.le_max_l n1 n2)).
    assert (X2 := nextn_mono E2 (Nat.le_max_r n1 n2)). rewrite X1 in X2. injection X2; auto.
  Qed.

  Lemma next_not_tau s s' : ~ next w s Tau s'.
  Proof. intros [n E]. eapply nextn_not_tau; eauto. Qed.

  Lemma next_tau s o g e s' : ds_step D w (fst s) (snd s) = (o, g, Tau) -> next w (o, g) e s' -> next w s e s'.
  Proof. intros E [n En]. exists (S n). cbn. rewrite E. exact En. Qed.

  Lemma next_tau_inv s o g e s' : ds_step D w (fst s) (snd s) = (o, g, Tau) -> next w s e s' -> next w (o, g) e s'.
  Proof. intros E [[|n] En]; [discriminate|]. cbn in En. rewrite E in En. exists n. exact En. Qed.

  Lemma next_now s o g e : ds_step D w (fst s) (snd s) = (o, g, e) -> e <> Tau -> next w s e (o, g).
  Proof. intros E N. exists 1. cbn. rewrite E. destruct e; try reflexivity. congruence. Qed.

  (** bisimulation, as a proof technique for [same_stream] *)
  Definition fsim (R : st D -> st D -> Prop) : Prop :=
    forall s1 s2, R s1 s2 -> forall e s1', next w s1 e s1' ->
      exists s2', next w s2 e s2' /\
        match e with
        | Yield _ => R s1' s2'
        | Done => R (fst s1', ds_iter D) (fst s2', ds_iter D)
        | _ => True
        end.

  Lemma fsim_emits R s1 s2 l : fsim R -> R s1 s2 -> emits w s1 l -> emits w s2 l.
  Proof.
    intros F HR E. revert s2 HR. induction E as [s|s a s' l N E IH|s s' l N E IH|s e s' N]; intros s2 HR.
    - constructor.
    - destruct (F _ _ HR _ _ N) as (s2' & N2 & R2). eapply em_yield; eauto.
    - destruct (F _ _ HR _ _ N) as (s2' & N2 & R2). eapply em_done; eauto.
    - destruct (F _ _ HR _ _ N) as (s2' & N2 & _). eapply em_raise; eauto.
  Qed.

  Definition flip_rel (R : st D -> st D -> Prop) : st D -> st D -> Prop := fun a b => R b a.

  Lemma bisim_same_stream R s1 s2 : fsim R -> fsim (flip_rel R) -> R s1 s2 -> same_stream w s1 s2.
  Proof.
    intros F1 F2 HR l. split.
    - apply (fsim_emits F1 HR).
    - apply (@fsim_emits (flip_rel R)); auto.
  Qed.

  Lemma same_stream_refl s : same_stream w s s.
  Proof. intros l. reflexivity. Qed.
  Lemma same_stream_sym s1 s2 : same_stream w s1 s2 -> same_stream w s2 s1.
  Proof. intros H l. symmetry. apply H. Qed.
  Lemma same_stream_trans s1 s2 s3 : same_stream w s1 s2 -> same_stream w s2 s3 -> same_stream w s1 s3.
  Proof. intros H1 H2 l. rewrite (H1 l). apply H2. Qed.

  Lemma emits_yield_inv s a l : emits w s (Yield a :: l) -> exists s', next w s (Yield a) s' /\ emits w s' l.
  Proof. intros E. inversion E; subst; eauto. Qed.
  Lemma emits_done_inv s l : emits w s (Done :: l) -> exists s', next w s Done s' /\ emits w (fst s', ds_iter D) l.
  Proof. intros E. inversion E; subst; eauto. Qed.
  Lemma emits_raise_inv s e l : emits w s (Raise e :: l) -> exists s', next w s (Raise e) s' /\ l = [].
  Proof. intros E. inversion E; subst; eauto. Qed.

  (** having the same stream is itself a bisimulation (the systems are deterministic) *)
  Lemma same_stream_fsim : fsim (@same_stream P D w).
  Proof.
    intros s1 s2 HS e s1' N. destruct e as [a| | |e].
    - assert (E : emits w s1 [Yield a]) by (eapply em_yield; [exact N|constructor]).
      apply HS in E. apply emits_yield_inv in E. destruct E as (s2' & N2 & _).
      exists s2'. split; [exact N2|]. intros l. split; intros El.
      + assert (E : emits w s1 (Yield a :: l)) by (eapply em_yield; eauto).
        apply HS in E. apply emits_yield_inv in E. destruct E as (x & Nx & Ex).
        destruct (next_det N2 Nx) as [_ ->]. exact Ex.
      + assert (E : emits w s2 (Yield a :: l)) by (eapply em_yield; eauto).
        apply HS in E. apply emits_yield_inv in E. destruct E as (x & Nx & Ex).
        destruct (next_det N Nx) as [_ ->]. exact Ex.
    - exfalso. eapply next_not_tau; eauto.
    - assert (E : emits w s1 [Done]) by (eapply em_done; [exact N|constructor]).
      apply HS in E. apply emits_done_inv in E. destruct E as (s2' & N2 & _).
      exists s2'. split; [exact N2|]. intros l. split; intros El.
      + assert (E : emits w s1 (Done :: l)) by (eapply em_done; eauto).
        apply HS in E. apply emits_done_inv in E. destruct E as (x & Nx & Ex).
        destruct (next_det N2 Nx) as [_ ->]. exact Ex.
      + assert (E : emits w s2 (Done :: l)) by (eapply em_done; eauto).
        apply HS in E. apply emits_done_inv in E. destruct E as (x & Nx & Ex).
        destruct (next_det N Nx) as [_ ->]. exact Ex.
    - assert (E : emits w s1 [Raise e]) by (eapply em_raise; exact N).
      apply HS in E. apply emits_raise_inv in E. destruct E as (s2' & N2 & _).
      exists s2'. split; [exact N2|exact I].
  Qed.

  Lemma same_stream_tau s o g : ds_step D w (fst s) (snd s) = (o, g, Tau) -> same_stream w s (o, g).
  Proof.
    intros E l. split; intros H.
    - inversion H; subst; [constructor|eapply em_yield|eapply em_done|eapply em_raise]; eauto;
        eapply next_tau_inv; eauto.
    - inversion H; subst; [constructor|eapply em_yield|eapply em_done|eapply em_raise]; eauto;
        eapply next_tau; eauto.
  Qed.

  Lemma emits_prefix s l1 l2 : emits w s (l1 ++ l2) -> emits w s l1.
  Proof.
    revert s; induction l1 as [|x l1 IH]; intros s E; [constructor|].
    cbn in E. inversion E; subst.
    - eapply em_yield; eauto.
    - eapply em_done; eauto.
    - destruct l1; [|discriminate]. eapply em_raise; eauto.
  Qed.
End Facts.

(** *** determinism, and running a dataset by computation (for examples and refutations) *)
Section Compute.
  Context {P : Type} (D : dataset P) (w : nat).

  Lemma emits_det l1 : forall (s : st D) l2, emits w s l1 -> emits w s l2 -> length l1 = length l2 -> l1 = l2.
  Proof.
    induction l1 as [|e l1 IH]; intros s l2 H1 H2 HL.
    - destruct l2; [reflexivity|discriminate].
    - destruct l2 as [|e2 l2]; [discriminate|]. injection HL as HL.
      inversion H1 as [|? a1 s1 ? N1 E1|? s1 ? N1 E1|? x1 s1 N1]; subst;
        inversion H2 as [|? a2 s2 ? N2 E2|? s2 ? N2 E2|? x2 s2 N2]; subst;
        destruct (next_det N1 N2) as [X Y]; try discriminate; try injection X as ->; subst; f_equal; eauto.
  Qed.

  Fixpoint runk (fuel k : nat) (s : st D) : list (event (sample P)) :=
    match k with
    | O => []
    | S k' =>
        match nextn w fuel s with
        | Some (Yield a, s') => Yield a :: runk fuel k' s'
        | Some (Done, s') => Done :: runk fuel k' (fst s', ds_iter D)
        | Some (Raise e, _) => [Raise e]
        | _ => []
        end
    end.

  Lemma runk_emits fuel k : forall s, emits w s (runk fuel k s).
  Proof.
    induction k as [|k IH]; intros s; cbn [runk]; [constructor|].
    destruct (nextn w fuel s) as [[[a| | |e] s']|] eqn:N; try constructor.
    - eapply em_yield; [exists fuel; exact N|apply IH].
    - eapply em_done; [exists fuel; exact N|apply IH].
    - eapply em_raise. exists fuel. exact N.
  Qed.

  (** the state after [k] events *)
  Fixpoint stk (fuel k : nat) (s : st D) : st D :=
    match k with
    | O => s
    | S k' =>
        match nextn w fuel s with
        | Some (Yield a, s') => stk fuel k' s'
        | Some (Done, s') => stk fuel k' (fst s', ds_iter D)
        | _ => s
        end
    end.

  Lemma stk_reach rst nw fuel k : forall s, reach w rst nw s -> reach w rst nw (stk fuel k s).
  Proof.
    induction k as [|k IH]; intros s R; cbn [stk]; [exact R|].
    destruct (nextn w fuel s) as [[[a| | |e] s']|] eqn:N; auto.
    - apply IH. eapply r_yield; [exact R|exists fuel; exact N].
    - apply IH. eapply r_done; [exact R|exists fuel; exact N].
  Qed.

  Lemma not_same_stream fuel k (s1 s2 : st D) : length (runk fuel k s1) = length (runk fuel k s2) ->
    runk fuel k s1 <> runk fuel k s2 -> ~ same_stream w s1 s2.
  Proof.
    intros HL HN S. apply HN. eapply emits_det; [apply (proj1 (S _)); apply runk_emits|apply runk_emits|exact HL].
  Qed.

  (** two concrete runs that differ refute resumability *)
  Lemma not_resumable rst nw fuel j k sts :
    let s := stk fuel j (ds_init D, ds_iter D) in
    let s' := (ds_restore D (Some (ds_merge D sts)) (ds_init D), ds_iter D) in
    w < nw -> length sts = nw -> nth_error sts w = Some (Some (ds_save D w (fst s))) ->
    length (runk fuel k s) = length (runk fuel k s') -> runk fuel k s <> runk fuel k s' ->
    ~ resumable D rst nw.
  Proof.
    intros s s' Hw Hl Hs HL HN HR. eapply (not_same_stream HL HN). apply HR; auto.
    apply stk_reach. constructor.
  Qed.
End Compute.
