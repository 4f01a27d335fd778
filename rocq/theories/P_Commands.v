(** Property C69: the state can be requested at any moment, whatever the worker is doing. *)
From Coq Require Import String.
From Verif Require Import Base Dataset DatasetProofs WrapSpec SourceProofs Loader LoaderSpec LoaderProofs P_Loader CommandThread.
Local Open Scope list_scope.
Local Open Scope nat_scope.

(** ** Specification *)
Section Spec.
  Context {P : Type} {D : dataset P}.

  (** the worker as of its last yield; None: the worker has not started yet *)
  Definition standing (x : threads D) : option (wstate D) :=
    match h_it x with
    | IBoot _ | IBoot1 _ => None
    | IPark s | IWant s | IHold s | IPush s _ _ | IPop s _ _ | IRel s | IOut s _ _ | IOut1 s _ _ => Some s
    end.

  (** the worker's generator is ending (end of the epoch, or an exception) *)
  Definition finishing (x : threads D) : Prop :=
    match h_it x with IOut _ _ _ | IOut1 _ _ _ => True | _ => False end.

  (** the states the worker is in, or moving to, at this moment *)
  Definition moment (x : threads D) : list (wstate D) :=
    match h_it x with
    | IBoot _ => [w_fresh D]
    | IBoot1 s | IPark s | IWant s | IHold s | IRel s => [s]
    | IPush s s' _ | IPop s s' _ | IOut s s' _ | IOut1 s s' _ => [s; s']
    end.

  (** no further command is received and no answer given on the way *)
  Definition silent (l : list (threads D * label D)) : Prop := Forall (fun xa => snd xa = LTau) l.
End Spec.

(** ** Proofs *)
Section Proofs.
  Context {P : Type} (D : dataset P) (w gid min_n n_cp : nat).
  Hypothesis HN : 0 < n_cp.
  Notation tstep := (tstep w gid min_n n_cp).
  Notation tpath := (tpath w gid min_n n_cp).
  Notation wnext := (wnext w gid min_n n_cp).
  Notation pop := (pop (D := D) n_cp).
  Notation push := (push (D := D)).

  (** checkpoints are never ahead of the worker *)
  Definition dated (s : wstate D) : Prop := Forall (fun c => cp_index c <= k_index s) (k_cps s).

  Lemma store_cases force clk o i (l : list (checkpoint D)) :
    exists x, store_checkpoint w min_n n_cp force clk o i l = pop x (push x l) /\ (forall y, x = Some y -> cp_index y = i) /\
      (force = true -> x <> None).
  Proof.
    unfold store_checkpoint. destruct (force || _ || _) eqn:E.
    - exists (Some (mkCp (Some (ds_save D w o)) i)). split; [reflexivity|]. split; [intros y [= <-]; reflexivity|discriminate].
    - exists None. split; [reflexivity|]. split; [discriminate|]. intros ->. discriminate.
  Qed.

  (** what [wnext] does to the list of checkpoints *)
  Lemma wnext_stores s e s' : wnext s e s' -> exists x, k_cps s' = pop x (push x (k_cps s)) /\
    (forall y, x = Some y -> cp_index y = k_index s') /\ ((forall i a, e <> Emit i a) -> x <> None) /\ k_index s <= k_index s' /\
    (forall i a, e = Emit i a -> i < k_index s').
  Proof.
    induction 1 as [s a in' e s' _ _ _ IH|s a in' clk _ _|s in' e s' _ _ _ _ IH|s in' clk _ _|s x in' clk _].
    - cbn [k_cps k_index] in IH. destruct IH as (x & E & I1 & I2 & I3 & I4). exists x. split; [exact E|]. split; [exact I1|]. split; [exact I2|]. split; [lia|exact I4].
    - destruct (store_cases false clk (fst in') (S (k_index s)) (k_cps s)) as (x & E & I1 & _). exists x. cbn [k_cps k_index].
      split; [exact E|]. split; [exact I1|]. split; [intros HE; exfalso; eapply HE; reflexivity|]. split; [lia|]. intros i b [= -> _]. lia.
    - exact IH.
    - destruct (store_cases true clk (fst in') (k_index s) (k_cps s)) as (x & E & I1 & I2). exists x. cbn [k_cps k_index]. split; [exact E|]. split; [exact I1|]. split; [auto|]. split; [lia|discriminate].
    - destruct (store_cases true clk (fst in') (k_index s) (k_cps s)) as (y & E & I1 & I2). exists y. cbn [k_cps k_index]. split; [exact E|]. split; [exact I1|]. split; [auto|]. split; [lia|discriminate].
  Qed.

  Lemma dated_pop x (l : list (checkpoint D)) i : (forall y, x = Some y -> cp_index y = i) -> Forall (fun c => cp_index c <= i) l ->
    Forall (fun c => cp_index c <= i) (pop x (push x l)).
  Proof.
    intros HX HF. destruct x as [y|]; cbn [CommandThread.pop CommandThread.push]; [|exact HF].
    assert (F : Forall (fun c => cp_index c <= i) (l ++ [y])).
    { apply Forall_app. split; [exact HF|]. constructor; [|constructor]. rewrite (HX _ eq_refl). lia. }
    destruct (n_cp <? length (l ++ [y])); [|exact F]. destruct (l ++ [y]); [constructor|]. inversion F. assumption.
  Qed.

  Lemma dated_next s e s' : wnext s e s' -> dated s -> dated s'.
  Proof.
    intros HW HD. destruct (wnext_stores HW) as (x & E & I1 & _ & I3 & _). unfold dated. rewrite E. apply dated_pop; [exact I1|].
    eapply Forall_impl; [|exact HD]. cbn. intros c Hc. lia.
  Qed.

  (** *** what a scan that stands at [p] would answer *)
  Definition answers (m : list (checkpoint D)) (p k : nat) : result (checkpoint D * nat) :=
    if p <=? length m then
      match find_cp (k + 1) (rev (firstn p m)) with Some c => Ok (c, k + 1 - cp_index c) | None => Err ValueError end
    else Err ValueError.

  Lemma answers_all m s k : k_cps s = m -> answers m (length m) k = get_checkpoint s k.
  Proof. intros E. unfold answers, get_checkpoint. rewrite Nat.leb_refl, firstn_all, E. reflexivity. Qed.

  Lemma firstn_S_nth (m : list (checkpoint D)) p x : nth_error m p = Some x -> firstn (S p) m = firstn p m ++ [x].
  Proof. revert p. induction m as [|y m IH]; intros [|p] H; cbn in *; try discriminate; [injection H as ->; reflexivity|]. f_equal. apply IH. exact H. Qed.

  Lemma answers_step m p k x : nth_error m p = Some x ->
    answers m (S p) k = if cp_index x <=? k + 1 then Ok (x, k + 1 - cp_index x) else answers m p k.
  Proof.
    intros HX. assert (L : p < length m) by (apply nth_error_Some; congruence). unfold answers.
    replace (S p <=? length m) with true by (symmetry; apply Nat.leb_le; lia). replace (p <=? length m) with true by (symmetry; apply Nat.leb_le; lia).
    rewrite (firstn_S_nth HX), rev_app_distr. cbn [rev app find_cp]. destruct (cp_index x <=? k + 1); reflexivity.
  Qed.

  (** elements that are too new do not matter *)
  Lemma answers_more m p q k : p <= q <= length m -> (forall i x, p <= i < q -> nth_error m i = Some x -> k + 1 < cp_index x) ->
    answers m q k = answers m p k.
  Proof.
    intros [H1 H2] HF. induction q as [|q IH]; [replace p with 0 by lia; reflexivity|].
    destruct (Nat.eq_dec p (S q)) as [->|NE]; [reflexivity|].
    destruct (nth_error m q) as [x|] eqn:EX; [|apply nth_error_None in EX; lia].
    rewrite (answers_step k EX). pose proof (HF q x ltac:(lia) EX). replace (cp_index x <=? k + 1) with false by (symmetry; apply Nat.leb_gt; lia).
    apply IH; [lia|lia|]. intros i y Hi. apply HF. lia.
  Qed.

  (** *** invariants of the iterating thread *)
  Definition it_inv (s0 : wstate D) (x : threads D) : Prop :=
    match h_it x with
    | IBoot s | IBoot1 s => s = s0 /\ h_mem x = [mkCp None 0] /\ dated s
    | IPark s | IWant s | IHold s | IRel s => h_mem x = k_cps s /\ dated s
    | IPush s s' c => h_mem x = k_cps s /\ k_cps s' = pop c (push c (k_cps s)) /\ dated s /\ dated s' /\ k_index s <= k_index s'
    | IPop s s' c => h_mem x = push c (k_cps s) /\ k_cps s' = pop c (push c (k_cps s)) /\ dated s /\ dated s' /\ k_index s <= k_index s'
    | IOut s s' c => h_mem x = k_cps s /\ k_cps s' = pop (Some c) (push (Some c) (k_cps s)) /\ dated s /\ dated s' /\ k_index s <= k_index s' /\ cp_index c = k_index s'
    | IOut1 s s' c => h_mem x = k_cps s ++ [c] /\ k_cps s' = pop (Some c) (push (Some c) (k_cps s)) /\ dated s /\ dated s' /\ k_index s <= k_index s' /\ cp_index c = k_index s'
    end.

  Definition locked_by_it (x : threads D) : Prop :=
    match h_it x with IBoot1 _ | IHold _ | IPush _ _ _ | IPop _ _ _ | IRel _ => True | _ => False end.
  Definition locked_by_ct (x : threads D) : Prop :=
    match h_ct x with CCall _ | CScan _ _ | CAns _ _ => True | _ => False end.
  Definition lock_inv (x : threads D) : Prop :=
    (locked_by_it x -> h_lock x = Some Iterator) /\ (locked_by_ct x -> h_lock x = Some Commands) /\
    (~ locked_by_it x -> ~ locked_by_ct x -> h_lock x = None).

  Lemma lock_init s0 : lock_inv (t_init s0).
  Proof. split; [intros []|]. split; [intros []|reflexivity]. Qed.

  Lemma lock_step x a y : lock_inv x -> tstep x a y -> lock_inv y.
  Proof.
    unfold lock_inv, locked_by_it, locked_by_ct. intros HI HS. inversion HS; subst; cbn [h_it h_ct h_lock] in *;
    repeat match goal with
    | |- context [match ?v with _ => _ end] => destruct v
    | H : context [match ?v with _ => _ end] |- _ => destruct v
    end; intuition (try congruence); intuition congruence.
  Qed.

  Lemma it_init s0 : dated s0 -> it_inv s0 (t_init s0).
  Proof. intros H. cbn. auto. Qed.

  Lemma it_step s0 x a y : it_inv s0 x -> tstep x a y -> it_inv s0 y.
  Proof.
    intros HI HS. inversion HS; subst; unfold it_inv in *; cbn [h_it h_mem] in *; try exact HI; try tauto.
    - destruct HI as [-> HD]. destruct (wnext_stores H) as (z & E & I1 & I2 & I3 & _). split; [reflexivity|]. split; [exact H0|]. split; [exact HD|].
      split; [eapply dated_next; eauto|lia].
    - destruct HI as (-> & E & R). split; [reflexivity|]. tauto.
    - destruct HI as (-> & E & R). rewrite E. tauto.
    - destruct HI as [-> HD]. destruct (wnext_stores H) as (z & E & I1 & I2 & I3 & _). split; [reflexivity|]. split; [exact H1|]. split; [exact HD|].
      split; [eapply dated_next; eauto|]. split; [lia|assumption].
    - destruct HI as (-> & E & R). split; [reflexivity|]. tauto.
    - destruct HI as (-> & E & R). rewrite E. tauto.
  Qed.

  (** *** the invariant of a command: [cands] are the states since it was received *)
  Definition newer (l : list (checkpoint D)) (p k : nat) : Prop := forall i x, p <= i -> nth_error l i = Some x -> k + 1 < cp_index x.

  (** [r] is (going to be) the answer *)
  Definition right (cands : list (wstate D)) (fin : bool) (k : nat) (r : result (checkpoint D * nat)) : Prop :=
    (exists t, In t cands /\ r = get_checkpoint t k) \/ (r = Err ValueError /\ fin = true).

  Definition ct_inv (cands : list (wstate D)) (fin : bool) (k : nat) (x : threads D) : Prop :=
    incl (moment x) cands /\ (finishing x -> fin = true) /\
    match h_ct x with
    | CIdle => False
    | CWant k' => k' = k
    | CCall k' => k' = k
    | CScan k' p => k' = k /\
        match h_it x with
        | IOut s s' c => p <= length (k_cps s) /\ newer (k_cps s) p k
        | IOut1 s s' c => p = S (length (k_cps s)) \/ (p <= length (k_cps s) /\ newer (k_cps s) p k)
        | _ => right cands fin k (answers (h_mem x) p k)
        end
    | CAns k' r => k' = k /\ right cands fin k r
    end.

  Lemma right_mono cands cands' (fin fin' : bool) k r : incl cands cands' -> (fin = true -> fin' = true) -> right cands fin k r -> right cands' fin' k r.
  Proof. intros HI HF [(t & HT & E)|[E F]]; [left; eauto|right; auto]. Qed.

  Lemma nth_last (l : list (checkpoint D)) c : nth_error (l ++ [c]) (length l) = Some c.
  Proof. rewrite nth_error_app2 by lia. rewrite Nat.sub_diag. reflexivity. Qed.

  Lemma answers_app (l : list (checkpoint D)) c p k : p <= length l -> answers (l ++ [c]) p k = answers l p k.
  Proof.
    intros H. unfold answers. rewrite app_length, firstn_app. cbn [length]. replace (p - length l) with 0 by lia. cbn [firstn]. rewrite app_nil_r.
    replace (p <=? length l + 1) with true by (symmetry; apply Nat.leb_le; lia). replace (p <=? length l) with true by (symmetry; apply Nat.leb_le; lia). reflexivity.
  Qed.

  (** the scan in IOut / IOut1 stands for the answer of [s] *)
  Lemma newer_answers s p k : p <= length (k_cps s) -> newer (k_cps s) p k -> answers (k_cps s) p k = get_checkpoint s k.
  Proof.
    intros HL HF. rewrite <- (@answers_all (k_cps s) s k eq_refl). symmetry. apply answers_more; [lia|]. intros i x Hi. apply HF. lia.
  Qed.

  Lemma popped s s' c p k : k_cps s' = pop (Some c) (push (Some c) (k_cps s)) -> dated s -> k_index s <= k_index s' -> cp_index c = k_index s' ->
    p <= length (k_cps s) -> newer (k_cps s) p k ->
    answers (k_cps s') p k = get_checkpoint s k \/ answers (k_cps s') p k = get_checkpoint s' k.
  Proof.
    intros E HD HI HC HL HF. cbn [CommandThread.pop CommandThread.push] in E. destruct (n_cp <? length (k_cps s ++ [c])).
    - right. rewrite <- (@answers_all (k_cps s') s' k eq_refl). rewrite E. destruct (k_cps s) as [|x l] eqn:EL.
      + cbn in *. replace p with 0 by lia. reflexivity.
      + cbn [app tl]. cbn [length] in HL. rewrite app_length. cbn [length]. symmetry. apply answers_more; [rewrite app_length; cbn; lia|].
        intros i y Hi HY. destruct (Nat.lt_ge_cases i (length l)) as [H|H].
        * rewrite nth_error_app1 in HY by exact H. apply (HF (S i)); [lia|exact HY].
        * assert (i = length l) by lia. subst i. rewrite nth_last in HY. injection HY as <-.
          assert (PL : p <= length l) by lia.
          destruct (nth_error (x :: l) (length l)) as [z|] eqn:EZ; [|apply nth_error_None in EZ; cbn in EZ; lia].
          pose proof (HF _ _ PL EZ). apply nth_error_In in EZ. unfold dated in HD. rewrite EL, Forall_forall in HD. specialize (HD _ EZ). lia.
    - left. rewrite E, answers_app by exact HL. apply newer_answers; assumption.
  Qed.

  Lemma popped_late s s' c k : k_cps s' = pop (Some c) (push (Some c) (k_cps s)) ->
    answers (k_cps s') (S (length (k_cps s))) k = Err ValueError \/ answers (k_cps s') (S (length (k_cps s))) k = get_checkpoint s' k.
  Proof.
    intros E. cbn [CommandThread.pop CommandThread.push] in E. destruct (n_cp <? length (k_cps s ++ [c])).
    - left. unfold answers. rewrite E. destruct (k_cps s) as [|x l]; [reflexivity|]. cbn [app tl length]. rewrite app_length. cbn [length].
      replace (S (S (length l)) <=? length l + 1) with false by (symmetry; apply Nat.leb_gt; lia). reflexivity.
    - right. rewrite <- (@answers_all (k_cps s') s' k eq_refl). rewrite E, app_length. cbn [length]. rewrite Nat.add_1_r. reflexivity.
  Qed.

  Lemma last_kept s s' c k : k_cps s' = pop (Some c) (push (Some c) (k_cps s)) -> cp_index c <= k + 1 ->
    get_checkpoint s' k = Ok (c, k + 1 - cp_index c).
  Proof.
    intros E HC. assert (exists l, k_cps s' = l ++ [c]) as [l EL].
    { cbn [CommandThread.pop CommandThread.push] in E. destruct (n_cp <? length (k_cps s ++ [c])) eqn:EN; [|eauto]. destruct (k_cps s) as [|x l] eqn:EK; [|exists l; exact E].
      apply Nat.ltb_lt in EN. cbn in EN. lia. }
    unfold get_checkpoint. rewrite EL, rev_app_distr. cbn [rev app find_cp]. replace (cp_index c <=? k + 1) with true by (symmetry; apply Nat.leb_le; lia). reflexivity.
  Qed.

  Lemma ct_step s0 cands fin k x y : lock_inv x -> it_inv s0 x -> ct_inv cands fin k x -> tstep x (LTau) y ->
    ct_inv (cands ++ moment y) (fin || match h_it y with IOut _ _ _ | IOut1 _ _ _ => true | _ => false end) k y.
  Proof.
    intros HL HI (HM & HF & HC) HS.
    assert (M1 : incl (moment y) (cands ++ moment y)) by (intros t Ht; apply in_or_app; auto).
    assert (M2 : incl cands (cands ++ moment y)) by (intros t Ht; apply in_or_app; auto).
    set (fin' := fin || _). assert (F1 : finishing y -> fin' = true).
    { unfold finishing, fin'. destruct (h_it y); intros []; apply orb_true_r. }
    assert (F2 : fin = true -> fin' = true) by (intros ->; reflexivity).
    clearbody fin'. split; [exact M1|]. split; [exact F1|].
    assert (RM : forall r, right cands fin k r -> right (cands ++ moment y) fin' k r) by (intros r; apply right_mono; auto).
    destruct HL as (L1 & L2 & L3).
    inversion HS; subst; cbn [h_ct h_it h_mem h_lock moment] in *;
      try (destruct c as [|k'|k'|k' p|k' r]; [contradiction|exact HC|exact HC| |destruct HC; split; [assumption|apply RM; assumption]]);
      try (exfalso; assert (X : Some Iterator = Some Commands) by (apply L2; exact I); discriminate X);
      try (exfalso; assert (X : None = Some Commands) by (apply L2; exact I); discriminate X).
    - (* request *) destruct HC as [HK HC]. split; [exact HK|apply RM; exact HC].
    - (* IPush, IPop under the lock *)
      exfalso. assert (X : l = Some Iterator) by (apply L1; exact I). assert (Y : l = Some Commands) by (apply L2; exact I). congruence.
    - exfalso. assert (X : l = Some Iterator) by (apply L1; exact I). assert (Y : l = Some Commands) by (apply L2; exact I). congruence.
    - (* append outside of the lock *) destruct HC as [HK HC]. split; [exact HK|]. right. exact HC.
    - (* discard outside of the lock *) destruct HC as [HK HC]. split; [exact HK|]. destruct HI as (E1 & E & HD & HD' & IL & HX). cbn [h_mem] in *.
      replace (CommandThread.pop (D := D) n_cp (Some x0) m) with (k_cps s') by (rewrite E, E1; reflexivity).
      destruct HC as [-> | [HP HNW]].
      + destruct (@popped_late s s' x0 k E) as [-> | ->]; [right; split; [reflexivity|apply F2, HF; exact I]|left; exists s'; split; [apply in_or_app; right; left; reflexivity|reflexivity]].
      + destruct (@popped s s' x0 p k E HD IL HX HP HNW) as [-> | ->]; left; [exists s; split; [apply in_or_app; left; apply HM; left; reflexivity|reflexivity]|
          exists s'; split; [apply in_or_app; right; left; reflexivity|reflexivity]].
    - exact HC.
    - (* the scan begins *) split; [exact HC|]. subst k0. unfold it_inv in HI. cbn [h_it h_mem] in HI.
      destruct i as [s|s|s|s|s|s s' x0|s s' x0|s|s s' x0|s s' x0]; cbn [moment h_it] in *;
      try (exfalso; assert (X : l = Some Iterator) by (apply L1; exact I); assert (Y : l = Some Commands) by (apply L2; exact I); congruence).
      + left. exists (w_fresh D). split; [apply in_or_app; right; left; reflexivity|]. apply answers_all. symmetry. apply HI.
      + left. exists s. split; [apply in_or_app; right; left; reflexivity|]. apply answers_all. symmetry. apply HI.
      + left. exists s. split; [apply in_or_app; right; left; reflexivity|]. apply answers_all. symmetry. apply HI.
      + destruct HI as (-> & _). split; [lia|]. intros j z Hj HZ. assert (nth_error (k_cps s) j <> None) by congruence. apply nth_error_Some in H. lia.
      + destruct HI as (-> & _). left. rewrite app_length. cbn. lia.
    - (* the list is exhausted *) destruct HC as [-> HC]. split; [reflexivity|]. unfold it_inv in HI. cbn [h_it h_mem] in HI.
      assert (A0 : forall l0, answers l0 0 k = Err ValueError) by (intros l0; reflexivity).
      destruct i as [s|s|s|s|s|s s' x0|s s' x0|s|s s' x0|s s' x0]; cbn [moment h_it] in *; rewrite ?A0 in HC; try (apply RM; exact HC).
      + left. exists s. split; [apply in_or_app; right; left; reflexivity|]. rewrite <- (newer_answers (proj1 HC) (proj2 HC)). symmetry. apply A0.
      + destruct HC as [HC|HC]; [discriminate|]. left. exists s. split; [apply in_or_app; right; left; reflexivity|].
        rewrite <- (newer_answers (proj1 HC) (proj2 HC)). symmetry. apply A0.
    - (* the index is not valid any more *) destruct HC as [-> HC]. split; [reflexivity|]. unfold it_inv in HI. cbn [h_it h_mem] in HI.
      assert (A0 : answers m (S p) k = Err ValueError).
      { unfold answers. replace (S p <=? length m) with false; [reflexivity|]. symmetry. apply Nat.leb_gt. apply nth_error_None in H. lia. }
      destruct i as [s|s|s|s|s|s s' x0|s s' x0|s|s s' x0|s s' x0]; cbn [moment h_it] in *; rewrite ?A0 in HC; try (apply RM; exact HC).
      + exfalso. apply nth_error_None in H. destruct HI as (-> & _). lia.
      + exfalso. apply nth_error_None in H. destruct HI as (-> & _). rewrite app_length in H. cbn in H. lia.
    - (* found *) destruct HC as [-> HC]. split; [reflexivity|]. unfold it_inv in HI. cbn [h_it h_mem] in HI.
      assert (A0 : answers m (S p) k = Ok (x0, k + 1 - cp_index x0)).
      { rewrite (answers_step k H). replace (cp_index x0 <=? k + 1) with true by (symmetry; apply Nat.leb_le; lia). reflexivity. }
      destruct i as [s|s|s|s|s|s s' x1|s s' x1|s|s s' x1|s s' x1]; cbn [moment h_it] in *; rewrite ?A0 in HC; try (apply RM; exact HC).
      + left. exists s. split; [apply in_or_app; right; left; reflexivity|]. destruct HI as (-> & _). rewrite <- (newer_answers (proj1 HC) (proj2 HC)). symmetry. exact A0.
      + destruct HI as (-> & E & HD & HD' & IL & HX). destruct HC as [HP | [HP HNW]].
        * injection HP as ->. rewrite nth_last in H. injection H as <-. left. exists s'. split; [apply in_or_app; right; right; left; reflexivity|].
          symmetry. eapply last_kept; eauto.
        * left. exists s. split; [apply in_or_app; right; left; reflexivity|]. rewrite answers_app in A0 by exact HP. rewrite <- (newer_answers HP HNW). symmetry. exact A0.
    - (* too new *) destruct HC as [-> HC]. split; [reflexivity|]. unfold it_inv in HI. cbn [h_it h_mem] in HI.
      assert (A0 : answers m (S p) k = answers m p k).
      { rewrite (answers_step k H). replace (cp_index x0 <=? k + 1) with false by (symmetry; apply Nat.leb_gt; lia). reflexivity. }
      destruct i as [s|s|s|s|s|s s' x1|s s' x1|s|s s' x1|s s' x1]; cbn [moment h_it] in *; rewrite ?A0 in HC; try (apply RM; exact HC).
      + destruct HI as (-> & _). split; [lia|]. intros j z Hj HZ. destruct (Nat.eq_dec j p) as [->|]; [congruence|]. apply (proj2 HC j); [lia|exact HZ].
      + right. destruct HI as (-> & E & HD & HD' & IL & HX). destruct HC as [HP | [HP HNW]].
        * injection HP as ->. split; [lia|]. intros j z Hj HZ. assert (nth_error (k_cps s) j <> None) by congruence. apply nth_error_Some in H1. lia.
        * split; [lia|]. intros j z Hj HZ. destruct (Nat.eq_dec j p) as [->|]; [rewrite nth_error_app1 in H by lia; congruence|]. apply (HNW j); [lia|exact HZ].
  Qed.
End Proofs.

Section Paths.
  Context {P : Type} (D : dataset P) (w gid min_n n_cp : nat).
  Notation tstep := (tstep w gid min_n n_cp).
  Notation tpath := (tpath w gid min_n n_cp).
  Notation wnext := (wnext w gid min_n n_cp).

  Lemma path_inv (HN : 0 < n_cp) s0 x l y : tpath x l y -> lock_inv (D := D) x -> it_inv n_cp s0 x -> lock_inv y /\ it_inv n_cp s0 y.
  Proof. induction 1 as [x|x a y l z HS _ IH]; intros H1 H2; [auto|]. exact (IH (lock_step H1 HS) (it_step HN H2 HS)). Qed.

  Lemma path_app (x : threads D) l1 y l2 z : tpath x l1 y -> tpath y l2 z -> tpath x (l1 ++ l2) z.
  Proof. induction 1; cbn; intros; [assumption|]. econstructor; eauto. Qed.

  Lemma ct_path (HN : 0 < n_cp) s0 k (x : threads D) l y : tpath x l y -> silent l -> forall cands fin, lock_inv x -> it_inv n_cp s0 x -> ct_inv cands fin k x ->
    exists cands' fin', ct_inv cands' fin' k y /\
      (forall t, In t cands' -> In t cands \/ exists x', In x' (map fst l ++ [y]) /\ In t (moment x')) /\
      (fin' = true -> fin = true \/ exists x', In x' (map fst l ++ [y]) /\ finishing x').
  Proof.
    induction 1 as [x|x a y l z HS HP IH]; intros HSI cands fin H1 H2 H3.
    - exists cands, fin. split; [exact H3|]. split; auto.
    - inversion HSI as [|? ? E HR]; subst. cbn [snd] in E. subst a.
      destruct (IH HR _ _ (lock_step H1 HS) (it_step HN H2 HS) (ct_step HN H1 H2 H3 HS)) as (cands' & fin' & I1 & I2 & I3).
      assert (YIN : In y (map fst ((x, LTau) :: l) ++ [z])).
      { cbn. right. destruct l as [|[y' a'] l]; inversion HP; subst; left; reflexivity. }
      exists cands', fin'. split; [exact I1|]. split.
      + intros t Ht. destruct (I2 t Ht) as [HT|(x' & HX & HT)].
        * apply in_app_or in HT as [HT|HT]; [left; exact HT|right; exists y; auto].
        * right. exists x'. split; [cbn; right; exact HX|exact HT].
      + intros HF. destruct (I3 HF) as [HT|(x' & HX & HT)].
        * apply orb_true_iff in HT as [HT|HT]; [left; exact HT|]. right. exists y. split; [exact YIN|]. unfold finishing. destruct (h_it y); try discriminate; exact I.
        * right. exists x'. split; [cbn; right; exact HX|exact HT].
  Qed.
End Paths.

(** A command may be received at any moment and the worker may do anything until it is answered: the answer is the one that
    belongs to a state the worker was in, or was just moving to, at some moment between question and answer; while the
    worker's generator ends, it may also be the error "No checkpoint found". *)
Theorem C69_answers {P} (D : dataset P) w gid min_n n_cp (s0 : wstate D) l1 x k x1 l2 y k' r z :
  0 < n_cp -> s0 = w_fresh D \/ (exists cks, s0 = w_restored w cks) ->
  tpath w gid min_n n_cp (t_init s0) l1 x -> tstep w gid min_n n_cp x (LAsk k) x1 ->
  tpath w gid min_n n_cp x1 l2 y -> silent l2 -> tstep w gid min_n n_cp y (LAnswer k' r) z ->
  k' = k /\
  ((exists x' t, In x' (x1 :: map fst l2 ++ [y]) /\ In t (moment x') /\ r = get_checkpoint t k) \/
   (r = Err ValueError /\ exists x', In x' (x1 :: map fst l2 ++ [y]) /\ finishing x')).
Proof.
  intros HN HS P1 SA P2 HSI SR.
  assert (HD : dated s0). { destruct HS as [-> | [cks ->]]; repeat constructor. }
  destruct (path_inv HN P1 (lock_init s0) (it_init n_cp HD)) as [L1 I1].
  assert (L2 := lock_step L1 SA). assert (I2 := it_step HN I1 SA).
  assert (CI : ct_inv (moment x1) (match h_it x1 with IOut _ _ _ | IOut1 _ _ _ => true | _ => false end) k x1).
  { split; [apply incl_refl|]. split; [unfold finishing; destruct (h_it x1); auto; intros []|]. inversion SA; subst. reflexivity. }
  destruct (ct_path HN P2 HSI L2 I2 CI) as (cands & fin & (_ & _ & HC) & HM & HF).
  inversion SR; subst. cbn [h_ct] in HC. destruct HC as [-> HR]. split; [reflexivity|].
  destruct HR as [(t & HT & E)|[E HT]].
  - left. destruct (HM t HT) as [H|(x' & HX & H)]; [exists x1, t|exists x', t]; (split; [cbn; auto|split; [exact H|exact E]]).
  - right. split; [exact E|]. destruct (HF HT) as [H|(x' & HX & H)].
    + exists x1. split; [cbn; auto|]. unfold finishing. destruct (h_it x1); try discriminate; exact I.
    + exists x'. split; [cbn; auto|exact H].
Qed.
Print Assumptions C69_answers.

(** the two threads never use the list at the same time, except at the worker's end *)
Theorem C69_exclusive {P} (D : dataset P) w gid min_n n_cp (s0 : wstate D) l x :
  0 < n_cp -> tpath w gid min_n n_cp (t_init s0) l x ->
  ~ (match h_it x with IBoot1 _ | IHold _ | IPush _ _ _ | IPop _ _ _ | IRel _ => True | _ => False end /\
     match h_ct x with CCall _ | CScan _ _ | CAns _ _ => True | _ => False end).
Proof.
  intros HN HP [H1 H2].
  assert (HL : lock_inv x).
  { clear - HP. assert (H := lock_init s0). induction HP as [|x a y l z HS _ IH]; [exact H|]. apply IH. eapply lock_step; eauto. }
  destruct HL as (L1 & L2 & _). specialize (L1 H1). specialize (L2 H2). congruence.
Qed.
Print Assumptions C69_exclusive.

(** as long as the worker's generator does not end, the answer is always the one of such a state *)
Theorem C69_exact {P} (D : dataset P) w gid min_n n_cp (s0 : wstate D) l1 x k x1 l2 y k' r z :
  0 < n_cp -> s0 = w_fresh D \/ (exists cks, s0 = w_restored w cks) ->
  tpath w gid min_n n_cp (t_init s0) l1 x -> tstep w gid min_n n_cp x (LAsk k) x1 ->
  tpath w gid min_n n_cp x1 l2 y -> silent l2 -> tstep w gid min_n n_cp y (LAnswer k' r) z ->
  (forall x', In x' (x1 :: map fst l2 ++ [y]) -> ~ finishing x') ->
  exists x' t, In x' (x1 :: map fst l2 ++ [y]) /\ In t (moment x') /\ r = get_checkpoint t k.
Proof.
  intros HN HS P1 SA P2 HSI SR HF. destruct (C69_answers HN HS P1 SA P2 HSI SR) as [_ [H|(_ & x' & HX & H)]]; [exact H|].
  exfalso. exact (HF x' HX H).
Qed.
Print Assumptions C69_exact.

Section Reached.
  Context {P : Type} (D : dataset P) (w gid nw min_n n_cp b : nat) (s0 : wstate D).
  Notation wr := (wreach w gid nw min_n n_cp b).
  Hypothesis R0 : wr s0.
  Hypothesis NF : forall (t : wstate D) x t', wr t -> ~ wnext w gid min_n n_cp t (Fail x) t'.

  Definition reached (x : threads D) : Prop :=
    match h_it x with IBoot s | IBoot1 s => s = s0 | _ => Forall wr (moment x) end.

  Lemma reached_next (t : wstate D) e t' : wr t -> wnext w gid min_n n_cp t e t' -> wr t'.
  Proof. intros H HW. eapply wreach_next; eauto. intros x ->. exact (NF H HW). Qed.

  Lemma reached_step (x : threads D) a y : reached x -> tstep w gid min_n n_cp x a y -> reached y.
  Proof.
    intros HR HS. inversion HS; subst; unfold reached in *; cbn [h_it moment] in *; try exact HR;
    repeat match goal with H : Forall _ (_ :: _) |- _ => inversion H; clear H; subst end; repeat (apply Forall_cons || apply Forall_nil); auto.
    - rewrite HR. exact R0.
    - eapply reached_next; eassumption.
    - eapply reached_next; eassumption.
  Qed.

  Lemma reached_path (x : threads D) l y : tpath w gid min_n n_cp x l y -> reached x -> reached y.
  Proof. induction 1 as [|x a y l z HS _ IH]; intros H; [exact H|]. apply IH. eapply reached_step; eauto. Qed.

  Definition past (k : nat) (x : threads D) : Prop := standing x <> None /\ Forall (fun t => k < k_index t) (moment x).

  Lemma past_step (HN : 0 < n_cp) k (x : threads D) a y : past k x -> tstep w gid min_n n_cp x a y -> past k y.
  Proof.
    intros [H1 H2] HS. inversion HS; subst; unfold past, standing in *; cbn [h_it moment] in *; try (exact (conj H1 H2)); try congruence;
    (split; [discriminate|]);
    repeat match goal with H : Forall _ (_ :: _) |- _ => apply Forall_cons_iff in H; destruct H end;
    repeat (apply Forall_cons || apply Forall_nil); auto;
    [destruct (wnext_stores HN H) as (? & _ & _ & _ & ? & _)|destruct (wnext_stores HN H) as (? & _ & _ & _ & ? & _)]; lia.
  Qed.
End Reached.

(** Whatever happens between question and answer: a checkpoint that the worker hands out for a sample it has yielded makes the
    restored worker continue right after that sample. *)
Theorem C69_resumes {P} (D : dataset P) w gid nw min_n n_cp b (s0 t0 : wstate D) l1 x k x1 l2 y k' c off z cks ys :
  0 < n_cp -> s0 = w_fresh D \/ (exists cks, s0 = w_restored w cks) ->
  w < nw -> resumable D false nw -> wreach w gid nw min_n n_cp b s0 ->
  (forall (t : wstate D) x t', wreach w gid nw min_n n_cp b t -> ~ wnext w gid min_n n_cp t (Fail x) t') ->
  tpath w gid min_n n_cp (t_init s0) l1 x -> tstep w gid min_n n_cp x (LAsk k) x1 ->
  standing x = Some t0 -> b <= k < k_index t0 ->
  tpath w gid min_n n_cp x1 l2 y -> silent l2 -> tstep w gid min_n n_cp y (LAnswer k' (Ok (c, off))) z ->
  length cks = nw -> nth_error cks w = Some (c, off) ->
  (delivers w gid min_n n_cp (w_restored w cks) ys <->
   exists pre, length pre = S k /\ delivers w gid min_n n_cp (w_fresh D) (pre ++ ys)).
Proof.
  intros HN HS Hw HR R0 NF P1 SA ST [KB KI] P2 HSI SR HL HC.
  destruct (C69_answers HN HS P1 SA P2 HSI SR) as [_ [(x' & t & HX & HT & E)|(E & _)]]; [|discriminate].
  assert (HD : dated s0). { destruct HS as [-> | [cks' ->]]; repeat constructor. }
  assert (RX : reached w gid nw min_n n_cp b s0 x). { eapply reached_path; eauto. reflexivity. }
  assert (PX : past k x).
  { split; [congruence|]. destruct (path_inv HN P1 (lock_init s0) (it_init n_cp HD)) as [_ I1]. unfold it_inv, standing in *.
    destruct x as [m lk it ct]. cbn [h_it] in *. destruct it; try discriminate; injection ST as ->; cbn [moment h_it]; repeat constructor; try lia; intuition lia. }
  assert (G : forall xa, In xa (x1 :: map fst l2 ++ [y]) -> reached w gid nw min_n n_cp b s0 xa /\ past k xa).
  { assert (R1 : reached w gid nw min_n n_cp b s0 x1) by (eapply reached_step; eauto).
    assert (Q1 : past k x1) by (eapply past_step; eauto).
    clear - P2 R1 Q1 NF HN R0. induction P2 as [x|x a y l z HS _ IH]; intros xa; cbn [map fst app].
    - intros [<- |[<- |[]]]; auto.
    - intros [<- |[<- |HI]]; auto. apply IH; [eapply reached_step; eauto|eapply past_step; eauto|]. right. exact HI. }
  destruct (G x' HX) as [G1 [G2 G3]].
  assert (WT : wreach w gid nw min_n n_cp b t).
  { unfold reached, standing in *. destruct x' as [m lk it ct]. cbn [h_it] in *. destruct it; try congruence; rewrite Forall_forall in G1; apply G1; exact HT. }
  rewrite Forall_forall in G3. specialize (G3 t HT).
  eapply C37_worker_resumes; eauto.
Qed.
Print Assumptions C69_resumes.

(** ** nobody waits for ever *)
(** A command that has been received is answered without any step of the iterating thread, unless that thread is just computing
    a sample (and then its computation need only finish). *)
Theorem C69_answered {P} (D : dataset P) w gid min_n n_cp (s0 : wstate D) l x k :
  0 < n_cp -> s0 = w_fresh D \/ (exists cks, s0 = w_restored w cks) ->
  tpath w gid min_n n_cp (t_init s0) l x -> h_ct x = CWant k ->
  match h_it x with IBoot _ | IPark _ | IWant _ | IOut _ _ _ | IOut1 _ _ _ => True | _ => False end ->
  exists l2 y r z, tpath w gid min_n n_cp x l2 y /\ silent l2 /\ Forall (fun xa => h_it (fst xa) = h_it x) l2 /\
    tstep w gid min_n n_cp y (LAnswer k r) z /\ h_it z = h_it x.
Proof.
  intros HN HS P1 HC HI.
  assert (HD : dated s0). { destruct HS as [-> | [cks' ->]]; repeat constructor. }
  destruct (path_inv HN P1 (lock_init s0) (it_init n_cp HD)) as [(L1 & L2 & L3) _].
  destruct x as [m lk it ct]. cbn [h_it h_ct] in *. subst ct.
  assert (LK : lk = None). { apply L3; [unfold locked_by_it; cbn; destruct it; auto; contradiction|intros []]. } subst lk.
  assert (SC : forall p, exists l2 y r z, tpath w gid min_n n_cp (mkT m (Some Commands) it (CScan k p)) l2 y /\ silent l2 /\
     Forall (fun xa => h_it (fst xa) = it) l2 /\ tstep w gid min_n n_cp y (LAnswer k r) z /\ h_it z = it).
  { assert (AN : forall r x2, tstep w gid min_n n_cp x2 LTau (mkT m (Some Commands) it (CAns k r)) -> h_it x2 = it -> exists l2 y r z, tpath w gid min_n n_cp x2 l2 y /\ silent l2 /\
     Forall (fun xa => h_it (fst xa) = it) l2 /\ tstep w gid min_n n_cp y (LAnswer k r) z /\ h_it z = it).
    { intros r x2 ST EX. exists [(x2, LTau)]. eexists _, r, _. split; [econstructor; [exact ST|constructor]|]. split; [repeat constructor|].
      split; [repeat constructor; exact EX|]. split; [apply t_answer|reflexivity]. }
    induction p as [|p IH]; [eapply AN; [apply t_end|reflexivity]|].
    destruct (nth_error m p) as [c|] eqn:EC; [|eapply AN; [apply t_gone; exact EC|reflexivity]].
    destruct (Nat.le_gt_cases (cp_index c) (k + 1)) as [H|H]; [eapply AN; [eapply t_found; eauto|reflexivity]|].
    destruct IH as (l2 & y & r & z & Q1 & Q2 & Q3 & Q4 & Q5). eexists (_ :: l2), y, r, z.
    split; [econstructor; [eapply t_older; eauto|exact Q1]|]. split; [constructor; [reflexivity|exact Q2]|]. split; [constructor; [reflexivity|exact Q3]|]. auto. }
  destruct (SC (length m)) as (l2 & y & r & z & Q1 & Q2 & Q3 & Q4 & Q5). eexists (_ :: _ :: l2), y, r, z.
  split; [econstructor; [apply t_lock|econstructor; [apply t_call|exact Q1]]|]. split; [repeat constructor; exact Q2|]. split; [repeat constructor; exact Q3|]. auto.
Qed.
Print Assumptions C69_answered.

(** The iterating thread, asked for a sample that its dataset can deliver (or for the end), gets there, whatever the command
    thread is doing at the moment. *)
Theorem C69_iterates {P} (D : dataset P) w gid min_n n_cp (s0 s s' : wstate D) l x e :
  0 < n_cp -> s0 = w_fresh D \/ (exists cks, s0 = w_restored w cks) ->
  tpath w gid min_n n_cp (t_init s0) l x -> h_it x = IWant s -> wnext w gid min_n n_cp s e s' ->
  exists l2 y, tpath w gid min_n n_cp x l2 y /\ h_it y = IPark s'.
Proof.
  intros HN HS P1 HI HW.
  assert (HD : dated s0). { destruct HS as [-> | [cks' ->]]; repeat constructor. }
  destruct (path_inv HN P1 (lock_init s0) (it_init n_cp HD)) as [(L1 & L2 & L3) I1].
  assert (FREE : exists l2 m ct, tpath w gid min_n n_cp x l2 (mkT m None (IWant s) ct) /\ m = k_cps s).
  { destruct x as [m lk it ct]. cbn [h_it h_ct] in *. subst it. destruct I1 as [EM _]. cbn [h_mem] in EM.
    assert (AN : forall k r, exists l2 m' ct', tpath w gid min_n n_cp (mkT m (Some Commands) (IWant s) (CAns k r)) l2 (mkT m' None (IWant s) ct') /\ m' = k_cps s).
    { intros k r. eexists [_], m, CIdle. split; [econstructor; [apply t_answer|constructor]|exact EM]. }
    assert (STEP : forall x2 a x3, tstep w gid min_n n_cp x2 a x3 -> (exists l2 m' ct', tpath w gid min_n n_cp x3 l2 (mkT m' None (IWant s) ct') /\ m' = k_cps s) ->
        exists l2 m' ct', tpath w gid min_n n_cp x2 l2 (mkT m' None (IWant s) ct') /\ m' = k_cps s).
    { intros x2 a x3 ST (l2 & m' & ct' & Q & E). exists ((x2, a) :: l2), m', ct'. split; [econstructor; eauto|exact E]. }
    assert (SCAN : forall k p, exists l2 m' ct', tpath w gid min_n n_cp (mkT m (Some Commands) (IWant s) (CScan k p)) l2 (mkT m' None (IWant s) ct') /\ m' = k_cps s).
    { intros k. induction p as [|p IH]; [eapply STEP; [apply t_end|apply AN]|].
      destruct (nth_error m p) as [c|] eqn:EC; [|eapply STEP; [apply t_gone; exact EC|apply AN]].
      destruct (Nat.le_gt_cases (cp_index c) (k + 1)) as [H|H]; [eapply STEP; [eapply t_found; eauto|apply AN]|eapply STEP; [eapply t_older; eauto|exact IH]]. }
    destruct ct as [|k|k|k p|k r].
    - assert (LK : lk = None) by (apply L3; intros []). subst lk. exists [], m, CIdle. split; [constructor|exact EM].
    - assert (LK : lk = None) by (apply L3; intros []). subst lk. exists [], m, (CWant k). split; [constructor|exact EM].
    - assert (LK : lk = Some Commands) by (apply L2; exact I). subst lk. eapply STEP; [apply t_call|apply SCAN].
    - assert (LK : lk = Some Commands) by (apply L2; exact I). subst lk. apply SCAN.
    - assert (LK : lk = Some Commands) by (apply L2; exact I). subst lk. apply AN. }
  destruct FREE as (l2 & m & ct & Q & ->).
  destruct (wnext_stores HN HW) as (c & E & EI & EO & _).
  assert (G : exists l3 y, tpath w gid min_n n_cp (mkT (k_cps s) None (IWant s) ct) l3 y /\ h_it y = IPark s').
  { assert (CS : (exists i a, e = Emit i a) \/ (forall i a, e <> Emit i a)) by (destruct e; [left; eauto|right; discriminate|right; discriminate]).
    destruct CS as [(i & a & ->)|NE].
    - eexists _, _. split; [eapply tp_cons; [apply t_acquire|]; eapply tp_cons; [eapply t_compute; eauto|]; eapply tp_cons; [apply t_push|];
        eapply tp_cons; [apply t_pop|]; eapply tp_cons; [apply t_release|]; apply tp_nil|reflexivity].
    - destruct c as [c|]; [|exfalso; exact (EO NE eq_refl)].
      eexists _, _. split; [eapply tp_cons; [apply t_acquire|]; eapply tp_cons; [eapply t_out; eauto|]; eapply tp_cons; [apply t_out_push|];
        eapply tp_cons; [apply t_out_pop|]; apply tp_nil|reflexivity]. }
  destruct G as (l3 & y & Q3 & EY). exists (l2 ++ l3), y. split; [eapply path_app; eauto|exact EY].
Qed.
Print Assumptions C69_iterates.

(** ** the beginning and the end *)
(** Between the start of the command thread and the restoring of its state a restored worker answers like a new one: the
    checkpoint it hands out is the beginning of the dataset.  For every restored worker and every question. *)
Theorem C69_boot_refuted {P} (D : dataset P) w gid min_n n_cp cks k :
  exists l y z, tpath (D := D) w gid min_n n_cp (t_init (w_restored w cks)) l y /\
    tstep w gid min_n n_cp y (LAnswer k (Ok (mkCp None 0, k + 1))) z.
Proof.
  eexists _, _, _. split.
  - eapply tp_cons; [apply t_ask with (k := k)|]. eapply tp_cons; [apply t_lock|]. eapply tp_cons; [apply t_call|].
    eapply tp_cons; [eapply t_found with (p := 0); [reflexivity|cbn; lia]|]. apply tp_nil.
  - cbn [cp_index]. rewrite Nat.sub_0_r. apply t_answer.
Qed.
Print Assumptions C69_boot_refuted.

(** At its end the worker stores its last checkpoint without the lock: a command that is answered meanwhile may fail, although
    the question could be answered before and after. *)
Theorem C69_end_race_refuted : exists (s s' : wstate (list_ds [10])) c l y z,
  tpath 0 0 2 2 (t_init (w_fresh (list_ds [10]))) l y /\ tstep 0 0 2 2 y (LAnswer 0 (Err ValueError)) z /\
  In (mkT (k_cps s ++ [c]) (Some Commands) (IOut1 s s' c) (CScan 0 3), LTau) l /\
  (exists a, get_checkpoint s 0 = Ok a) /\ (exists a, get_checkpoint s' 0 = Ok a).
Proof.
  assert (E1 : exists i a s, wnext 0 0 2 2 (w_fresh (list_ds [10])) (Emit i a) s /\ k_cps s = [mkCp None 0; mkCp (Some (ds_save (list_ds [10]) 0 (fst (k_in s)))) 1] /\ k_index s = 1 /\
    exists s', wnext 0 0 2 2 s End s' /\ k_cps s' = [mkCp (Some (ds_save (list_ds [10]) 0 (fst (k_in s)))) 1; mkCp (Some (ds_save (list_ds [10]) 0 (fst (k_in s')))) 1] /\ k_index s' = 1).
  { eexists _, _, _. split; [eapply (@wn_emit _ (list_ds [10]) 0 0 2 2 _ _ _ false); [eapply next_now; [reflexivity|discriminate]|reflexivity]|]. split; [reflexivity|]. split; [reflexivity|].
    eexists. split; [eapply (@wn_end _ (list_ds [10]) 0 0 2 2 _ _ false); [cbn [k_in]; eapply next_now; [reflexivity|discriminate]|reflexivity]|]. split; reflexivity. }
  destruct E1 as (i0 & a0 & s & W1 & C1 & X1 & s' & W2 & C2 & X2).
  set (c1 := mkCp (D := list_ds [10]) (Some (ds_save (list_ds [10]) 0 (fst (k_in s)))) 1) in *. set (c2 := mkCp (D := list_ds [10]) (Some (ds_save (list_ds [10]) 0 (fst (k_in s')))) 1) in *.
  exists s, s', c2. eexists _, _, _. split.
  - eapply tp_cons; [apply t_boot|]. eapply tp_cons; [apply t_restore|].
    eapply tp_cons; [eapply t_compute with (x := Some c1); [exact W1|exact C1|]; intros y [= <-]; symmetry; exact X1|].
    eapply tp_cons; [apply t_push|]. eapply tp_cons; [apply t_pop|]. eapply tp_cons; [apply t_release|]. eapply tp_cons; [apply t_request|].
    eapply tp_cons; [apply t_acquire|].
    eapply tp_cons; [eapply t_out with (x := c2); [exact W2|discriminate|exact C2|symmetry; exact X2]|].
    eapply tp_cons; [apply t_out_push|].
    eapply tp_cons; [apply t_ask with (k := 0)|]. eapply tp_cons; [apply t_lock|]. eapply tp_cons; [apply t_call|].
    eapply tp_cons; [apply t_out_pop|]. eapply tp_cons; [apply t_gone; reflexivity|]. apply tp_nil.
  - split; [apply t_answer|]. split.
    + cbn [In]. rewrite ?C1. repeat (first [left; reflexivity|right]).
    + unfold get_checkpoint. rewrite C1, C2. split; eexists; reflexivity.
Qed.
Print Assumptions C69_end_race_refuted.

(** the hypotheses of the theorems can be met: the question arrives while the worker computes, the answer comes after its yield *)
Example C69_nonvacuous : exists (t0 : wstate (list_ds [10; 20])) l1 x x1 l2 y c off z,
  tpath 0 0 2 2 (t_init (w_fresh (list_ds [10; 20]))) l1 x /\ tstep 0 0 2 2 x (LAsk 0) x1 /\ standing x = Some t0 /\ 0 <= 0 < k_index t0 /\
  tpath 0 0 2 2 x1 l2 y /\ silent l2 /\ tstep 0 0 2 2 y (LAnswer 0 (Ok (c, off))) z /\ length l2 = 6.
Proof.
  assert (E1 : exists i a s, wnext 0 0 2 2 (w_fresh (list_ds [10; 20])) (Emit i a) s /\ k_cps s = [mkCp None 0; mkCp (Some (ds_save (list_ds [10; 20]) 0 (fst (k_in s)))) 1] /\ k_index s = 1 /\
    exists i' a' s', wnext 0 0 2 2 s (Emit i' a') s' /\ k_cps s' = k_cps s).
  { eexists _, _, _. split; [eapply (@wn_emit _ (list_ds [10; 20]) 0 0 2 2 _ _ _ false); [eapply next_now; [reflexivity|discriminate]|reflexivity]|]. split; [reflexivity|]. split; [reflexivity|].
    eexists _, _, _. split; [eapply (@wn_emit _ (list_ds [10; 20]) 0 0 2 2 _ _ _ false); [eapply next_now; [reflexivity|discriminate]|reflexivity]|]. reflexivity. }
  destruct E1 as (i & a & s & W1 & C1 & X1 & i' & a' & s' & W2 & C2).
  set (c1 := mkCp (D := list_ds [10; 20]) (Some (ds_save (list_ds [10; 20]) 0 (fst (k_in s)))) 1) in *.
  exists s. eexists _, _, _, _, _, _, _, _. split.
  { eapply tp_cons; [apply t_boot|]. eapply tp_cons; [apply t_restore|].
    eapply tp_cons; [eapply t_compute with (x := Some c1); [exact W1|exact C1|]; intros y [= <-]; symmetry; exact X1|].
    eapply tp_cons; [apply t_push|]. eapply tp_cons; [apply t_pop|]. eapply tp_cons; [apply t_release|]. eapply tp_cons; [apply t_request|].
    eapply tp_cons; [apply t_acquire|]. eapply tp_cons; [eapply t_compute with (x := None); [exact W2|rewrite C2; exact C1|discriminate]|]. apply tp_nil. }
  split; [apply t_ask|]. split; [reflexivity|]. split; [rewrite X1; lia|]. split.
  { eapply tp_cons; [apply t_push|]. eapply tp_cons; [apply t_pop|]. eapply tp_cons; [apply t_release|].
    eapply tp_cons; [apply t_lock|]. eapply tp_cons; [apply t_call|]. eapply tp_cons; [eapply t_found with (p := 1); [reflexivity|cbn; lia]|]. apply tp_nil. }
  split; [repeat constructor|]. split; [apply t_answer|]. reflexivity.
Qed.

(** ** the main process *)
Section Queues.
  Context {A B : Type} (n : nat) (answer : nat -> A -> B).
  Notation queues := (@queues A B).

  (** queues [i], ..., [n-1] hold the request [a] or its answer; all others are empty *)
  Definition pending (a : A) (i : nat) (q : queues) : Prop := forall j,
    if (i <=? j) && (j <? n) then (q_cmd q j = [a] /\ q_res q j = []) \/ (q_cmd q j = [] /\ q_res q j = [answer j a])
    else q_cmd q j = [] /\ q_res q j = [].

  Lemma pending_served a i q q' : served answer q q' -> pending a i q -> pending a i q'.
  Proof.
    induction 1 as [q|q j b cs q' E _ IH]; intros HP; [exact HP|]. apply IH. intros m. specialize (HP m) as Hm. specialize (HP j) as Hj.
    cbn [q_cmd q_res]. destruct (Nat.eqb_spec m j) as [->|NE]; [|exact Hm].
    destruct ((i <=? j) && (j <? n)); [|destruct Hj; congruence]. destruct Hj as [[H1 H2]|[H1 H2]]; [|congruence].
    rewrite E in H1. injection H1 as -> ->. right. rewrite H2. auto.
  Qed.

  Lemma pending_collect a rs : forall i q q', collect answer i q rs q' -> i + length rs <= n -> pending a i q ->
    rs = map (fun j => answer j a) (seq i (length rs)) /\ pending a (i + length rs) q'.
  Proof.
    induction rs as [|r rs IH]; intros i q q' HC HL HP; inversion HC as [|i0 q0 q1 r0 rs0 rest q2 HS HR HC']; subst.
    - cbn. rewrite Nat.add_0_r. auto.
    - cbn [length] in *. apply (pending_served HS) in HP. clear HS.
      assert (XI := HP i). replace ((i <=? i) && (i <? n)) with true in XI by (symmetry; apply andb_true_iff; split; [apply Nat.leb_refl|apply Nat.ltb_lt; lia]).
      destruct XI as [[_ X]|[X1 X2]]; [congruence|]. rewrite HR in X2. injection X2 as -> ->.
      destruct (IH _ _ _ HC' ltac:(lia)) as [E1 E2].
      + intros j. specialize (HP j). cbn [q_cmd q_res]. destruct (Nat.eqb_spec j i) as [->|NE].
        * replace ((S i <=? i) && (i <? n)) with false by (symmetry; apply andb_false_iff; left; apply Nat.leb_gt; lia). auto.
        * destruct (Nat.leb_spec i j), (Nat.leb_spec (S i) j); try lia; exact HP.
      + replace (i + S (length rs)) with (S i + length rs) by lia. split; [cbn [seq map]; f_equal; exact E1|exact E2].
  Qed.

  Definition idle (q : queues) : Prop := forall j, q_cmd q j = [] /\ q_res q j = [].

End Queues.

Lemma command_answers {A B} n (answer : nat -> A -> B) a q rs q' : idle q -> command n answer a q (Some rs) q' -> rs = map (fun j => answer j a) (seq 0 n) /\ idle q'.
  Proof.
    intros HI HC. inversion HC as [q0 rs0 q0' HL H|]; subst.
    destruct (@pending_collect A B (length rs) answer a rs 0 (put_all (length rs) a q) q' H ltac:(lia)) as [E HP].
    - intros j. cbn [q_cmd q_res put_all]. destruct (HI j) as [E1 E2]. rewrite E1, E2. cbn [Nat.leb andb]. destruct (j <? length rs); cbn; auto.
    - split; [exact E|]. intros j. specialize (HP j). destruct (Nat.leb_spec (0 + length rs) j), (Nat.ltb_spec j (length rs)); cbn [andb] in HP; try lia; exact HP.
  Qed.

(** Commands that were not interrupted: every command gets its own answers, one from each worker, however the workers' work is
    scheduled (and also if one of the answers is an exception). *)
Theorem C69_own_answers {A B} n (answer : nat -> A -> B) l q :
  commands n answer (q_empty (A := A) (B := B)) l q -> (forall a r, In (a, r) l -> r <> None) ->
  forall a r, In (a, r) l -> r = Some (map (fun i => answer i a) (seq 0 n)).
Proof.
  assert (HI : idle (q_empty (A := A) (B := B))) by (intros j; split; reflexivity). revert HI. generalize (q_empty (A := A) (B := B)).
  intros q0 HI HC. induction HC as [q0|a r q0 q1 l q2 HC _ IH]; intros HN b rb HIN; [destruct HIN|destruct HIN as [E|HIN]; [injection E as <- <-|]].
  - destruct r as [rs|]; [|exfalso; exact (HN a None (or_introl eq_refl) eq_refl)]. destruct (command_answers HI HC) as [-> _]. reflexivity.
  - destruct r as [rs|]; [|exfalso; exact (HN a None (or_introl eq_refl) eq_refl)]. destruct (command_answers HI HC) as [_ HI'].
    eapply IH; [exact HI'|intros a0 r0 H; apply (HN a0 r0); right; exact H|exact HIN].
Qed.
Print Assumptions C69_own_answers.

Lemma serve_all {A B} n (answer : nat -> A -> B) (a : A) (q : queues) rest : (forall j, j < n -> q_cmd q j = a :: rest j) ->
  forall m, m <= n -> exists q', served answer q q' /\
   (forall j, q_cmd q' j = if j <? m then rest j else q_cmd q j) /\ (forall j, q_res q' j = if j <? m then q_res q j ++ [answer j a] else q_res q j).
Proof.
  intros HQ. 
  assert (TR : forall q1 q2 q3 : @queues A B, served answer q1 q2 -> served answer q2 q3 -> served answer q1 q3).
  { induction 1; intros; [assumption|]. econstructor; eauto. }
  induction m as [|m IH]; intros HM; [exists q; split; [constructor|]; split; reflexivity|].
  destruct (IH ltac:(lia)) as (q1 & S1 & C1 & R1).
  eexists. split; [eapply TR; [exact S1|]; eapply sv_step with (i := m); [rewrite C1, Nat.ltb_irrefl; apply HQ; lia|apply sv_refl]|].
  cbn [q_cmd q_res]. split; intros j.
  - destruct (Nat.eqb_spec j m) as [->|NE]; [replace (m <? S m) with true by (symmetry; apply Nat.ltb_lt; lia); reflexivity|].
    rewrite C1. destruct (Nat.ltb_spec j m), (Nat.ltb_spec j (S m)); try lia; reflexivity.
  - destruct (Nat.eqb_spec j m) as [->|NE].
    + replace (m <? S m) with true by (symmetry; apply Nat.ltb_lt; lia). rewrite R1, Nat.ltb_irrefl. reflexivity.
    + rewrite R1. destruct (Nat.ltb_spec j m), (Nat.ltb_spec j (S m)); try lia; reflexivity.
Qed.

(** After an interruption (KeyboardInterrupt while waiting for the workers) all following commands get the answers of the
    previous command: here, for any number of workers and any two commands. *)
Theorem C69_interrupt_refuted {A B} n (answer : nat -> A -> B) (a b : A) : 0 < n ->
  exists q, commands n answer q_empty [(a, None); (b, Some (map (fun i => answer i a) (seq 0 n)))] q.
Proof.
  intros HN.
  assert (CO : forall m i (q : @queues A B), (forall j, i <= j < i + m -> exists rest, q_res q j = answer j a :: rest) ->
    exists q', collect answer i q (map (fun j => answer j a) (seq i m)) q').
  { induction m as [|m IH]; intros i q HQ; [exists q; constructor|]. destruct (HQ i ltac:(lia)) as [rest E].
    destruct (IH (S i) (mkQ (q_cmd q) (fun j => if j =? i then rest else q_res q j))) as [q' HC].
    - intros j Hj. cbn [q_res]. destruct (Nat.eqb_spec j i); [lia|]. apply HQ. lia.
    - exists q'. cbn [seq map]. eapply co_cons; [apply sv_refl|exact E|exact HC]. }
  destruct (@serve_all A B n answer a (put_all n b (put_all n a q_empty)) (fun _ => [b])) with (m := n) as (q1 & S1 & C1 & R1).
  { intros j Hj. cbn [q_cmd put_all q_empty app]. replace (j <? n) with true by (symmetry; apply Nat.ltb_lt; lia). reflexivity. }
  { lia. }
  destruct n as [|n']; [lia|].
  destruct (CO n' 1 (mkQ (q_cmd q1) (fun j => if j =? 0 then [] else q_res q1 j))) as [q2 HC].
  { intros j Hj. cbn [q_res]. destruct (Nat.eqb_spec j 0); [lia|]. rewrite R1. replace (j <? S n') with true by (symmetry; apply Nat.ltb_lt; lia). cbn [q_res put_all q_empty app]. eauto. }
  exists q2. eapply cs_cons; [apply cm_interrupted with (rs := []); [cbn; lia|constructor]|].
  eapply cs_cons; [|constructor]. apply cm_done; [rewrite map_length, seq_length; reflexivity|].
  cbn [seq map]. eapply co_cons; [exact S1| |exact HC]. rewrite R1. reflexivity.
Qed.
Print Assumptions C69_interrupt_refuted.

(** two commands without interruption, two workers *)
Example C69_own_nonvacuous : exists q, commands 2 (fun i a => i + 10 * a) q_empty [(1, Some [10; 11]); (2, Some [20; 21])] q.
Proof.
  eexists. eapply cs_cons; [apply cm_done; [reflexivity|]|].
  - eapply co_cons; [eapply sv_step with (i := 1); [reflexivity|]; eapply sv_step with (i := 0); [reflexivity|]; apply sv_refl|reflexivity|].
    eapply co_cons; [apply sv_refl|reflexivity|]. apply co_nil.
  - eapply cs_cons; [apply cm_done; [reflexivity|]|apply cs_nil].
    eapply co_cons; [eapply sv_step with (i := 0); [reflexivity|]; apply sv_refl|reflexivity|].
    eapply co_cons; [eapply sv_step with (i := 1); [reflexivity|]; apply sv_refl|reflexivity|]. apply co_nil.
Qed.
