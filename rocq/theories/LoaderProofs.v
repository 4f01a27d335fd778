From Verif Require Import Base Dataset DatasetProofs WrapProofs WrapRun WrapSpec Loader LoaderSpec.
Local Open Scope nat_scope.

Definition ysamples {P} (l : list (event (sample P))) : list (sample P) :=
  flat_map (fun e => match e with Yield a => [a] | _ => [] end) l.

Lemma ysamples_app {P} (l1 l2 : list (event (sample P))) : ysamples (l1 ++ l2) = ysamples l1 ++ ysamples l2.
Proof. apply flat_map_app. Qed.

Section W.
  Context {P : Type} (D : dataset P) (w gid nw min_n n_cp : nat).
  Notation wnext := (@wnext P D w gid min_n n_cp).
  Notation wruns := (@wruns P D w gid min_n n_cp).
  Notation delivers := (@delivers P D w gid min_n n_cp).
  Notation wreach := (@wreach P D w gid nw min_n n_cp).
  Notation at0 := (ds_init D, ds_iter D).
  Notation cev := (list (event (sample P))).

  Fixpoint number (i : nat) (xs : list (sample P)) : list (nat * sample P) :=
    match xs with [] => [] | a :: xs' => (i, add_key gid i a) :: number (S i) xs' end.

  Lemma number_length i xs : length (number i xs) = length xs.
  Proof. revert i; induction xs; intros; cbn; auto. Qed.
  Lemma number_app i xs ys : number i (xs ++ ys) = number i xs ++ number (i + length xs) ys.
  Proof.
    revert i; induction xs as [|x xs IH]; intros i; cbn; [rewrite Nat.add_0_r; reflexivity|]. rewrite IH.
    do 3 f_equal. lia.
  Qed.
  Lemma number_step i q (y1 y2 : list (sample P)) :
    number (i + q) (skipn q (y1 ++ y2)) =
    number (i + q) (skipn q y1) ++ number (i + length y1 + (q - length y1)) (skipn (q - length y1) y2).
  Proof.
    rewrite skipn_app, number_app. f_equal. rewrite skipn_length. destruct (Nat.le_gt_cases q (length y1)).
    - f_equal; lia.
    - f_equal; lia.
  Qed.

  Lemma emits_bwd (s s' : st D) a l : next w s (Yield a) s' -> (emits w s' l <-> emits w s (Yield a :: l)).
  Proof.
    intros N. split; intros E; [eapply em_yield; eauto|]. apply emits_yield_inv in E. destruct E as (s2 & N2 & E).
    destruct (next_det N N2) as [_ <-]. exact E.
  Qed.
  Lemma emits_bwd_done (s s' : st D) l : next w s Done s' -> (emits w (fst s', ds_iter D) l <-> emits w s (Done :: l)).
  Proof.
    intros N. split; intros E; [eapply em_done; eauto|]. apply emits_done_inv in E. destruct E as (s2 & N2 & E).
    destruct (next_det N N2) as [_ <-]. exact E.
  Qed.

  Lemma clean_app (l1 l2 : cev) : clean (l1 ++ l2) <-> clean l1 /\ clean l2.
  Proof. apply Forall_app. Qed.

  (** ** what a worker delivers, in terms of its dataset *)
  Lemma wnext_inner s e s' : wnext s e s' -> exists evs : cev, clean evs /\
    (forall l, (forall x, e <> Fail x) -> (emits w (k_in s') l <-> emits w (k_in s) (evs ++ l))) /\ emits w (k_in s) evs /\
    emitted [e] = number (k_index s + k_skip s) (skipn (k_skip s) (ysamples evs)) /\
    k_index s' = k_index s + length (ysamples evs) /\ k_skip s' = k_skip s - length (ysamples evs).
  Proof.
    induction 1 as [s a i' e s' N K H IH|s a i' clk N K|s i' e s' N H1 H2 H IH|s i' clk N H1|s x i' N].
    - destruct IH as (evs & C & EM & E0 & EQ & HI & HK). cbn [k_in k_index k_cps k_skip] in *. exists (Yield a :: evs).
      split; [constructor; [exact I|exact C]|]. split; [intros l NF; cbn [app]; rewrite <- (emits_bwd _ N); apply EM; assumption|].
      split; [apply (emits_bwd _ N); exact E0|]. cbn [ysamples flat_map app length]. fold (ysamples evs).
      destruct (k_skip s) as [|q] eqn:EK; [lia|]. rewrite EQ. replace (S q - 1) with q by lia. cbn [skipn].
      split; [f_equal; lia|]. split; lia.
    - exists [Yield a]. split; [repeat constructor|]. split; [intros l _; cbn [app k_in] in *; apply (emits_bwd _ N)|].
      split; [eapply em_yield; [exact N|constructor]|]. rewrite K. cbn. rewrite Nat.add_0_r. split; [reflexivity|]. lia.
    - destruct IH as (evs & C & EM & E0 & EQ & HI & HK). cbn [k_in k_index k_cps k_skip] in *. exists (Done :: evs).
      split; [constructor; [exact I|exact C]|]. split; [intros l NF; cbn [app]; rewrite <- (emits_bwd_done _ N); apply EM; assumption|].
      split; [apply (emits_bwd_done _ N); exact E0|]. auto.
    - exists [Done]. split; [repeat constructor|]. split; [intros l _; cbn [app k_in] in *; apply (emits_bwd_done _ N)|].
      split; [eapply em_done; [exact N|constructor]|]. cbn. rewrite skipn_nil. split; [reflexivity|]. lia.
    - exists []. split; [constructor|]. split; [intros l NF; exfalso; eapply NF; reflexivity|]. split; [constructor|]. cbn. rewrite skipn_nil.
      split; [reflexivity|]. lia.
  Qed.

  Lemma wruns_inner s l s' : wruns s l s' -> exists evs : cev, clean evs /\ emits w (k_in s) evs /\
    emitted l = number (k_index s + k_skip s) (skipn (k_skip s) (ysamples evs)).
  Proof.
    induction 1 as [s|s e s1 l s2 N NF _ IH|s x s1 N].
    - exists []. split; [constructor|]. split; [constructor|]. cbn. rewrite skipn_nil. reflexivity.
    - destruct (wnext_inner N) as (ev1 & C1 & EM & E0 & EQ & HI & HK).
      destruct IH as (ev2 & C2 & E2 & EQ2). exists (ev1 ++ ev2). split; [apply clean_app; auto|].
      split; [apply EM; assumption|]. rewrite ysamples_app, number_step, <- HI, <- HK, <- EQ, <- EQ2.
      change (e :: l) with ([e] ++ l). unfold emitted. apply flat_map_app.
    - destruct (wnext_inner N) as (ev1 & C1 & EM & E0 & EQ & HI & HK). exists ev1. auto.
  Qed.

  Lemma inner_wruns (evs : cev) : forall s, clean evs -> emits w (k_in s) evs ->
    exists l s', wruns s l s' /\ emitted l = number (k_index s + k_skip s) (skipn (k_skip s) (ysamples evs)).
  Proof.
    induction evs as [|ev evs IH]; intros s C E.
    - exists [], s. split; [constructor|]. cbn. rewrite skipn_nil. reflexivity.
    - inversion C as [|? ? C1 C2]; subst. destruct ev as [a| | |x]; try (exfalso; exact C1).
      + apply emits_yield_inv in E. destruct E as (i' & N & E). destruct (k_skip s) as [|q] eqn:K.
        * set (s1 := mkWk i' (S (k_index s)) (store_checkpoint w min_n n_cp false false (fst i') (S (k_index s)) (k_cps s)) 0 true false).
          destruct (IH s1 C2 E) as (l & s' & R & EQ). exists (Emit (k_index s) (add_key gid (k_index s) a) :: l), s'.
          split; [eapply wr_cons; [apply (wn_emit gid min_n n_cp false N K)|discriminate|exact R]|].
          cbn [emitted flat_map app]. fold (emitted l). rewrite EQ. cbn [s1 k_index k_skip skipn ysamples flat_map app number].
          rewrite !Nat.add_0_r. reflexivity.
        * destruct (IH (mkWk i' (S (k_index s)) (k_cps s) (k_skip s - 1) true true) C2 E) as (l & s' & R & EQ).
          cbn [k_index k_skip] in EQ.
          assert (EQ' : emitted l = number (k_index s + S q) (skipn (S q) (ysamples (Yield a :: evs)))).
          { rewrite EQ, K. cbn [ysamples flat_map app skipn]. f_equal; [lia|]. f_equal; lia. }
          assert (SK : 0 < k_skip s) by lia.
          inversion R as [x|x e s1 l' s2 N1 NF R'|x y s1 N1]; subst.
          -- exists [], s. split; [constructor|]. exact EQ'.
          -- exists (e :: l'), s'. split; [eapply wr_cons; [eapply wn_skip; eassumption|exact NF|exact R']|]. exact EQ'.
          -- eexists [Fail y], s'. split; [apply wr_fail; eapply wn_skip; eassumption|]. exact EQ'.
      + apply emits_done_inv in E. destruct E as (i' & N & E). destruct (k_has s && k_lskip s) eqn:HL.
        * apply andb_true_iff in HL. destruct HL as [H1 H2].
          destruct (IH (mkWk (fst i', ds_iter D) (k_index s) (k_cps s) (k_skip s) false true) C2 E) as (l & s' & R & EQ).
          cbn [k_index k_skip] in EQ.
          inversion R as [x|x e s1 l' s2 N1 NF R'|x y s1 N1]; subst.
          -- exists [], s. split; [constructor|]. exact EQ.
          -- exists (e :: l'), s'. split; [eapply wr_cons; [eapply wn_again; eassumption|exact NF|exact R']|]. exact EQ.
          -- eexists [Fail y], s'. split; [apply wr_fail; eapply wn_again; eassumption|]. exact EQ.
        * set (s1 := mkWk (fst i', ds_iter D) (k_index s) (store_checkpoint w min_n n_cp true false (fst i') (k_index s) (k_cps s)) (k_skip s) false true).
          destruct (IH s1 C2 E) as (l & s' & R & EQ). exists (End :: l), s'.
          split; [eapply wr_cons; [apply (wn_end gid min_n n_cp false N HL)|discriminate|exact R]|]. exact EQ.
  Qed.

  Lemma delivers_iff s ys : delivers s ys <-> exists evs : cev, clean evs /\ emits w (k_in s) evs /\
    ys = number (k_index s + k_skip s) (skipn (k_skip s) (ysamples evs)).
  Proof.
    split.
    - intros (l & s' & R & <-). apply (wruns_inner R).
    - intros (evs & C & E & ->). apply (inner_wruns C E).
  Qed.

  (** ** positions *)
  Definition at_pos (n : nat) (s : st D) : Prop := reach w false nw s /\
    exists evs : cev, clean evs /\ length (ysamples evs) = n /\ emits w at0 evs /\
      forall l, emits w s l <-> emits w at0 (evs ++ l).

  Lemma at_pos_init : at_pos 0 at0.
  Proof. split; [constructor|]. exists []. repeat split; try constructor; auto. Qed.

  Lemma at_pos_yield n s a s' : at_pos n s -> next w s (Yield a) s' -> at_pos (S n) s'.
  Proof.
    intros [R (evs & C & L & E & H)] N. split; [eapply r_yield; eauto|]. exists (evs ++ [Yield a]).
    split; [apply clean_app; split; [exact C|repeat constructor]|]. rewrite ysamples_app, app_length, L. cbn. split; [lia|].
    split; [apply H; eapply em_yield; [exact N|constructor]|]. intros l. rewrite (emits_bwd l N), H, <- app_assoc. reflexivity.
  Qed.

  Lemma at_pos_done n s s' : at_pos n s -> next w s Done s' -> at_pos n (fst s', ds_iter D).
  Proof.
    intros [R (evs & C & L & E & H)] N. split; [eapply r_done; eauto|]. exists (evs ++ [Done]).
    split; [apply clean_app; split; [exact C|repeat constructor]|]. rewrite ysamples_app, app_length, L. cbn. split; [lia|].
    split; [apply H; eapply em_done; [exact N|constructor]|]. intros l. rewrite (emits_bwd_done l N), H, <- app_assoc. reflexivity.
  Qed.

  Definition cp_good (c : checkpoint D) : Prop :=
    exists o g x, at_pos (cp_index c) (o, g) /\ cp_state c = Some x /\ x = ds_save D w o.

  (** the list of checkpoints: all good, possibly headed by the initial one *)
  Definition cps_ok (i skip : nat) (cps : list (checkpoint D)) : Prop :=
    Forall cp_good cps \/
    exists rest, cps = mkCp None 0 :: rest /\ Forall cp_good rest /\ skip = 0 /\
      (forall c1 r, rest = c1 :: r -> cp_index c1 <= 1) /\ (0 < i -> rest <> []).

  Definition winv (s : wstate D) : Prop := at_pos (k_index s) (k_in s) /\ cps_ok (k_index s) (k_skip s) (k_cps s).

  Lemma store_ok force clk i0 skip cps o g i :
    cps_ok i0 skip cps -> at_pos i (o, g) -> i <= S i0 -> (0 < i -> force = true \/ i <= 1 \/ 0 < i0) ->
    cps_ok i skip (store_checkpoint w min_n n_cp force clk o i cps).
  Proof.
    intros OK AP HL HI. assert (G : cp_good (mkCp (Some (ds_save D w o)) i)) by (exists o, g; eexists; cbn; eauto).
    unfold store_checkpoint. destruct (force || (clk && (last_index cps + min_n <=? i)) || (i <=? 1)) eqn:C.
    - destruct OK as [F|(rest & -> & F & K & H1 & H2)].
      + left. assert (F' : Forall cp_good (cps ++ [mkCp (Some (ds_save D w o)) i])) by (apply Forall_app; split; [exact F|repeat constructor; exact G]).
        destruct (n_cp <? _); [|exact F']. destruct (cps ++ _) as [|y l]; [constructor|]. inversion F'; assumption.
      + cbn [app]. assert (F' : Forall cp_good (rest ++ [mkCp (Some (ds_save D w o)) i])) by (apply Forall_app; split; [exact F|repeat constructor; exact G]).
        destruct (n_cp <? _).
        * left. exact F'.
        * right. exists (rest ++ [mkCp (Some (ds_save D w o)) i]). split; [reflexivity|]. split; [exact F'|]. split; [exact K|].
          split; [|intros _ E; destruct rest; discriminate].
          intros c1 r E. destruct rest as [|c r']; cbn [app] in E; injection E as <- _.
          -- cbn [cp_index]. assert (i0 = 0) by (destruct i0; [reflexivity|exfalso; apply H2; [lia|reflexivity]]). lia.
          -- eapply H1. reflexivity.
    - destruct OK as [F|(rest & -> & F & K & H1 & H2)]; [left; exact F|]. right. exists rest. split; [reflexivity|]. split; [exact F|].
      split; [exact K|]. split; [exact H1|]. intros Hi. apply H2. apply orb_false_iff in C. destruct C as [C C1].
      destruct (HI Hi) as [->|[L|L]]; [discriminate|apply Nat.leb_nle in C1; lia|exact L].
  Qed.

  Lemma winv_next s e s' : wnext s e s' -> (forall x, e <> Fail x) -> winv s -> winv s'.
  Proof.
    induction 1 as [s a i' e s' N K H IH|s a i' clk N K|s i' e s' N H1 H2 H IH|s i' clk N H1|s x i' N]; intros NF [AP OK].
    - apply IH; [exact NF|]. split; cbn [k_index k_in k_skip k_cps].
      + eapply at_pos_yield; eauto.
      + destruct OK as [F|(rest & _ & _ & K0 & _)]; [left; exact F|lia].
    - destruct i' as [o g]. split; cbn [k_index k_in k_skip k_cps fst].
      + eapply at_pos_yield; eauto.
      + rewrite K in OK. eapply store_ok; [exact OK|eapply at_pos_yield; eauto|lia|]. intros _. destruct (k_index s); lia.
    - apply IH; [exact NF|]. split; cbn [k_index k_in k_skip k_cps]; [eapply at_pos_done; eauto|exact OK].
    - destruct i' as [o g]. split; cbn [k_index k_in k_skip k_cps fst].
      + apply (at_pos_done AP N).
      + eapply store_ok; [exact OK|apply (at_pos_done AP N)|lia|auto].
    - exfalso. eapply NF. reflexivity.
  Qed.

  Lemma winv_fresh : winv (w_fresh D).
  Proof.
    split; [apply at_pos_init|]. right. exists []. cbn. split; [reflexivity|]. split; [constructor|]. split; [reflexivity|].
    split; [discriminate|lia].
  Qed.

  Lemma find_cp_some r (l : list (checkpoint D)) c : find_cp r l = Some c -> In c l /\ cp_index c <= r.
  Proof.
    induction l as [|x l IH]; cbn [find_cp]; [discriminate|]. destruct (cp_index x <=? r) eqn:E.
    - intros [= <-]. apply Nat.leb_le in E. auto with datatypes.
    - intros H. destruct (IH H). auto with datatypes.
  Qed.

  Lemma find_cp_before r (l1 l2 : list (checkpoint D)) x c : cp_index x <= r -> find_cp r (l1 ++ x :: l2) = Some c -> In c (l1 ++ [x]).
  Proof.
    intros HX. induction l1 as [|y l1 IH]; cbn [find_cp app].
    - apply Nat.leb_le in HX. rewrite HX. intros [= <-]. left. reflexivity.
    - destruct (cp_index y <=? r); [intros [= <-]; left; reflexivity|]. intros H. right. apply IH. exact H.
  Qed.

  Lemma get_checkpoint_good s k c off : winv s -> k < k_index s -> get_checkpoint s k = Ok (c, off) ->
    cp_good c /\ cp_index c <= S k /\ off = S k - cp_index c.
  Proof.
    intros [AP OK] HK. unfold get_checkpoint. destruct (find_cp (k + 1) (rev (k_cps s))) as [c'|] eqn:E; [|discriminate]. intros [= <- <-].
    destruct (find_cp_some E) as [I L]. split; [|lia]. destruct OK as [F|(rest & EQ & F & K & H1 & H2)].
    - rewrite Forall_forall in F. apply F. apply in_rev. exact I.
    - rewrite Forall_forall in F. apply F. rewrite EQ in E. destruct rest as [|c1 r]; [exfalso; apply H2; [lia|reflexivity]|].
      specialize (H1 _ _ eq_refl). cbn [rev] in E. rewrite <- app_assoc in E. cbn [app] in E.
      apply find_cp_before in E; [|lia]. apply in_app_or in E. destruct E as [E|[->|[]]]; [right; apply in_rev; exact E|left; reflexivity].
  Qed.

  (** the streams a state at a position continues *)
  Lemma emits_comparable (s : st D) l1 : forall l2, emits w s l1 -> emits w s l2 -> (exists l, l2 = l1 ++ l) \/ (exists l, l1 = l2 ++ l).
  Proof.
    intros l2 E1 E2. destruct (Nat.le_ge_cases (length l1) (length l2)) as [L|L].
    - left. exists (skipn (length l1) l2). rewrite <- (firstn_skipn (length l1) l2) at 1. f_equal. symmetry.
      eapply emits_det; [exact E1|rewrite <- (firstn_skipn (length l1) l2) in E2; eapply emits_prefix; exact E2|]. rewrite firstn_length. lia.
    - right. exists (skipn (length l2) l1). rewrite <- (firstn_skipn (length l2) l1) at 1. f_equal.
      eapply emits_det; [rewrite <- (firstn_skipn (length l2) l1) in E1; eapply emits_prefix; exact E1|exact E2|]. rewrite firstn_length. lia.
  Qed.

  Lemma delivers_fresh ys : delivers (w_fresh D) ys <-> exists evs : cev, clean evs /\ emits w at0 evs /\ ys = number 0 (ysamples evs).
  Proof. rewrite delivers_iff. reflexivity. Qed.

  Lemma number_firstn i n xs : firstn n (number i xs) = number i (firstn n xs).
  Proof. revert i xs; induction n as [|n IH]; intros i [|x xs]; cbn; auto. f_equal. apply IH. Qed.
  Lemma number_skipn i n xs : skipn n (number i xs) = number (i + n) (skipn n xs).
  Proof.
    revert i xs; induction n as [|n IH]; intros i [|x xs]; cbn; auto.
    - rewrite Nat.add_0_r. reflexivity.
    - rewrite IH. f_equal. lia.
  Qed.

  Lemma delivers_pos (s : wstate D) : at_pos (k_index s) (k_in s) ->
    (exists pre, length pre = k_index s + k_skip s /\ delivers (w_fresh D) pre) ->
    forall ys, delivers s ys <-> exists pre, length pre = k_index s + k_skip s /\ delivers (w_fresh D) (pre ++ ys).
  Proof.
    intros [R (ev0 & C0 & L0 & E0 & H0)] (pre0 & HP0 & HD0) ys. rewrite delivers_iff. split.
    - intros (evs & C & E & ->). apply H0 in E.
      destruct (Nat.le_gt_cases (k_index s + k_skip s) (length (ysamples (ev0 ++ evs)))) as [L|L].
      + exists (number 0 (firstn (k_index s + k_skip s) (ysamples (ev0 ++ evs)))). rewrite number_length, firstn_length. split; [lia|].
        apply delivers_fresh. exists (ev0 ++ evs). split; [apply clean_app; auto|]. split; [exact E|].
        rewrite ysamples_app in *. rewrite <- (firstn_skipn (k_index s + k_skip s) (ysamples ev0 ++ ysamples evs)) at 2.
        rewrite number_app. f_equal. rewrite firstn_length, Nat.min_l by exact L. rewrite app_length in L.
        rewrite skipn_app. rewrite (skipn_all2 (ysamples ev0)) by lia. cbn [app].
        f_equal. f_equal. lia.
      + rewrite ysamples_app, app_length, L0 in L. rewrite (skipn_all2 (ysamples evs)) by lia. exists pre0. cbn [number]. rewrite app_nil_r. auto.
    - intros (pre & HP & HD). apply delivers_fresh in HD. destruct HD as (evs & C & E & EQ).
      destruct (emits_comparable E0 E) as [[l ->]|[l EL]].
      + exists l. split; [apply clean_app in C; apply C|]. split; [apply H0; exact E|].
        assert (EY : ys = skipn (k_index s + k_skip s) (pre ++ ys)) by (rewrite skipn_app, HP, Nat.sub_diag, (skipn_all2 pre) by lia; reflexivity).
        rewrite EY, EQ, number_skipn, ysamples_app. cbn [plus]. f_equal. rewrite skipn_app, (skipn_all2 (ysamples ev0)) by lia. cbn [app]. f_equal. lia.
      + exists []. split; [constructor|]. split; [constructor|]. cbn [ysamples flat_map]. rewrite skipn_nil. cbn [number].
        apply (f_equal (@length _)) in EQ. rewrite app_length, HP, number_length in EQ. rewrite EL, ysamples_app, app_length in L0.
        destruct ys; [reflexivity|]. cbn [length] in EQ. lia.
  Qed.

  Lemma at_pos_pre n s : at_pos n s -> forall m, m <= n -> exists pre, length pre = m /\ delivers (w_fresh D) pre.
  Proof.
    intros [_ (evs & C & L & E & _)] m Hm. exists (number 0 (firstn m (ysamples evs))). rewrite number_length, firstn_length. split; [lia|].
    assert (X : forall (l : cev) m, m <= length (ysamples l) -> exists l1 l2, l = l1 ++ l2 /\ ysamples l1 = firstn m (ysamples l)).
    { clear. induction l as [|e l IH]; intros m Hm.
      - exists [], []. cbn in *. split; [reflexivity|]. rewrite firstn_nil. reflexivity.
      - destruct m as [|m]; [exists [], (e :: l); auto|]. destruct e as [a| | |x]; cbn [ysamples flat_map app length] in *.
        + destruct (IH m) as (l1 & l2 & -> & EY); [fold (ysamples l) in Hm; lia|]. exists (Yield a :: l1), l2. split; [reflexivity|].
          cbn [ysamples flat_map app firstn]. fold (ysamples l1). rewrite EY. reflexivity.
        + destruct (IH (S m)) as (l1 & l2 & -> & EY); [fold (ysamples l) in Hm; lia|]. exists (Tau :: l1), l2. split; [reflexivity|]. exact EY.
        + destruct (IH (S m)) as (l1 & l2 & -> & EY); [fold (ysamples l) in Hm; lia|]. exists (Done :: l1), l2. split; [reflexivity|]. exact EY.
        + destruct (IH (S m)) as (l1 & l2 & -> & EY); [fold (ysamples l) in Hm; lia|]. exists (Raise x :: l1), l2. split; [reflexivity|]. exact EY. }
    destruct (X evs m ltac:(lia)) as (l1 & l2 & -> & EY). apply delivers_fresh. exists l1. apply clean_app in C. split; [apply C|].
    split; [eapply emits_prefix; exact E|]. rewrite EY. reflexivity.
  Qed.

  Hypothesis Hw : w < nw.
  Hypothesis HR : resumable D false nw.

  Lemma restored_pos c off cks : cp_good c -> length cks = nw -> nth_error cks w = Some (c, off) ->
    winv (w_restored w cks) /\ k_index (w_restored w cks) = cp_index c /\ k_skip (w_restored w cks) = off.
  Proof.
    intros (o & g & x & AP & ES & EX) HL HN. unfold w_restored. cbn [k_index k_skip k_in k_cps].
    assert (EI : nth w (map (fun ck : checkpoint D * nat => ck_index (fst ck)) cks) 0 = cp_index c).
    { erewrite nth_error_nth; [|erewrite map_nth_error by exact HN; reflexivity]. cbn [fst]. unfold ck_index. rewrite ES. reflexivity. }
    assert (EO : nth w (map snd cks) 0 = off).
    { erewrite nth_error_nth; [|erewrite map_nth_error by exact HN; reflexivity]. reflexivity. }
    set (sts := map (fun ck : checkpoint D * nat => cp_state (fst ck)) cks).
    assert (HS : nth_error sts w = Some (Some (ds_save D w o))).
    { unfold sts. erewrite map_nth_error by exact HN. cbn [fst]. congruence. }
    assert (HLS : length sts = nw) by (unfold sts; rewrite map_length; exact HL).
    assert (AP2 : at_pos (cp_index c) (ds_restore D (Some (ds_merge D sts)) (ds_init D), ds_iter D)).
    { destruct AP as [R (evs & C & L & E & H)]. split; [eapply r_restore; [exact R|exact HLS|exact HS]|].
      exists evs. split; [exact C|]. split; [exact L|]. split; [exact E|]. intros l. rewrite <- H. symmetry.
      apply (HR Hw R HLS HS). }
    rewrite EI, EO. split; [|auto]. split; cbn [k_index k_skip k_in k_cps]; [exact AP2|]. left. repeat constructor.
    eexists _, _, _. cbn [cp_index cp_state]. eauto.
  Qed.

  Lemma wreach_inv b s : wreach b s -> winv s.
  Proof.
    induction 1 as [|b s e s' R IH N NF|b s k c off cks R IH HK HG HL HN]; [apply winv_fresh|eapply winv_next; eauto|].
    destruct (get_checkpoint_good IH (proj2 HK) HG) as (G & _ & _). apply (restored_pos G HL HN).
  Qed.

  Lemma resume_checkpoint b s k c off cks : wreach b s -> b <= k < k_index s -> get_checkpoint s k = Ok (c, off) ->
    length cks = nw -> nth_error cks w = Some (c, off) ->
    forall ys, delivers (w_restored w cks) ys <-> exists pre, length pre = S k /\ delivers (w_fresh D) (pre ++ ys).
  Proof.
    intros R HK HG HL HN. pose proof (wreach_inv R) as INV. destruct (get_checkpoint_good INV (proj2 HK) HG) as (G & L & ->).
    destruct (restored_pos G HL HN) as ([AP _] & EI & EO).
    assert (EP : k_index (w_restored w cks) + k_skip (w_restored w cks) = S k) by (rewrite EI, EO; lia).
    rewrite <- EP. apply delivers_pos; [exact AP|]. rewrite EP. destruct INV as [AP0 _]. apply (at_pos_pre AP0). lia.
  Qed.
End W.
