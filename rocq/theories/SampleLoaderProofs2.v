(** Proofs about the model of the sample loader: what an epoch consists of. *)
From Coq Require Import QArith.
From Verif Require Import Base Dataset DatasetProofs WrapSpec Rng RngProofs Sharder SampleLoader SampleLoaderSpec SampleLoaderProofs.
Local Close Scope Q_scope.
Local Close Scope Z_scope.
Local Open Scope nat_scope.

(** *** interleavings *)
Section IL.
  Context {A : Type}.
  Implicit Types ls : list (list A).

  Lemma il_app_perm ls xs : interleaved ls xs -> forall ls', Permutation ls ls' -> interleaved ls' xs.
  Proof.
    induction 1 as [ls H|l1 x l l2 xs H IH]; intros ls' HP.
    - constructor. rewrite Forall_forall in *. intros y Hy. apply H. eapply Permutation_in; [symmetry; exact HP|exact Hy].
    - assert (Hin : In (x :: l) ls') by (eapply Permutation_in; [exact HP|apply in_elt]).
      apply in_split in Hin. destruct Hin as (m1 & m2 & ->). constructor. apply IH.
      apply Permutation_app_inv in HP.
      rewrite <- (Permutation_middle l1 l2 l), <- (Permutation_middle m1 m2 l). constructor. exact HP.
  Qed.

  Lemma il_drop_nil ls xs : interleaved ([] :: ls) xs -> interleaved ls xs.
  Proof.
    intros H. remember ([] :: ls) as l0 eqn:E. revert ls E. induction H as [l0 H|l1 x l l2 xs H IH]; intros ls E.
    - subst l0. constructor. inversion_clear H. assumption.
    - destruct l1 as [|y l1]; cbn in E; [discriminate|]. injection E as E1 E2. subst y ls. constructor. apply IH. reflexivity.
  Qed.

  Lemma il_add_nil ls xs : interleaved ls xs -> interleaved ([] :: ls) xs.
  Proof.
    induction 1 as [l0 H|l1 x l l2 xs H IH]; [constructor; constructor; auto|].
    exact (@il_cons _ ([] :: l1) x l l2 xs IH).
  Qed.

  Lemma il_concat_nil ls : concat ls = [] -> Forall (eq []) ls.
  Proof.
    induction ls as [|l ls IH]; cbn; intros H; [constructor|]. apply app_eq_nil in H. destruct H. constructor; auto.
  Qed.

  (** one interleaving always exists *)
  Lemma il_concat ls : interleaved ls (concat ls).
  Proof.
    induction ls as [|l ls IH]; [constructor; constructor|]. cbn. induction l as [|x l IHl].
    - apply il_add_nil. exact IH.
    - exact (@il_cons _ [] x l ls _ IHl).
  Qed.

  Lemma il_permutation ls xs : interleaved ls xs -> Permutation (concat ls) xs.
  Proof.
    induction 1 as [ls H|l1 x l l2 xs H IH].
    - induction H as [|l ls <- H IH]; [constructor|exact IH].
    - rewrite concat_app in *. cbn [concat] in *. rewrite <- IH. cbn. symmetry. apply Permutation_middle.
  Qed.

  Lemma concat_cons_perm (p : list (list A)) x m q : Permutation (x :: concat (p ++ m :: q)) (concat (p ++ (x :: m) :: q)).
  Proof. rewrite !concat_app. cbn. apply Permutation_middle. Qed.

  (** every list's elements come in their order *)
  Lemma il_subsequence ls xs : interleaved ls xs -> forall l1 l l2, ls = l1 ++ l :: l2 ->
    exists rest, interleaved [l; rest] xs /\ Permutation rest (concat (l1 ++ l2)).
  Proof.
    induction 1 as [ls H|m1 x m m2 xs H IH]; intros l1 l l2 E.
    - subst ls. rewrite Forall_app in H. destruct H as [H1 H2]. inversion_clear H2. subst l.
      exists []. split; [constructor; auto|]. rewrite concat_app.
      assert (Z : forall q, Forall (eq []) q -> concat q = @nil A).
      { induction 1 as [|? ? <- ? IHq]; cbn; auto. }
      rewrite !Z by assumption. constructor.
    - assert (C : (m1 = l1 /\ l = x :: m /\ m2 = l2) \/ (exists a, l1 = m1 ++ (x :: m) :: a /\ m2 = a ++ l :: l2) \/
                  (exists a, m1 = l1 ++ l :: a /\ l2 = a ++ (x :: m) :: m2)).
      { clear -E. revert m1 E. induction l1 as [|y l1 IH]; intros m1 E; destruct m1 as [|z m1]; cbn in E.
        - left. injection E as E1 E2. auto.
        - injection E as E1 E2. right; right. exists m1. subst. auto.
        - injection E as E1 E2. right; left. exists l1. subst. auto.
        - injection E as E1 E2. subst z. destruct (IH _ E2) as [(-> & B & C)|[(a & -> & C)|(a & -> & C)]].
          + left; auto.
          + right; left. exists a. auto.
          + right; right. exists a. auto. }
      destruct C as [(-> & -> & ->)|[(a & -> & ->)|(a & -> & ->)]].
      + destruct (IH l1 m l2 eq_refl) as (rest & I & Pm). exists rest. split; [|exact Pm].
        exact (@il_cons _ [] x m [rest] _ I).
      + destruct (IH (m1 ++ m :: a) l l2) as (rest & I & Pm); [rewrite <- app_assoc; reflexivity|].
        exists (x :: rest). split.
        * exact (@il_cons _ [l] x rest [] _ I).
        * rewrite Pm. rewrite <- !app_assoc. cbn [app]. apply concat_cons_perm.
      + destruct (IH l1 l (a ++ m :: m2)) as (rest & I & Pm); [rewrite <- app_assoc; reflexivity|].
        exists (x :: rest). split.
        * exact (@il_cons _ [l] x rest [] _ I).
        * rewrite Pm. rewrite !(app_assoc l1). apply concat_cons_perm.
  Qed.
End IL.

Section P.
  Context {X : Type} (R : rng_ops).
  Variables (shards : list (list shseq)) (content : shseq -> list (sample X))
            (par : nat) (shuffle : shuffling) (loop : bool)
            (rsample : nat -> rkey -> result (sample X)).
  Notation L := (loader_ds R shards content par shuffle loop rsample).
  Notation ws := (worker_shards shards).
  Notation nw := (length shards).
  Notation hd := (@sl_head X R shards par shuffle).
  Notation lp := (@sl_loop X R shards content par shuffle loop).
  Notation once := (@shards_once R par shuffle).

  Definition rem1 (p : option progress) : list (sample X) :=
    match p with None => [] | Some (s, k) => skipn k (content s) end.
  Definition rem (s : slot) : list (list (sample X)) := map rem1 (sl_act s) ++ map content (sl_pend s).

  (** all slots in use while sub-shards are pending *)
  Definition filled (s : slot) : Prop := sl_pend s = [] \/ Forall (fun p => is_some p = true) (sl_act s).

  Definition same_counts (a b : slot) : Prop := sl_cnt a = sl_cnt b /\ sl_ep a = sl_ep b /\ sl_epc a = sl_epc b.

  (** what one round of the sample loop can do *)
  Inductive lcase (w : nat) (s : slot) : slot -> sl_gen -> event (sample X) -> Prop :=
  | lc_end s' : Forall (eq None) (sl_act s) -> sl_act s' = sl_act s -> sl_pend s' = sl_pend s ->
      sl_cnt s' = sl_cnt s -> sl_ep s' = S (sl_ep s) -> sl_epc s' = 0 ->
      lcase w s s' SgHead (if loop then Tau else Done)
  | lc_row s' a1 sh k a2 row : sl_act s = a1 ++ Some (sh, k) :: a2 -> nth_error (content sh) k = Some row ->
      (shuffle = NoShuffle -> a1 = []) ->
      sl_act s' = a1 ++ Some (sh, S k) :: a2 -> sl_pend s' = sl_pend s ->
      sl_cnt s' = S (sl_cnt s) -> sl_ep s' = sl_ep s -> sl_epc s' = S (sl_epc s) ->
      lcase w s s' (SgLoop (map prob (sl_act s'))) (Yield row)
  | lc_next s' a1 sh k a2 t pend : sl_act s = a1 ++ Some (sh, k) :: a2 -> nth_error (content sh) k = None ->
      (shuffle = NoShuffle -> a1 = []) ->
      sl_pend s = t :: pend -> sl_act s' = a1 ++ Some (t, 0) :: a2 -> sl_pend s' = pend -> same_counts s' s ->
      lcase w s s' (SgLoop (map prob (sl_act s'))) Tau
  | lc_stop s' a1 sh k a2 : sl_act s = a1 ++ Some (sh, k) :: a2 -> nth_error (content sh) k = None ->
      (shuffle = NoShuffle -> a1 = []) -> shuffle <> Replace ->
      sl_pend s = [] -> sl_act s' = a1 ++ None :: a2 -> sl_pend s' = [] -> same_counts s' s ->
      lcase w s s' (SgLoop (map prob (sl_act s'))) Tau
  | lc_draw s' a1 sh k a2 t : sl_act s = a1 ++ Some (sh, k) :: a2 -> nth_error (content sh) k = None ->
      shuffle = Replace -> In t (ws w) ->
      sl_pend s = [] -> sl_act s' = a1 ++ Some (t, 0) :: a2 -> sl_pend s' = [] -> same_counts s' s ->
      lcase w s s' (SgLoop (map prob (sl_act s'))) Tau
  | lc_raise s' g e : lcase w s s' g (Raise e).

  Definition counts_ok (w : nat) : Prop := forall s, In s (ws w) -> (0 < count0 s)%Z.

  Lemma upd_split {A} (l1 : list A) x l2 v : upd (l1 ++ x :: l2) (length l1) v = l1 ++ v :: l2.
  Proof. induction l1; cbn; f_equal; auto. Qed.

  Lemma prob_zero w p : counts_ok w -> act_in shards w p -> Qeq_bool (prob p) 0 = true -> p = None.
  Proof.
    intros HC HA H. destruct p as [[t k]|]; [|reflexivity]. cbn in *. specialize (HC _ HA).
    apply Qeq_bool_iff in H. unfold Qeq in H. cbn in H. lia.
  Qed.

  Lemma loop_case w r s probs r' s' g' e : counts_ok w -> slot_ok shards par w s -> probs = map prob (sl_act s) ->
    lp w r s probs = (r', s', g', e) -> lcase w s s' g' e.
  Proof.
    intros HC HS Hp E. pose proof (@loop_ok X R shards content par shuffle loop w r s probs HS Hp) as LO.
    rewrite E in LO. destruct LO as (_ & LG & _).
    pose proof HS as (H1 & H2 & H3 & H4). unfold sl_loop in E.
    destruct (forallb (fun p => Qeq_bool p 0) probs) eqn:F.
    { injection E as <- <- <- <-. constructor; auto.
      subst probs. rewrite forallb_forall in F. apply Forall_forall. intros p Hin. symmetry.
      apply (@prob_zero w); auto; [apply (proj1 (Forall_forall _ _) H2 _ Hin)|]. apply F. apply in_map. exact Hin. }
    clear F. destruct (match shuffle with NoShuffle => (0, r) | _ => _ end) as [i r1] eqn:EI.
    destruct (match shuffle with NoShuffle => negb (par =? 1) | _ => false end); [injection E as <- <- <- <-; constructor|].
    destruct (nth_error (sl_act s) i) as [[[sh k]|]|] eqn:Ei; try (injection E as <- <- <- <-; constructor).
    destruct (nth_error_split _ _ Ei) as (a1 & a2 & Ea & Hl).
    assert (H0 : shuffle = NoShuffle -> a1 = []).
    { intros Z. rewrite Z in EI. injection EI as <- _. destruct a1; [reflexivity|discriminate]. }
    assert (HU : forall v, upd (sl_act s) i v = a1 ++ v :: a2).
    { intros v. rewrite Ea, <- Hl. apply upd_split. }
    destruct (nth_error (content sh) k) as [row|] eqn:Er.
    { injection E as <- <- <- <-. rewrite LG. eapply lc_row; eauto; cbn [sl_act]; auto. }
    destruct (sl_pend s) as [|t pend] eqn:Ep.
    - destruct shuffle eqn:ES.
      + injection E as <- <- <- <-. rewrite LG. eapply lc_stop; eauto; cbn [sl_act set_act]; auto; first [congruence | repeat split; auto; congruence].
      + destruct (draw w (ws w) r1) as [[t|x] r2] eqn:Ed; injection E as <- <- <- <-; [|constructor].
        rewrite LG. eapply lc_draw; eauto; cbn [sl_act set_act]; auto; first [eapply draw_in; eauto; fail | repeat split; auto].
      + injection E as <- <- <- <-. rewrite LG. eapply lc_stop; eauto; cbn [sl_act set_act]; auto; first [congruence | repeat split; auto; congruence].
    - injection E as <- <- <- <-. rewrite LG. eapply lc_next; eauto; cbn [sl_act set_act]; auto; repeat split.
  Qed.

  (** with the generator's contract, a round of the sample loop does not raise *)
  Lemma loop_no_raise w r s probs r' s' g' e : rng_ok R -> counts_ok w -> slot_ok shards par w s -> probs = map prob (sl_act s) ->
    (shuffle = NoShuffle -> par = 1) -> ws w <> [] ->
    lp w r s probs = (r', s', g', e) -> match e with Raise _ => False | _ => True end.
  Proof.
    intros OK HC HS Hp HN NE E. pose proof HS as (H1 & H2 & H3 & H4). unfold sl_loop in E.
    destruct (forallb (fun p => Qeq_bool p 0) probs) eqn:F.
    { injection E as <- <- <- <-. destruct loop; exact I. }
    assert (NN : forall p, In p probs -> (0 <= p)%Q).
    { subst probs. intros p Hin. apply in_map_iff in Hin. destruct Hin as (q & <- & Hq).
      destruct q as [[t k]|]; cbn; [|apply Qle_refl].
      pose proof (HC _ (proj1 (Forall_forall _ _) H2 _ Hq)). unfold Qle. cbn. lia. }
    assert (PP : exists p, In p probs /\ (0 < p)%Q).
    { assert (EX : exists p, In p probs /\ Qeq_bool p 0 = false).
      { clear -F. induction probs as [|p l IH]; [discriminate|]. cbn in F. apply andb_false_iff in F.
        destruct F as [F|F]; [exists p; split; [left; reflexivity|exact F]|].
        destruct (IH F) as (q & Hq & Hb). exists q. split; [right; exact Hq|exact Hb]. }
      destruct EX as (p & Hin & Hb). exists p. split; [exact Hin|].
      pose proof (NN p Hin) as Hle. apply Qle_lteq in Hle. destruct Hle as [Hlt|Heq]; [exact Hlt|].
      exfalso. rewrite (proj2 (Qeq_bool_iff p 0)) in Hb; [discriminate|]. symmetry; exact Heq. }
    assert (CH : exists sh k, nth_error (sl_act s) (fst (match shuffle with NoShuffle => (0, r) | _ => wrng_choice_idx w probs r end)) = Some (Some (sh, k))).
    { assert (G : forall i p, nth_error probs i = Some p -> (0 < p)%Q -> exists sh k, nth_error (sl_act s) i = Some (Some (sh, k))).
      { intros i p Hi Hpos. subst probs. rewrite nth_error_map in Hi. destruct (nth_error (sl_act s) i) as [[[sh k]|]|]; cbn in Hi; try discriminate; eauto.
        injection Hi as <-. exfalso. apply (Qlt_irrefl 0). exact Hpos. }
      destruct shuffle eqn:ES.
      - cbn [fst]. rewrite (HN eq_refl) in H3. destruct PP as (p & Hin & Hpos). subst probs.
        destruct (sl_act s) as [|q [|? ?]] eqn:Ea; try discriminate. cbn in Hin. destruct Hin as [<-|[]].
        apply (G 0 (prob q)); [rewrite ?Ea; reflexivity|exact Hpos].
      - destruct (@choice_ok R OK w probs r PP NN) as (p & Hi & Hpos). eapply G; eauto.
      - destruct (@choice_ok R OK w probs r PP NN) as (p & Hi & Hpos). eapply G; eauto. }
    destruct (match shuffle with NoShuffle => (0, r) | _ => _ end) as [i r1] eqn:EI. cbn [fst] in CH.
    replace (match shuffle with NoShuffle => negb (par =? 1) | _ => false end) with false in E.
    2:{ destruct shuffle; auto. rewrite (HN eq_refl). reflexivity. }
    destruct CH as (sh & k & Ei). rewrite Ei in E.
    destruct (nth_error (content sh) k) as [row|]; [injection E as <- <- <- <-; exact I|].
    destruct (sl_pend s) as [|t pend]; [|injection E as <- <- <- <-; exact I].
    destruct shuffle; try (injection E as <- <- <- <-; exact I).
    unfold draw in E. pose proof (@below_lt R OK w (length (ws w)) r1) as B.
    destruct (wrng_below w (length (ws w)) r1) as [j r2]. cbn [fst] in B.
    destruct (nth_error (ws w) j) eqn:Ej; [injection E as <- <- <- <-; exact I|].
    apply nth_error_None in Ej. destruct (ws w); [congruence|]. cbn in B. specialize (B ltac:(lia)). cbn in Ej. lia.
  Qed.

  (** starting or resuming an epoch *)
  Definition idle (s : slot) : Prop := Forall (eq None) (sl_act s) /\ sl_pend s = [].

  Inductive hcase (w : nat) (s : slot) : slot -> sl_gen -> event (sample X) -> Prop :=
  | hc_resume : ~ idle s -> hcase w s s (SgLoop (map prob (sl_act s))) Tau
  | hc_fresh order s' r r' : idle s -> once w (ws w) r = (Ok order, r') ->
      sl_act s' = map (fun t => Some (t, 0)) (firstn par order) ++ repeat None (par - length order) ->
      sl_pend s' = skipn par order -> same_counts s' s ->
      hcase w s s' (SgLoop (map prob (sl_act s'))) Tau
  | hc_raise s' g e : hcase w s s' g (Raise e).

  Lemma idle_dec s : existsb is_some (sl_act s) || (0 <? length (sl_pend s)) = false -> idle s.
  Proof.
    intros H. apply orb_false_iff in H. destruct H as [H1 H2]. split.
    - apply Forall_forall. intros [p|] Hin; [|reflexivity]. exfalso.
      assert (existsb is_some (sl_act s) = true) by (apply existsb_exists; exists (Some p); auto). congruence.
    - destruct (sl_pend s); [reflexivity|discriminate].
  Qed.
  Lemma not_idle_dec s : existsb is_some (sl_act s) || (0 <? length (sl_pend s)) = true -> ~ idle s.
  Proof.
    intros H [H1 H2]. rewrite H2 in H. cbn in H. rewrite orb_false_r in H.
    apply existsb_exists in H. destruct H as (p & Hin & Hp).
    pose proof (proj1 (Forall_forall _ _) H1 _ Hin). subst p. discriminate.
  Qed.

  Lemma head_case w r s r' s' g' e : slot_ok shards par w s -> hd w r s = (r', s', g', e) -> hcase w s s' g' e.
  Proof.
    intros (H1 & H2 & H3 & H4) E. unfold sl_head in E.
    destruct (existsb is_some (sl_act s) || _) eqn:F.
    - destruct (length (sl_act s) =? par); injection E as <- <- <- <-; [|constructor].
      constructor. apply not_idle_dec. exact F.
    - apply idle_dec in F. destruct (once w (ws w) r) as [[order|x] q] eqn:EO; injection E as <- <- <- <-; [|constructor].
      econstructor; eauto; cbn [sl_act sl_pend]; [|repeat split].
      rewrite map_length, firstn_length. do 2 f_equal. lia.
  Qed.

  Lemma once_ok w r order r' : rng_ok R -> ws w <> [] -> once w (ws w) r = (Ok order, r') ->
    match shuffle with
    | NoShuffle => order = ws w
    | Replace => Forall (fun t => In t (ws w)) order /\ length order = par
    | Over k => Permutation order (copies k (ws w))
    end.
  Proof.
    intros OK NE E. unfold shards_once in E. destruct shuffle as [| |k].
    - congruence.
    - apply draws_in in E. exact E.
    - pose proof (shuffle_perm OK w (concat (repeat (ws w) k)) r) as PP.
      destruct (wrng_shuffle w _ r) as [l q]. injection E as <- _. exact PP.
  Qed.

  Lemma draws_some n : forall w l r, rng_ok R -> l <> [] -> exists x q, @draws R n w l r = (Ok x, q).
  Proof.
    induction n as [|n IH]; intros w l r OK NE; cbn [draws]; [eauto|].
    unfold draw. pose proof (@below_lt R OK w (length l) r) as B. destruct (wrng_below w (length l) r) as [j r2]. cbn [fst] in B.
    destruct (nth_error l j) eqn:Ej.
    - destruct (IH w l r2 OK NE) as (x & q & ->). cbn [bind]. eauto.
    - apply nth_error_None in Ej. destruct l; [congruence|]. cbn in B. specialize (B ltac:(lia)). cbn in Ej. lia.
  Qed.

  Lemma head_no_raise w r s r' s' g' e : rng_ok R -> slot_ok shards par w s -> ws w <> [] ->
    hd w r s = (r', s', g', e) -> match e with Raise _ => False | _ => True end.
  Proof.
    intros OK (H1 & H2 & H3 & H4) NE E. unfold sl_head in E.
    destruct (existsb is_some (sl_act s) || _).
    - rewrite H3, Nat.eqb_refl in E. injection E as <- <- <- <-. exact I.
    - assert (S : exists x q, once w (ws w) r = (Ok x, q)).
      { unfold shards_once. destruct shuffle; [eauto|apply draws_some; auto|].
        destruct (wrng_shuffle w _ r); eauto. }
      destruct S as (x & q & S). rewrite S in E. injection E as <- <- <- <-. exact I.
  Qed.

  (** *** remaining samples along the steps *)
  Lemma map_repeat_ {A B} (f : A -> B) a n : map f (repeat a n) = repeat (f a) n.
  Proof. induction n as [|n IH]; cbn [repeat map]; [reflexivity|]. f_equal. exact IH. Qed.

  Lemma rem_fresh s order : sl_act s = map (fun t => Some (t, 0)) (firstn par order) ++ repeat None (par - length order) ->
    sl_pend s = skipn par order -> exists n, Permutation (rem s) (repeat [] n ++ map content order).
  Proof.
    intros Ha Hp. exists (par - length order). unfold rem. rewrite Ha, Hp, map_app, map_map. cbn [rem1].
    rewrite map_repeat_. cbn [rem1].
    replace (map content order) with (map content (firstn par order) ++ map content (skipn par order))
      by (rewrite <- map_app, firstn_skipn; reflexivity).
    rewrite app_assoc. apply Permutation_app_tail. apply Permutation_app_comm.
  Qed.

  Lemma il_repeat_nil {A} n (ls : list (list A)) xs : interleaved (repeat [] n ++ ls) xs <-> interleaved ls xs.
  Proof.
    induction n as [|n IH]; [reflexivity|]. cbn [repeat app]. rewrite <- IH. split; [apply il_drop_nil|apply il_add_nil].
  Qed.

  Lemma rem_split s a1 p a2 : sl_act s = a1 ++ p :: a2 ->
    Permutation (rem s) (rem1 p :: map rem1 a1 ++ map rem1 a2 ++ map content (sl_pend s)).
  Proof.
    intros E. unfold rem. rewrite E, map_app. cbn [map]. rewrite <- app_assoc. cbn [app].
    symmetry. apply Permutation_middle.
  Qed.

  Lemma skipn_none {A} (l : list A) k : nth_error l k = None -> skipn k l = [].
  Proof. intros H. apply nth_error_None in H. apply skipn_all2. exact H. Qed.

  (** the remaining samples, if the step is [Tau]/[Yield] and nothing is drawn anew *)
  Lemma lcase_rem w s s' g e : shuffle <> Replace -> lcase w s s' g e -> g <> SgHead ->
    forall xs, interleaved (rem s') xs ->
    match e with
    | Tau => interleaved (rem s) xs
    | Yield row => interleaved (rem s) (row :: xs)
    | _ => True
    end.
  Proof.
    intros HR C Hg xs I. inversion C; subst; try congruence; auto.
    - apply (@il_app_perm _ ([] ++ (row :: skipn (S k) (content sh)) :: (map rem1 a1 ++ map rem1 a2 ++ map content (sl_pend s)))).
      + constructor. eapply il_app_perm; [exact I|]. rewrite (rem_split H2), H3. reflexivity.
      + rewrite (rem_split H). cbn [rem1 app]. rewrite (skipn_cons_nth H0). reflexivity.
    - apply (@il_app_perm _ ([] :: (content t :: map rem1 a1 ++ map rem1 a2 ++ map content (sl_pend s')))).
      + apply il_add_nil. eapply il_app_perm; [exact I|]. rewrite (rem_split H3). reflexivity.
      + rewrite (rem_split H). cbn [rem1]. rewrite (skipn_none H0), H2. cbn [map].
        constructor. rewrite !app_assoc. apply Permutation_middle.
    - eapply il_app_perm; [exact I|]. rewrite (rem_split H), (rem_split H4). cbn [rem1]. rewrite (skipn_none H0), H3, H5. reflexivity.
  Qed.

  (** progress measure: rows and sub-shards left *)
  Definition w1 (p : option progress) : nat := match p with None => 0 | Some (s, k) => S (length (skipn k (content s))) end.
  Definition left (s : slot) : nat := list_sum (map w1 (sl_act s)) + list_sum (map (fun t => S (length (content t))) (sl_pend s)).

  Lemma list_sum_mid a x b : list_sum (a ++ x :: b) = list_sum a + (x + list_sum b).
  Proof. rewrite list_sum_app. reflexivity. Qed.

  Lemma left_split s a1 p a2 : sl_act s = a1 ++ p :: a2 ->
    left s = w1 p + (list_sum (map w1 a1) + list_sum (map w1 a2) + list_sum (map (fun t => S (length (content t))) (sl_pend s))).
  Proof. intros E. unfold left. rewrite E, map_app. cbn [map]. rewrite list_sum_mid. lia. Qed.

  Lemma lcase_left w s s' g e : shuffle <> Replace -> lcase w s s' g e -> g <> SgHead ->
    match e with Raise _ => True | _ => left s' < left s end.
  Proof.
    intros HR C Hg. inversion C; subst; try congruence; auto.
    - rewrite (left_split H), (left_split H2), H3. cbn [w1]. rewrite (skipn_cons_nth H0). cbn [length]. lia.
    - rewrite (left_split H), (left_split H3), H2. cbn [w1 map skipn]. cbn [list_sum fold_right].
      change (fold_right Nat.add 0) with list_sum. lia.
    - rewrite (left_split H), (left_split H4), H3, H5. cbn [w1]. lia.
  Qed.

  Lemma Forall_mid {A} (Q : A -> Prop) a x b : Forall Q (a ++ x :: b) <-> Q x /\ Forall Q a /\ Forall Q b.
  Proof.
    rewrite Forall_app. split.
    - intros [H1 H2]. inversion_clear H2. auto.
    - intros (H1 & H2 & H3). auto.
  Qed.

  Lemma lcase_filled w s s' g e : lcase w s s' g e -> filled s -> match e with Raise _ => True | _ => filled s' end.
  Proof.
    intros C F. unfold filled in *. inversion C; subst; auto.
    - destruct loop; (destruct F as [F|F]; [left; congruence|right; congruence]).
    - destruct F as [F|F]; [left; congruence|right]. rewrite H in F. rewrite H2. apply Forall_mid in F. apply Forall_mid. tauto.
    - destruct F as [F|F]; [congruence|right]. rewrite H in F. rewrite H3. apply Forall_mid in F. apply Forall_mid. tauto.
  Qed.

  Lemma head_filled w s s' g e : par >= 1 -> hcase w s s' g e -> filled s -> match e with Raise _ => True | _ => filled s' end.
  Proof.
    intros HP C F. inversion C; subst; auto. unfold filled. rewrite H1, H2.
    destruct (le_lt_dec (length order) par) as [Hle|Hlt].
    - left. apply skipn_all2. exact Hle.
    - right. replace (par - length order) with 0 by lia. cbn [repeat]. rewrite app_nil_r.
      apply Forall_forall. intros p Hin. apply in_map_iff in Hin. destruct Hin as (t & <- & _). reflexivity.
  Qed.
End P.
