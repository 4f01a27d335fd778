From Verif Require Import Base Dataset DatasetProofs WrapProofs WrapRun WrapSpec Loader LoaderSpec LoaderProofs LoaderSys.
Local Open Scope nat_scope.

Section W.
  Context {P : Type} (D : dataset P) (w gid nw min_n n_cp : nat).
  Notation wnext := (@wnext P D w gid min_n n_cp).
  Notation delivers := (@delivers P D w gid min_n n_cp).
  Notation wreach := (@wreach P D w gid nw min_n n_cp).
  Notation number := (@number P gid).
  Notation cev := (list (event (sample P))).
  Notation winv := (@winv P D w nw).

  Lemma ysamples_cut (l : cev) : forall m, m <= length (ysamples l) -> exists l1 l2, l = l1 ++ l2 /\ ysamples l1 = firstn m (ysamples l).
  Proof.
    induction l as [|e l IH]; intros m Hm.
    - exists [], []. cbn in *. split; [reflexivity|]. rewrite firstn_nil. reflexivity.
    - destruct m as [|m]; [exists [], (e :: l); auto|]. destruct e as [a| | |x]; cbn [ysamples flat_map app length] in *.
      + destruct (IH m) as (l1 & l2 & -> & EY); [fold (ysamples l) in Hm; lia|]. exists (Yield a :: l1), l2. split; [reflexivity|].
        cbn [ysamples flat_map app firstn]. fold (ysamples l1). rewrite EY. reflexivity.
      + destruct (IH (S m)) as (l1 & l2 & -> & EY); [fold (ysamples l) in Hm; lia|]. exists (Tau :: l1), l2. split; [reflexivity|]. exact EY.
      + destruct (IH (S m)) as (l1 & l2 & -> & EY); [fold (ysamples l) in Hm; lia|]. exists (Done :: l1), l2. split; [reflexivity|]. exact EY.
      + destruct (IH (S m)) as (l1 & l2 & -> & EY); [fold (ysamples l) in Hm; lia|]. exists (Raise x :: l1), l2. split; [reflexivity|]. exact EY.
  Qed.

  Lemma delivers_prefix s l1 l2 : delivers s (l1 ++ l2) -> delivers s l1.
  Proof.
    rewrite !delivers_iff. intros (evs & C & E & EQ).
    assert (EL : l1 = firstn (length l1) (l1 ++ l2)) by (rewrite firstn_app, Nat.sub_diag, firstn_all; cbn; rewrite app_nil_r; reflexivity).
    assert (LL : length l1 <= length (skipn (k_skip s) (ysamples evs))).
    { apply (f_equal (@length _)) in EQ. rewrite app_length, number_length in EQ. lia. }
    destruct (Nat.eq_dec (length l1) 0) as [Z|NZ].
    { destruct l1; [|discriminate]. exists []. split; [constructor|]. split; [constructor|]. cbn. rewrite skipn_nil. reflexivity. }
    rewrite skipn_length in LL. destruct (@ysamples_cut evs (k_skip s + length l1) ltac:(lia)) as (e1 & e2 & -> & EY).
    exists e1. apply clean_app in C. split; [apply C|]. split; [eapply emits_prefix; exact E|]. rewrite EY.
    rewrite EL at 1. rewrite EQ, number_firstn. f_equal. rewrite firstn_skipn_comm. reflexivity.
  Qed.

  (** two deliveries from one state agree *)
  Lemma delivers_comparable s l1 l2 : delivers s l1 -> delivers s l2 -> (exists l, l2 = l1 ++ l) \/ (exists l, l1 = l2 ++ l).
  Proof.
    rewrite !delivers_iff. intros (e1 & C1 & E1 & ->) (e2 & C2 & E2 & ->). destruct (emits_comparable E1 E2) as [[l ->]|[l ->]].
    - left. rewrite ysamples_app, number_step. eexists. reflexivity.
    - right. rewrite ysamples_app, number_step. eexists. reflexivity.
  Qed.

  Lemma delivers_same_length s l1 l2 : delivers s l1 -> delivers s l2 -> length l1 = length l2 -> l1 = l2.
  Proof.
    intros H1 H2 L. destruct (delivers_comparable H1 H2) as [[l ->]|[l ->]]; rewrite app_length in L; destruct l; cbn in L; try lia; rewrite app_nil_r; reflexivity.
  Qed.

  Lemma delivers_nil s : delivers s [].
  Proof. exists [], s. split; [constructor|reflexivity]. Qed.

  Lemma delivers_step s i a s' : wnext s (Emit i a) s' -> forall l, delivers s' l <-> delivers s ((i, a) :: l).
  Proof.
    intros N l. split.
    - intros (L & s2 & R & EQ). exists (Emit i a :: L), s2. split; [eapply wr_cons; [exact N|discriminate|exact R]|]. cbn. rewrite <- EQ. reflexivity.
    - rewrite !delivers_iff. destruct (wnext_inner N) as (ev1 & C1 & EM & E0 & EQ & HI & HK). intros (evs & C & E & EQ2).
      destruct (emits_comparable E0 E) as [[l' ->]|[l' EL]].
      + exists l'. apply clean_app in C. split; [apply C|]. split; [apply EM; [discriminate|exact E]|].
        rewrite ysamples_app, number_step, <- EQ in EQ2. cbn in EQ2. injection EQ2 as ->. rewrite HI, HK. reflexivity.
      + exists []. split; [constructor|]. split; [constructor|]. cbn [ysamples flat_map]. rewrite skipn_nil. cbn [LoaderProofs.number].
        rewrite EL, ysamples_app, number_step in EQ. apply (f_equal (@length _)) in EQ, EQ2. rewrite app_length in EQ. cbn in EQ, EQ2. destruct l; [reflexivity|cbn in *; lia].
  Qed.

  Lemma no_end s e s' : endless D false nw -> w < nw -> wnext s e s' -> winv s -> e <> End.
  Proof.
    intros HE Hw. induction 1 as [s a i' e s' N K H IH|s a i' clk N K|s i' e s' N H1 H2 H IH|s i' clk N H1|s x i' N]; intros [AP OK]; try discriminate.
    - apply IH. split; cbn [k_index k_in k_skip k_cps]; [eapply at_pos_yield; eauto|].
      destruct OK as [F|(rest & _ & _ & K0 & _)]; [left; exact F|lia].
    - exfalso. destruct AP as [R _]. exact (HE _ _ _ Hw R N).
    - exfalso. destruct AP as [R _]. exact (HE _ _ _ Hw R N).
  Qed.

  Lemma delivers_first s i a l : endless D false nw -> w < nw -> winv s -> delivers s ((i, a) :: l) -> exists s', wnext s (Emit i a) s'.
  Proof.
    intros HE Hw IV (L & s2 & R & EQ). inversion R as [x|x e s1 l' s3 N1 NF R'|x y s1 N1]; subst; cbn in EQ; try discriminate.
    destruct e as [j b| |x]; cbn in EQ.
    - injection EQ as <- <- _. eauto.
    - exfalso. exact (no_end HE Hw N1 IV eq_refl).
    - exfalso. eapply NF. reflexivity.
  Qed.

  (** ** checkpoints stay available *)
  Definition J (b : nat) (cps : list (checkpoint D)) : Prop :=
    (exists c, In c cps /\ cp_index c <= S b) \/ (exists l x y, cps = l ++ [x; y] /\ cp_index x + min_n <= cp_index y).
  Definition K (b : nat) (s : wstate D) : Prop :=
    k_cps s <> [] /\ J b (k_cps s) /\ (forall c, In c (k_cps s) -> cp_index c <= k_index s).

  Lemma store_K b clk cps o i : 2 <= n_cp -> cps <> [] -> J b cps -> (forall c, In c cps -> cp_index c <= i) ->
    let cps' := store_checkpoint w min_n n_cp false clk o i cps in
    cps' <> [] /\ J b cps' /\ (forall c, In c cps' -> cp_index c <= i).
  Proof.
    intros HN NE HJ HI. cbv zeta. unfold store_checkpoint. cbn [orb]. set (new := mkCp (Some (ds_save D w o)) i).
    destruct ((clk && (last_index cps + min_n <=? i)) || (i <=? 1)) eqn:C; [|auto].
    assert (EX : exists l x, cps = l ++ [x]) by (destruct (exists_last NE) as (l & x & ->); eauto). destruct EX as (l & x & EC).
    assert (HI' : forall c, In c (cps ++ [new]) -> cp_index c <= i).
    { intros c I. apply in_app_or in I. destruct I as [I|[<-|[]]]; [auto|cbn; lia]. }
    assert (LI : last_index cps = cp_index x) by (unfold last_index; rewrite EC, last_last; reflexivity).
    assert (TL : (if n_cp <? length (cps ++ [new]) then tl (cps ++ [new]) else cps ++ [new]) = cps ++ [new] \/
                 exists y l', l = y :: l' /\ (if n_cp <? length (cps ++ [new]) then tl (cps ++ [new]) else cps ++ [new]) = l' ++ [x; new]).
    { destruct (Nat.ltb_spec n_cp (length (cps ++ [new]))) as [L|L]; [|left; reflexivity]. right. rewrite EC, !app_length in L. cbn in L.
      destruct l as [|y l']; [cbn in L; lia|]. exists y, l'. split; [reflexivity|]. rewrite EC. cbn [app tl]. rewrite <- app_assoc. reflexivity. }
    set (res := if n_cp <? length (cps ++ [new]) then tl (cps ++ [new]) else cps ++ [new]) in *.
    assert (IN : In new res) by (destruct TL as [->|(y & l' & _ & ->)]; [apply in_or_app; right; left; reflexivity|apply in_or_app; right; right; left; reflexivity]).
    assert (SUB : forall c, In c res -> In c (cps ++ [new])).
    { destruct TL as [->|(y & l' & El & ->)]; [auto|]. intros c I. rewrite EC, El. cbn [app]. right. rewrite <- app_assoc. exact I. }
    split; [intros E; rewrite E in IN; destruct IN|]. split; [|auto].
    apply orb_true_iff in C. destruct C as [C|C].
    - right. apply andb_true_iff in C. destruct C as [_ C]. apply Nat.leb_le in C. rewrite LI in C.
      destruct TL as [->|(y & l' & _ & ->)].
      + exists l, x, new. split; [rewrite EC, <- app_assoc; reflexivity|exact C].
      + exists l', x, new. split; [reflexivity|exact C].
    - left. exists new. split; [exact IN|]. apply Nat.leb_le in C. cbn. lia.
  Qed.

  Lemma K_next b s e s' : 2 <= n_cp -> wnext s e s' -> (exists i a, e = Emit i a) -> K b s -> K b s'.
  Proof.
    intros HN. induction 1 as [s a i' e s' N Ks H IH|s a i' clk N Ks|s i' e s' N H1 H2 H IH|s i' clk N H1|s x i' N]; intros NE (K1 & K2 & K3).
    - apply IH; [exact NE|]. split; [exact K1|]. split; [exact K2|]. intros c I. cbn [k_cps k_index] in *. specialize (K3 c I). lia.
    - unfold K. cbn [k_cps k_index]. apply store_K; auto.
    - apply IH; [exact NE|]. split; [exact K1|]. split; [exact K2|]. exact K3.
    - destruct NE as (? & ? & [=]).
    - destruct NE as (? & ? & [=]).
  Qed.

  Lemma find_cp_exists r (l : list (checkpoint D)) c : In c l -> cp_index c <= r -> exists c', find_cp r l = Some c'.
  Proof.
    induction l as [|x l IH]; intros I L; [destruct I|]. cbn [find_cp]. destruct (cp_index x <=? r) eqn:E; [eauto|].
    destruct I as [->|I]; [apply Nat.leb_nle in E; lia|auto].
  Qed.

  Lemma K_available b s k d : K b s -> b <= k -> k_index s <= S k + d -> d <= min_n -> exists c off, get_checkpoint s k = Ok (c, off).
  Proof.
    intros (K1 & K2 & K3) HK HI HD. unfold get_checkpoint.
    assert (EX : exists c, In c (k_cps s) /\ cp_index c <= k + 1).
    { destruct K2 as [(c & I & L)|(l & x & y & EC & L)].
      - exists c. split; [exact I|lia].
      - exists x. split; [rewrite EC; apply in_or_app; right; left; reflexivity|].
        assert (cp_index y <= k_index s) by (apply K3; rewrite EC; apply in_or_app; right; right; left; reflexivity). lia. }
    destruct EX as (c & I & L). destruct (@find_cp_exists (k + 1) (rev (k_cps s)) c) as [c' E]; [apply in_rev in I; exact I|exact L|].
    rewrite E. eauto.
  Qed.
End W.
