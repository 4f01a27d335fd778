(** Proofs for Scaling.v: the same pipeline in two layouts runs in lockstep in workers with the same global id. *)
From Coq Require Import String QArith.
From Verif Require Import Base Dataset DatasetProofs Wrap Rng RngProofs Buffer BufferProofs Sharder SampleLoader SampleLoaderProofs Tar Joined Wrappers ShuffleBuffer MapModel
  Batch Packing IterMap IterMapProofs Blend Multi Pipeline Scaling Lockstep.
Local Close Scope Q_scope.
Local Close Scope Z_scope.
Local Open Scope list_scope.
Local Open Scope nat_scope.

Section Two.
  Variables (n1 n2 r1 r2 w1 w2 : nat).
  Hypothesis Hw1 : w1 < n1.
  Hypothesis Hw2 : w2 < n2.
  Hypothesis HG : gwid n1 r1 w1 = gwid n2 r2 w2.

  (** ** per-worker lists *)
  Definition slots {X} (d : X) (l1 l2 : list X) : Prop := w1 < length l1 /\ w2 < length l2 /\ nth w1 l1 d = nth w2 l2 d.
  Lemma slots_repeat {X} (d : X) : slots d (repeat d n1) (repeat d n2).
  Proof. unfold slots. rewrite !repeat_length, !nth_repeat. auto. Qed.
  Lemma slots_upd {X} (d : X) v l1 l2 : slots d l1 l2 -> slots d (upd l1 w1 v) (upd l2 w2 v).
  Proof. intros (A & B & _). unfold slots. rewrite !upd_length, !nth_upd_same by assumption. auto. Qed.
  Lemma slots_nth {X} (d : X) l1 l2 : slots d l1 l2 -> nth w1 l1 d = nth w2 l2 d.
  Proof. intros H. apply H. Qed.

  (** ** the small wrappers *)
  Lemma idx_closed {A B} (h1 h2 : nat -> nat -> sample A -> event (sample B)) rs1 rs2 b :
    (forall i a, h1 w1 i a = h2 w2 i a) -> (forall i a, h1 w1 i a <> Done) -> b = false ->
    @tclosed _ _ (idx_ds n1 h1 rs1) (idx_ds n2 h2 rs2) w1 w2 (fun o1 _ o2 _ => slots 0 o1 o2) b.
  Proof.
    intros HH ND -> q1 q2 o1 g1 o2 g2 S. cbn [idx_ds t_act acts]. split; [|discriminate]. intros a. unfold tafter. cbn [fst snd].
    rewrite <- (slots_nth S), <- HH. split; [reflexivity|]. pose proof (ND (nth w1 o1 0) a) as N. destruct (h1 w1 (nth w1 o1 0) a); try (apply slots_upd; exact S); auto.
  Qed.

  Lemma map_closed {A B} (f : nat -> nat -> A -> ures B) :
    @tclosed _ _ (map_ds n1 (fun w => f (gwid n1 r1 w))) (map_ds n2 (fun w => f (gwid n2 r2 w))) w1 w2 (fun o1 _ o2 _ => slots 0 o1 o2) false.
  Proof. apply idx_closed; [|intros i a|reflexivity]; intros; rewrite ?HG; [reflexivity|]. destruct (f _ i (pl a)); discriminate. Qed.

  Lemma filter_closed {A} (p : nat -> nat -> A -> result bool) :
    @tclosed _ _ (filter_ds n1 (fun w => p (gwid n1 r1 w))) (filter_ds n2 (fun w => p (gwid n2 r2 w))) w1 w2 (fun o1 _ o2 _ => slots 0 o1 o2) false.
  Proof. apply idx_closed; [|intros i a|reflexivity]; intros; rewrite ?HG; [reflexivity|]. destruct (p _ i (pl a)) as [[]|]; discriminate. Qed.

  Lemma log_closed {A} : @tclosed A A (log_ds n1) (log_ds n2) w1 w2 (fun o1 _ o2 _ => slots 0 o1 o2) false.
  Proof. apply idx_closed; [|intros i a|reflexivity]; intros; [reflexivity|discriminate]. Qed.

  Lemma gc_closed {A} every_n : @tclosed A A (gc_ds true every_n) (gc_ds true every_n) w1 w2 (fun _ g1 _ g2 => g1 = g2) false.
  Proof.
    intros q1 q2 o1 g1 o2 g2 <-. cbn [gc_ds t_act]. destruct g1 as [k|]; cbn [acts].
    - split; [|discriminate]. intros a. split; reflexivity.
    - split; reflexivity.
  Qed.

  (** ** batches *)
  Lemma batch_closed {A B} size drop (f : nat -> nat -> list A -> ures B) :
    @tclosed _ _ (batch_ds n1 size drop (fun w => f (gwid n1 r1 w))) (batch_ds n2 size drop (fun w => f (gwid n2 r2 w))) w1 w2
      (fun o1 g1 o2 g2 => slots 0 o1 o2 /\ g1 = g2 /\ g1 <> BEnd) false.
  Proof.
    intros q1 q2 o1 g1 o2 g2 (S & <- & NE). destruct g1 as [batch keys|]; [|congruence]. cbn [batch_ds t_act acts]. split; [|discriminate]. intros a.
    cbv zeta. destruct (length (batch ++ [a]) =? size).
    - unfold bt_flush. rewrite <- (slots_nth S), HG.
      destruct (f (gwid n2 r2 w2) (nth w1 o1 0) (map pl (batch ++ [a]))); (split; [reflexivity|]); cbn [fst snd]; auto;
        (split; [apply slots_upd; exact S|split; [reflexivity|discriminate]]).
    - split; [reflexivity|]. cbn [fst snd]. split; [exact S|]. split; [reflexivity|discriminate].
  Qed.

  (** ** generator functions *)
  Definition mgR {A} (o1 : mg_obj) (g1 : @mg_gen A) (o2 : mg_obj) (g2 : @mg_gen A) : Prop :=
    slots 0 (mg_idx o1) (mg_idx o2) /\ slots None (mg_key o1) (mg_key o2) /\ slots None (mg_off o1) (mg_off o2) /\ g1 = g2 /\
    match g1 with MgStart => nth w1 (mg_key o1) None = None | MgResume _ _ _ _ => False | _ => True end.
  Lemma mapgen_closed {A B} (f : nat -> nat -> A -> list B * gend) :
    @tclosed _ _ (mapgen_ds n1 (fun w => f (gwid n1 r1 w))) (mapgen_ds n2 (fun w => f (gwid n2 r2 w))) w1 w2 mgR false.
  Proof.
    intros q1 q2 o1 g1 o2 g2 (S1 & S2 & S3 & <- & HM). cbn [mapgen_ds t_act].
    destruct g1 as [|a i j t| |a i j].
    - rewrite <- (slots_nth S2), HM. cbn [acts]. split; [reflexivity|]. cbn [fst snd]. unfold mgR. auto.
    - contradiction.
    - cbn [acts]. split; [|discriminate]. intros a. split; [reflexivity|]. cbn [fst snd]. unfold mgR. cbn [mg_idx mg_key mg_off].
      rewrite <- (slots_nth S1). auto 10 using slots_upd.
    - rewrite HG. destruct (f (gwid n2 r2 w2) i (pl a)) as [ys e]. destruct (nth_error ys j) as [y|].
      + cbn [acts]. split; [reflexivity|]. cbn [fst snd]. unfold mgR, mg_set_off. cbn [mg_idx mg_key mg_off]. auto 10 using slots_upd.
      + destruct e; cbn [acts]; (split; [reflexivity|]); cbn [fst snd]; auto; unfold mgR, mg_clear; cbn [mg_idx mg_key mg_off]; auto 10 using slots_upd.
  Qed.

  (** ** iter_map_fn *)
  Definition runR {A B} {fn : iterfn A B} (a : @IterMap.running A B (fn_at fn n1 r1)) (b : @IterMap.running A B (fn_at fn n2 r2)) : Prop :=
    match a, b with
    | Body e1 s1, Body e2 s2 => e1 = e2 /\ (s1 : if_st fn) = s2 /\ e1 = false
    | _, _ => False
    end.
  Definition imR {A B} {fn : iterfn A B} (g1 : @im_gen A B (fn_at fn n1 r1)) (g2 : @im_gen A B (fn_at fn n2 r2)) : Prop :=
    match g1, g2 with
    | ImNext a k keys, ImNext a' k' keys' => runR a a' /\ k = k' /\ keys = keys'
    | ImIn a i k keys, ImIn a' i' k' keys' => runR a a' /\ i = i' /\ k = k' /\ keys = keys'
    | _, _ => False
    end.
  Lemma itermap_closed {A B} (fn : iterfn A B) : greedy fn ->
    @tclosed _ _ (itermap_ds n1 (fn_at fn n1 r1) true) (itermap_ds n2 (fn_at fn n2 r2) true) w1 w2 (fun o1 g1 o2 g2 => slots 0 o1 o2 /\ imR g1 g2) false.
  Proof.
    intros GR q1 q2 o1 g1 o2 g2 [S IM]. cbn [itermap_ds t_act].
    destruct g1 as [a k keys|a i k keys]; destruct g2 as [a' k' keys'|a' i' k' keys']; cbn in IM; try contradiction.
    - destruct IM as (RR & <- & <-). cbn [im_act acts]. split; [reflexivity|]. cbn [fst snd]. rewrite (slots_nth S). split; [apply slots_upd; exact S|]. cbn. auto.
    - destruct IM as (RR & <- & <- & <-). destruct a as [e1 s1|]; destruct a' as [e2 s2|]; cbn in RR; try contradiction. destruct RR as (<- & <- & ->).
      cbn [im_act]. cbn [fn_at if_act if_end if_start]. rewrite HG. pose proof (GR (gwid n2 r2 w2) i s1) as NE. destruct (if_act fn (gwid n2 r2 w2) i s1) as [g|y s'| | |]; cbn [acts].
      + split; [|discriminate]. intros a. split; [reflexivity|]. cbn [fst snd]. split; [exact S|]. cbn. auto.
      + split; [reflexivity|]. cbn [fst snd]. split; [exact S|]. cbn. auto.
      + congruence.
      + split; [reflexivity|]. cbn [fst snd]. split; [exact S|]. cbn. auto.
      + split; [reflexivity|exact I].
  Qed.

  (** ** random generators *)
  Section Rngs.
    Variable R : rng_ops.
    Notation R1 := (rng_at R n1 r1).
    Notation R2 := (rng_at R n2 r2).
    Definition rngR (o1 : wrng R1) (o2 : wrng R2) : Prop :=
      (g_cur o1 : option (rng_t R)) = g_cur o2 /\ g_pend o1 = None /\ g_pend o2 = None.
    Lemma rngR_init : rngR (wrng_init R1) (wrng_init R2).
    Proof. repeat split. Qed.
    Lemma rngR_put r : rngR (wrng_put (R := R1) r) (wrng_put (R := R2) r).
    Proof. repeat split. Qed.
    Lemma rngR_force o1 o2 : rngR o1 o2 -> (fst (wrng_force w1 o1) : rng_t R) = fst (wrng_force w2 o2).
    Proof.
      destruct o1 as [c1 p1], o2 as [c2 p2]. intros (E & P1 & P2). cbn in E, P1, P2. subst. unfold wrng_force. cbn [g_cur g_pend fst].
      destruct c2; [reflexivity|]. cbn [rng_at rng_seed]. rewrite HG. reflexivity.
    Qed.
    Lemma rngR_below o1 o2 k : rngR o1 o2 ->
      fst (wrng_below w1 k o1) = fst (wrng_below w2 k o2) /\ rngR (snd (wrng_below w1 k o1)) (snd (wrng_below w2 k o2)).
    Proof.
      intros H. pose proof (rngR_force H) as E. unfold wrng_below.
      destruct (wrng_force w1 o1) as [a1 x1]. destruct (wrng_force w2 o2) as [a2 x2]. cbn [fst] in E. subst a2.
      cbn [rng_at rng_below]. destruct (rng_below R k a1) as [i a']. split; [reflexivity|]. apply rngR_put.
    Qed.
    Lemma rngR_choice o1 o2 ps : rngR o1 o2 ->
      fst (wrng_choice_idx w1 ps o1) = fst (wrng_choice_idx w2 ps o2) /\ rngR (snd (wrng_choice_idx w1 ps o1)) (snd (wrng_choice_idx w2 ps o2)).
    Proof.
      intros H. pose proof (rngR_force H) as E. unfold wrng_choice_idx.
      assert (G : let x1 := (let '(r, _) := wrng_force w1 o1 in let '(i, r') := rng_mult R1 ps r in (i, wrng_put (R := R1) r')) in
                  let x2 := (let '(r, _) := wrng_force w2 o2 in let '(i, r') := rng_mult R2 ps r in (i, wrng_put (R := R2) r')) in
                  fst x1 = fst x2 /\ rngR (snd x1) (snd x2)).
      { destruct (wrng_force w1 o1) as [a1 x1]. destruct (wrng_force w2 o2) as [a2 x2]. cbn [fst] in E. subst a2.
        cbn [rng_at rng_mult]. destruct (rng_mult R ps a1) as [i a']. split; [reflexivity|]. apply rngR_put. }
      destruct ps as [|p [|p' ps]]; [exact G|split; [reflexivity|exact H]|exact G].
    Qed.
    Lemma rngR_shuffle {X} o1 o2 (l : list X) : rngR o1 o2 ->
      fst (wrng_shuffle w1 l o1) = fst (wrng_shuffle w2 l o2) /\ rngR (snd (wrng_shuffle w1 l o1)) (snd (wrng_shuffle w2 l o2)).
    Proof.
      intros H. pose proof (rngR_force H) as E. unfold wrng_shuffle.
      destruct (wrng_force w1 o1) as [a1 x1]. destruct (wrng_force w2 o2) as [a2 x2]. cbn [fst] in E. subst a2.
      cbn [rng_at rng_perm]. destruct (rng_perm R (length l) a1) as [i a']. split; [reflexivity|]. apply rngR_put.
    Qed.
  End Rngs.

  (** ** buffers *)
  Definition bufR {A} (b1 b2 : buffer A) : Prop :=
    slots [] (b_buf b1) (b_buf b2) /\ slots [] (b_keys b1) (b_keys b2) /\ b_pend b1 = false /\ b_pend b2 = false.
  Lemma bufR_init {A} : @bufR A (buf_init n1) (buf_init n2).
  Proof. unfold bufR, buf_init. cbn. auto using slots_repeat. Qed.
  Lemma bufR_set {A} (b1 b2 : buffer A) l ks : bufR b1 b2 -> bufR (buf_set w1 l ks b1) (buf_set w2 l ks b2).
  Proof. intros (A1 & A2 & A3 & A4). unfold bufR, buf_set. cbn. auto using slots_upd. Qed.
  Lemma bufR_at {A} (b1 b2 : buffer A) : bufR b1 b2 -> buf_at w1 b1 = buf_at w2 b2.
  Proof. intros H. apply (slots_nth (proj1 H)). Qed.
  Lemma bufR_keys {A} (b1 b2 : buffer A) : bufR b1 b2 -> keys_at w1 b1 = keys_at w2 b2.
  Proof. intros H. apply (slots_nth (proj1 (proj2 H))). Qed.
  Lemma bufR_len {A} (b1 b2 : buffer A) : bufR b1 b2 -> buf_len w1 b1 = buf_len w2 b2.
  Proof. intros H. unfold buf_len. rewrite (bufR_keys H). reflexivity. Qed.
  Lemma bufR_append {A} (b1 b2 : buffer A) a : bufR b1 b2 -> bufR (buf_append w1 a b1) (buf_append w2 a b2).
  Proof. intros H. unfold buf_append. rewrite (bufR_at H), (bufR_keys H). apply bufR_set, H. Qed.
  Lemma bufR_extend {A} (b1 b2 : buffer A) l ks : bufR b1 b2 -> bufR (buf_extend w1 l ks b1) (buf_extend w2 l ks b2).
  Proof. intros H. unfold buf_extend. rewrite (bufR_at H), (bufR_keys H). apply bufR_set, H. Qed.
  Lemma slots_clear {X} (l1 l2 : list (list X)) : slots [] l1 l2 -> slots [] (clear_others w1 l1) (clear_others w2 l2).
  Proof. intros (A & B & C). unfold slots. rewrite !clear_others_length, !nth_clear_others. auto. Qed.
  Definition resR {X Y} (Rl : X -> Y -> Prop) (a : result X) (b : result Y) : Prop :=
    match a, b with Ok x, Ok y => Rl x y | Err e, Err e' => e = e' | _, _ => False end.
  Lemma bufR_start {A} rs1 rs2 (b1 b2 : buffer A) : bufR b1 b2 -> resR bufR (buf_start rs1 w1 b1) (buf_start rs2 w2 b2).
  Proof.
    intros (A1 & A2 & A3 & A4). unfold buf_start. cbn [b_pend]. rewrite A3, A4. cbn [bind].
    unfold buf_at, keys_at. cbn [b_buf b_keys]. rewrite !nth_clear_others, (slots_nth A1), (slots_nth A2).
    destruct (_ =? _); [|reflexivity]. cbn. unfold bufR. cbn. auto using slots_clear.
  Qed.

  Definition sbR {A R} (o1 : @sb_obj A (rng_at R n1 r1)) (g1 : sb_gen) (o2 : @sb_obj A (rng_at R n2 r2)) (g2 : sb_gen) : Prop :=
    bufR (sb_buf o1) (sb_buf o2) /\ rngR (sb_rng o1) (sb_rng o2) /\ g1 = g2 /\ g1 <> SbDrain.
  Lemma shuffle_closed {A} R size :
    @tclosed A A (shuffle_buffer (rng_at R n1 r1) n1 size) (shuffle_buffer (rng_at R n2 r2) n2 size) w1 w2 sbR false.
  Proof.
    intros q1 q2 o1 g1 o2 g2 (HB & HR & <- & NE). cbn [shuffle_buffer t_act]. destruct g1; [| |congruence]; cbn [sb_act].
    - pose proof (bufR_start q1 q2 HB) as X. destruct (buf_start q1 w1 (sb_buf o1)), (buf_start q2 w2 (sb_buf o2)); cbn in X; try contradiction.
      + split; [reflexivity|]. cbn [fst snd]. repeat split; cbn; try apply X; try apply HR; discriminate.
      + subst. split; [reflexivity|exact I].
    - rewrite (bufR_len HB). destruct (size <=? buf_len w2 (sb_buf o2)).
      + unfold sb_yield. rewrite (bufR_len HB). destruct (rngR_below (buf_len w2 (sb_buf o2)) HR) as [E HR'].
        destruct (wrng_below w1 _ (sb_rng o1)) as [i x1]. destruct (wrng_below w2 _ (sb_rng o2)) as [i2 x2]. cbn [fst snd] in E, HR'. subst i2.
        unfold buf_pop. rewrite (bufR_at HB), (bufR_keys HB). destruct (nth_error (buf_at w2 (sb_buf o2)) i).
        * split; [reflexivity|]. cbn [fst snd]. split; [apply bufR_set, HB|]. split; [exact HR'|]. split; [reflexivity|discriminate].
        * split; [reflexivity|exact I].
      + cbn [acts]. split; [|discriminate]. intros a. split; [reflexivity|]. cbn [fst snd]. split; [apply bufR_append, HB|]. split; [exact HR|]. split; [reflexivity|discriminate].
  Qed.

  (** ** packing *)
  Definition pkOR {A} (o1 o2 : @pk_obj A) : Prop :=
    bufR (pk_read o1) (pk_read o2) /\ bufR (pk_pre o1) (pk_pre o2) /\ slots [] (pk_len o1) (pk_len o2) /\
    slots 0 (pk_pidx o1) (pk_pidx o2) /\ slots 0 (pk_fidx o1) (pk_fidx o2).
  Lemma fold_extend {A} (gs : list (list (sample A))) b1 b2 : bufR b1 b2 ->
    bufR (fold_left (fun b g => buf_extend w1 g (map rk g) b) gs b1) (fold_left (fun b g => buf_extend w2 g (map rk g) b) gs b2).
  Proof. revert b1 b2. induction gs as [|g gs IH]; intros b1 b2 H; [exact H|]. cbn. apply IH, bufR_extend, H. Qed.
  Lemma prepack_lock {A} (pre : nat -> nat -> list (sample A) -> ures (list (list (sample A)))) o1 o2 : pkOR o1 o2 ->
    match pk_prepack (fun w => pre (gwid n1 r1 w)) w1 o1, pk_prepack (fun w => pre (gwid n2 r2 w)) w2 o2 with
    | Some x, Some y => pkOR x y | None, None => True | _, _ => False end.
  Proof.
    intros (A1 & A2 & A3 & A4 & A5). unfold pk_prepack. rewrite HG, (bufR_at A1), (slots_nth A4).
    destruct (pre _ _ _) as [gs| | |]; try exact I; unfold pkOR, pk_fill; cbn [pk_read pk_pre pk_len pk_pidx pk_fidx].
    - split; [apply bufR_set, A1|]. split; [apply fold_extend, A2|]. split; [|auto using slots_upd].
      destruct A3 as (L1 & L2 & E). rewrite !nth_upd_same by assumption. cbn [app]. unfold slots. rewrite !upd_length, !nth_upd_same by (rewrite ?upd_length; assumption). auto.
    - auto 10 using slots_upd, bufR_set.
    - auto 10 using slots_upd, bufR_set.
  Qed.
  Definition pkR {A} (o1 : @pk_obj A) (g1 : pk_gen) (o2 : @pk_obj A) (g2 : pk_gen) : Prop := pkOR o1 o2 /\ g1 = g2 /\ g1 <> PkDrain.
  Lemma pack_closed {A B} size (pre : nat -> nat -> list (sample A) -> ures (list (list (sample A)))) (f : nat -> nat -> list A -> ures B) :
    @tclosed A B (pack_ds n1 size (fun w => pre (gwid n1 r1 w)) (fun w => f (gwid n1 r1 w)))
      (pack_ds n2 size (fun w => pre (gwid n2 r2 w)) (fun w => f (gwid n2 r2 w))) w1 w2 pkR false.
  Proof.
    intros q1 q2 o1 g1 o2 g2 (HO & <- & NE). cbn [pack_ds t_act]. pose proof HO as (A1 & A2 & A3 & A4 & A5). destruct g1 as [|r|]; [| |congruence].
    - unfold pk_start. pose proof (bufR_start q1 q2 A2) as X. destruct (buf_start q1 w1 (pk_pre o1)), (buf_start q2 w2 (pk_pre o2)); cbn in X; try contradiction; cbn [bind].
      2: { subst. split; [reflexivity|exact I]. }
      pose proof (bufR_start q1 q2 A1) as Y. destruct (buf_start q1 w1 (pk_read o1)), (buf_start q2 w2 (pk_read o2)); cbn in Y; try contradiction; cbn [bind].
      2: { subst. split; [reflexivity|exact I]. }
      split; [reflexivity|]. cbn [fst snd]. split; [|split; [reflexivity|discriminate]]. unfold pkOR. cbn. auto.
    - rewrite (slots_nth A3). destruct (nth w2 (pk_len o2) []) as [|k rest].
      + unfold pk_read_step. rewrite (bufR_len A1), (bufR_len A2). destruct (_ <? size).
        * cbn [acts]. split; [|discriminate]. intros a. split; [reflexivity|]. cbn [fst snd]. split; [|split; [reflexivity|discriminate]].
          unfold pkOR. cbn. auto 10 using bufR_append.
        * destruct (negb _); [split; [reflexivity|exact I]|]. pose proof (prepack_lock pre HO) as X. 
          destruct (0 <? buf_len w2 (pk_read o2)).
          -- destruct (pk_prepack _ w1 o1), (pk_prepack _ w2 o2); try contradiction; [|split; [reflexivity|exact I]].
             destruct (10 <? S r); (split; [reflexivity|]); cbn [fst snd]; auto. split; [exact X|]. split; [reflexivity|discriminate].
          -- destruct (10 <? S r); (split; [reflexivity|]); cbn [fst snd]; auto. split; [exact HO|]. split; [reflexivity|discriminate].
      + unfold pk_final, pk_take. rewrite (bufR_at A2), (bufR_keys A2), (slots_nth A5), HG.
        destruct (f _ _ _); cbn [acts]; (split; [reflexivity|]); cbn [fst snd]; auto;
          (split; [|split; [reflexivity|discriminate]]); unfold pkOR; cbn; auto 10 using bufR_set, slots_upd.
  Qed.

  (** ** the loader *)
  Definition fresh_locked {A} (D1 D2 : dataset A) : Prop := locked w1 w2 false (ds_init D1, ds_iter D1) (ds_init D2, ds_iter D2).

  Section Web.
    Context {X : Type} (R : rng_ops) (content : shseq -> list (sample X)) (par : nat) (shuffle : shuffling).
    Notation R1 := (rng_at R n1 r1).
    Notation R2 := (rng_at R n2 r2).
    Notation shd := (@resR _ _ eq).

    Lemma draw_lock ws (x1 : wrng R1) (x2 : wrng R2) : rngR x1 x2 ->
      fst (draw w1 ws x1) = fst (draw w2 ws x2) /\ rngR (snd (draw w1 ws x1)) (snd (draw w2 ws x2)).
    Proof.
      intros H. unfold draw. destruct (rngR_below (length ws) H) as [E H'].
      destruct (wrng_below w1 _ x1) as [i y1]. destruct (wrng_below w2 _ x2) as [i2 y2]. cbn [fst snd] in *. subst i2. auto.
    Qed.
    Lemma draws_lock k ws (x1 : wrng R1) (x2 : wrng R2) : rngR x1 x2 ->
      fst (draws k w1 ws x1) = fst (draws k w2 ws x2) /\ rngR (snd (draws k w1 ws x1)) (snd (draws k w2 ws x2)).
    Proof.
      revert x1 x2. induction k as [|k IH]; intros x1 x2 H; cbn [draws]; [auto|].
      destruct (draw_lock ws H) as [E H']. destruct (draw w1 ws x1) as [s1 y1]. destruct (draw w2 ws x2) as [s2 y2]. cbn [fst snd] in *. subst s2.
      destruct (IH _ _ H') as [E2 H2]. destruct (draws k w1 ws y1) as [l1 z1]. destruct (draws k w2 ws y2) as [l2 z2]. cbn [fst snd] in *. subst l2. auto.
    Qed.
    Lemma once_lock ws (x1 : wrng R1) (x2 : wrng R2) : rngR x1 x2 ->
      fst (shards_once par shuffle w1 ws x1) = fst (shards_once par shuffle w2 ws x2) /\
      rngR (snd (shards_once par shuffle w1 ws x1)) (snd (shards_once par shuffle w2 ws x2)).
    Proof.
      intros H. unfold shards_once. destruct shuffle as [| |k]; [auto|apply draws_lock, H|].
      destruct (rngR_shuffle (concat (repeat ws k)) H) as [E H'].
      destruct (wrng_shuffle w1 _ x1) as [l1 y1]. destruct (wrng_shuffle w2 _ x2) as [l2 y2]. cbn [fst snd] in *. subst l2. auto.
    Qed.

    Variables (sh1 sh2 : list (list shseq)).
    Hypothesis HS1 : length sh1 = n1.
    Hypothesis HS2 : length sh2 = n2.
    Hypothesis HS : nth w1 sh1 [] = nth w2 sh2 [].
    Hypothesis HNE : nth w1 sh1 [] <> [].

    Definition quad (y1 : wrng R1 * slot * sl_gen * event (sample X)) (y2 : wrng R2 * slot * sl_gen * event (sample X)) : Prop :=
      rngR (fst (fst (fst y1))) (fst (fst (fst y2))) /\ snd (fst (fst y1)) = snd (fst (fst y2)) /\ snd (fst y1) = snd (fst y2) /\ snd y1 = snd y2 /\ snd y1 <> Done.

    Lemma head_lock (x1 : wrng R1) (x2 : wrng R2) s : rngR x1 x2 ->
      quad (sl_head sh1 par shuffle w1 x1 s) (sl_head sh2 par shuffle w2 x2 s).
    Proof.
      intros H. unfold sl_head. destruct (_ || _); [destruct (_ =? _)|]; [repeat split; try apply H; discriminate|repeat split; try apply H; discriminate|].
      unfold worker_shards. rewrite HS. destruct (once_lock (nth w2 sh2 []) H) as [E H'].
      destruct (shards_once par shuffle w1 _ x1) as [o1 y1]. destruct (shards_once par shuffle w2 _ x2) as [o2 y2]. cbn [fst snd] in E, H'. subst o2.
      destruct o1; repeat split; try apply H'; discriminate.
    Qed.

    Lemma loop_lock (x1 : wrng R1) (x2 : wrng R2) s ps : rngR x1 x2 ->
      quad (sl_loop sh1 content par shuffle true w1 x1 s ps) (sl_loop sh2 content par shuffle true w2 x2 s ps).
    Proof.
      intros H. unfold sl_loop. destruct (forallb _ ps); [repeat split; try apply H; discriminate|].
      assert (HC : exists i y1 y2, (match shuffle with NoShuffle => (0, x1) | _ => wrng_choice_idx w1 ps x1 end) = (i, y1) /\
                   (match shuffle with NoShuffle => (0, x2) | _ => wrng_choice_idx w2 ps x2 end) = (i, y2) /\ rngR y1 y2).
      { destruct (rngR_choice ps H) as [E H']. destruct (wrng_choice_idx w1 ps x1) as [i y1]. destruct (wrng_choice_idx w2 ps x2) as [i2 y2]. cbn [fst snd] in E, H'. subst i2.
        destruct shuffle; [exists 0, x1, x2; auto|exists i, y1, y2; auto|exists i, y1, y2; auto]. }
      destruct HC as (i & y1 & y2 & -> & -> & H').
      destruct (match shuffle with NoShuffle => _ | _ => false end); [repeat split; try apply H; discriminate|].
      destruct (nth_error (sl_act s) i) as [[[sh k]|]|]; [|repeat split; try apply H'; discriminate|repeat split; try apply H'; discriminate].
      destruct (nth_error (content sh) k); [repeat split; try apply H'; discriminate|].
      destruct (sl_pend s) as [|t pend]; [|repeat split; try apply H'; discriminate].
      assert (HD : match draw w1 (worker_shards sh1 w1) y1, draw w2 (worker_shards sh2 w2) y2 with (a, z1), (b, z2) => a = b /\ rngR z1 z2 end).
      { unfold worker_shards. rewrite HS. destruct (draw_lock (nth w2 sh2 []) H') as [E H2].
        destruct (draw w1 _ y1), (draw w2 _ y2). cbn [fst snd] in E, H2. auto. }
      destruct shuffle; try (repeat split; try apply H'; discriminate).
      destruct (draw w1 (worker_shards sh1 w1) y1) as [a z1]. destruct (draw w2 (worker_shards sh2 w2) y2) as [b z2]. destruct HD as [<- H2].
      destruct a; repeat split; try apply H2; discriminate.
    Qed.

    Variables rsa rsb : nat -> rkey -> result (sample X).
    Notation D1 := (loader_ds R1 sh1 content par shuffle true rsa).
    Notation D2 := (loader_ds R2 sh2 content par shuffle true rsb).

    Definition slR (s1 : st D1) (s2 : st D2) : Prop :=
      rngR (so_rng (fst s1)) (so_rng (fst s2)) /\ slots (empty_slot par) (so_slots (fst s1)) (so_slots (fst s2)) /\ snd s1 = snd s2 /\
      sl_bad (slot_at par w1 (fst s1)) = None.

    Lemma head_bad sh (R0 : rng_ops) w (x : wrng R0) s : sl_bad (snd (fst (fst (@sl_head X R0 sh par shuffle w x s)))) = sl_bad s.
    Proof.
      unfold sl_head. destruct (_ || _); [destruct (_ =? _); reflexivity|]. destruct (shards_once _ _ _ _ _) as [[o|e] y]; reflexivity.
    Qed.
    Lemma loop_bad sh (R0 : rng_ops) w (x : wrng R0) s ps : sl_bad (snd (fst (fst (@sl_loop X R0 sh content par shuffle true w x s ps)))) = sl_bad s.
    Proof.
      unfold sl_loop. destruct (forallb _ ps); [reflexivity|]. destruct (match shuffle with NoShuffle => (0, x) | _ => _ end) as [i y].
      destruct (match shuffle with NoShuffle => _ | _ => false end); [reflexivity|].
      destruct (nth_error (sl_act s) i) as [[[sh' k]|]|]; try reflexivity. destruct (nth_error (content sh') k); [reflexivity|].
      destruct (sl_pend s); [|reflexivity]. destruct shuffle; try reflexivity. destruct (draw _ _ y) as [[a|e] z]; reflexivity.
    Qed.

    Lemma web_closed : @closed _ D1 D2 w1 w2 false slR.
    Proof.
      intros o1 g1 o2 g2 (HR & HSl & EG & HB) o1' g1' e E. cbn [fst snd] in HR, HSl, EG, HB. subst g2.
      cbn [loader_ds ds_step] in *. assert (ES : slot_at par w1 o1 = slot_at par w2 o2) by apply (slots_nth HSl). rewrite ES in *.
      destruct g1 as [| |ps].
      - rewrite HB in *. unfold worker_shards in *. rewrite HS in *. destruct (nth w2 sh2 []) as [|s0 l0]; [congruence|].
        injection E as <- <- <-. eexists _, _. split; [reflexivity|]. cbn [after]. unfold slR. cbn [fst snd so_rng so_slots].
        split; [exact HR|]. destruct HSl as (L1 & L2 & EN). split; [|split; [reflexivity|]].
        + unfold slots. rewrite !(clear_other_slots_length par rsa). split; [exact L1|]. split; [exact L2|].
          rewrite (slot_at_clear par rsa (so_rng o1) (empty_slot par) L1), (slot_at_clear par rsa (so_rng o2) (empty_slot par) L2). exact EN.
        + unfold slot_at. cbn [so_slots]. rewrite (slot_at_clear par rsa (so_rng o1) (empty_slot par) L1). cbn. unfold slot_at in ES, HB. cbn in *. rewrite EN. exact HB.
      - pose proof (head_lock (slot_at par w2 o2) HR) as (Q1 & Q2 & Q3 & Q4 & Q5). pose proof (@head_bad sh1 R1 w1 (so_rng o1) (slot_at par w2 o2)) as HBB.
        destruct (sl_head sh1 par shuffle w1 (so_rng o1) (slot_at par w2 o2)) as [[[y1 s1] h1] e1].
        destruct (sl_head sh2 par shuffle w2 (so_rng o2) (slot_at par w2 o2)) as [[[y2 s2] h2] e2]. cbn [fst snd] in *. subst s2 h2 e2.
        injection E as <- <- <-. eexists _, _. split; [reflexivity|].
        assert (RR : slR (mkSl y1 (upd (so_slots o1) w1 s1), h1) (mkSl y2 (upd (so_slots o2) w2 s1), h1)).
        { split; [exact Q1|]. split; [apply slots_upd, HSl|]. split; [reflexivity|]. unfold slot_at. cbn [fst so_slots]. rewrite nth_upd_same by apply HSl. congruence. }
        destruct e1; cbn [after]; auto; congruence.
      - pose proof (loop_lock (slot_at par w2 o2) ps HR) as (Q1 & Q2 & Q3 & Q4 & Q5). pose proof (@loop_bad sh1 R1 w1 (so_rng o1) (slot_at par w2 o2) ps) as HBB.
        destruct (sl_loop sh1 content par shuffle true w1 (so_rng o1) (slot_at par w2 o2) ps) as [[[y1 s1] h1] e1].
        destruct (sl_loop sh2 content par shuffle true w2 (so_rng o2) (slot_at par w2 o2) ps) as [[[y2 s2] h2] e2]. cbn [fst snd] in *. subst s2 h2 e2.
        injection E as <- <- <-. eexists _, _. split; [reflexivity|].
        assert (RR : slR (mkSl y1 (upd (so_slots o1) w1 s1), h1) (mkSl y2 (upd (so_slots o2) w2 s1), h1)).
        { split; [exact Q1|]. split; [apply slots_upd, HSl|]. split; [reflexivity|]. unfold slot_at. cbn [fst so_slots]. rewrite nth_upd_same by apply HSl. congruence. }
        destruct e1; cbn [after]; auto; congruence.
    Qed.

    Lemma web_locked : fresh_locked D1 D2.
    Proof.
      exists slR. split; [apply web_closed|]. split; [apply rngR_init|]. cbn [fst snd loader_ds ds_init ds_iter so_slots]. rewrite HS1, HS2.
      split; [apply slots_repeat|]. split; [reflexivity|]. unfold slot_at. cbn [so_slots]. rewrite nth_repeat. reflexivity.
    Qed.
  End Web.

  (** ** blending *)
  Section Blends.
    Context {A : Type} (R : rng_ops) (m : nat) (weight : nat -> Q) (E1 E2 : nat -> dataset A).
    Hypothesis HD : forall i, i < m -> fresh_locked (E1 i) (E2 i).
    Notation B1 := (blend_ds (rng_at R n1 r1) m E1 weight (fun _ _ => true)).
    Notation B2 := (blend_ds (rng_at R n2 r2) m E2 weight (fun _ _ => true)).

    Definition itsR (in1 : forall i, ds_obj (E1 i)) (its1 : forall i, option (ds_gen (E1 i))) (in2 : forall i, ds_obj (E2 i)) (its2 : forall i, option (ds_gen (E2 i))) : Prop :=
      forall i, i < m -> locked w1 w2 false (in1 i, running (its1 i)) (in2 i, running (its2 i)).
    Definition blR (s1 : st B1) (s2 : st B2) : Prop :=
      rngR (bl_rng (fst s1)) (bl_rng (fst s2)) /\
      match snd s1, snd s2 with
      | BlStart _, BlStart _ => itsR (bl_in (fst s1)) (fun _ => None) (bl_in (fst s2)) (fun _ => None)
      | BlPick its1, BlPick its2 => itsR (bl_in (fst s1)) its1 (bl_in (fst s2)) its2
      | BlPull its1 k1, BlPull its2 k2 => k1 = k2 /\ itsR (bl_in (fst s1)) its1 (bl_in (fst s2)) its2
      | _, _ => False
      end.

    Lemma dupd_same {F : nat -> Type} (f : forall i, F i) i v : dupd f v i = v.
    Proof. unfold dupd. destruct (nat_dec i i) as [e|]; [|congruence]. rewrite (Eqdep_dec.UIP_dec nat_dec e eq_refl). reflexivity. Qed.
    Lemma dupd_other {F : nat -> Type} (f : forall i, F i) i j (v : F i) : i <> j -> dupd f v j = f j.
    Proof. intros H. unfold dupd. destruct (nat_dec i j); [congruence|reflexivity]. Qed.

    Lemma itsR_upd in1 its1 in2 its2 i io1 io2 ig1 ig2 : itsR in1 its1 in2 its2 ->
      locked w1 w2 false (io1, ig1) (io2, ig2) ->
      itsR (dupd in1 (i := i) io1) (dupd its1 (i := i) (Some ig1)) (dupd in2 (i := i) io2) (dupd its2 (i := i) (Some ig2)).
    Proof.
      intros H L j Hj. destruct (nat_dec i j) as [<-|NE]; [rewrite !dupd_same; exact L|]. rewrite !dupd_other by exact NE. apply H, Hj.
    Qed.

    Lemma blend_closed : @closed _ B1 B2 w1 w2 false blR.
    Proof.
      intros [x1 in1] g1 [x2 in2] g2 [HR HM] o1' g1' e E. cbn [fst snd bl_rng bl_in] in HR, HM. cbn [blend_ds ds_step] in *.
      assert (EL : live m (fun _ _ => true) w1 = live m (fun _ _ => true) w2) by reflexivity.
      assert (EP : probs m weight (fun _ _ => true) w1 = probs m weight (fun _ _ => true) w2) by reflexivity.
      assert (EDR : drawable m weight (fun _ _ => true) w1 = drawable m weight (fun _ _ => true) w2) by reflexivity.
      destruct g1 as [|its1|its1 k1]; destruct g2 as [|its2|its2 k2]; try contradiction; cbn [bl_step] in *.
      - rewrite EL in E. destruct (live m (fun _ _ => true) w2).
        + injection E as <- <- <-. eexists _, _. split; [reflexivity|exact I].
        + injection E as <- <- <-. eexists _, _. split; [reflexivity|]. split; [exact HR|exact HM].
      - rewrite EDR in E. destruct (drawable m weight (fun _ _ => true) w2).
        + rewrite EP in E. cbn [bl_rng bl_in] in *. destruct (rngR_choice (probs m weight (fun _ _ => true) w2) HR) as [EC HR'].
          destruct (wrng_choice_idx w1 _ x1) as [k1 y1]. destruct (wrng_choice_idx w2 _ x2) as [k2 y2]. cbn [fst snd] in EC, HR'. subst k2.
          injection E as <- <- <-. eexists _, _. split; [reflexivity|]. split; [exact HR'|]. split; [reflexivity|exact HM].
        + injection E as <- <- <-. eexists _, _. split; [reflexivity|exact I].
      - destruct HM as [<- HM]. rewrite EL in E. destruct (nth_error (live m (fun _ _ => true) w2) k1) as [i|] eqn:EN.
        2: { injection E as <- <- <-. eexists _, _. split; [reflexivity|exact I]. }
        assert (Hi : i < m). { apply nth_error_In in EN. unfold live in EN. apply filter_In in EN. destruct EN as [EN _]. apply in_seq in EN. lia. }
        cbn [bl_in bl_rng] in *. destruct (ds_step (E1 i) w1 (in1 i) (running (its1 i))) as [[io1 ig1] ei] eqn:EI.
        destruct (@locked_closed _ (E1 i) (E2 i) w1 w2 false _ _ _ _ (HM i Hi) _ _ _ EI) as (io2 & ig2 & EI2 & AF). rewrite EI2.
        destruct ei as [a| | |ex]; cbn [after] in AF.
        + injection E as <- <- <-. eexists _, _. split; [reflexivity|]. split; [exact HR|]. cbn [fst snd bl_in]. apply itsR_upd; assumption.
        + injection E as <- <- <-. eexists _, _. split; [reflexivity|]. split; [exact HR|]. cbn [fst snd bl_in]. split; [reflexivity|]. apply itsR_upd; assumption.
        + destruct AF; discriminate.
        + injection E as <- <- <-. eexists _, _. split; [reflexivity|exact I].
    Qed.

    Lemma blend_locked : fresh_locked B1 B2.
    Proof. exists blR. split; [apply blend_closed|]. split; [apply rngR_init|]. exact HD. Qed.
  End Blends.
End Two.
