(** Proofs about the model of the sample loader: resuming. *)
From Coq Require Import QArith.
From Verif Require Import Base Dataset DatasetProofs Rng RngProofs Sharder SampleLoader.
Local Close Scope Q_scope.
Local Close Scope Z_scope.
Local Open Scope nat_scope.

(** *** lockstep bisimulation *)
Section Lockstep.
  Context {P : Type} (D : dataset P) (w : nat).
  Definition lockstep (Rel : st D -> st D -> Prop) : Prop :=
    (forall s1 s2, Rel s1 s2 ->
       snd (ds_step D w (fst s1) (snd s1)) = snd (ds_step D w (fst s2) (snd s2)) /\
       Rel (fst (ds_step D w (fst s1) (snd s1))) (fst (ds_step D w (fst s2) (snd s2)))) /\
    (forall s1 s2, Rel s1 s2 -> Rel (fst s1, ds_iter D) (fst s2, ds_iter D)).

  Lemma lockstep_fsim Rel : lockstep Rel -> fsim w Rel.
  Proof.
    intros [H1 H2] s1 s2 HR e s1' [n N]. revert s1 s2 HR N. induction n as [|n IH]; [discriminate|].
    intros s1 s2 HR N. destruct (H1 _ _ HR) as [E R']. cbn [nextn] in N.
    destruct (ds_step D w (fst s1) (snd s1)) as [[o1 g1] e1] eqn:E1.
    destruct (ds_step D w (fst s2) (snd s2)) as [[o2 g2] e2] eqn:E2. cbn [fst snd] in *. subst e2.
    assert (C : e1 = Tau \/ (e1 <> Tau /\ e = e1 /\ s1' = (o1, g1))).
    { destruct e1; [right|left; reflexivity|right|right]; (split; [discriminate|]); injection N; intros; subst; split; reflexivity. }
    destruct C as [-> | (C1 & -> & ->)].
    - destruct (IH _ _ R' N) as (s2' & N2 & M). exists s2'. split; [eapply next_tau; eauto|exact M].
    - exists (o2, g2). split.
      + apply next_now; auto.
      + destruct e1; first [exact I | exact R' | exact (H2 _ _ R')].
  Qed.

  Lemma lockstep_flip Rel : lockstep Rel -> lockstep (flip_rel Rel).
  Proof.
    intros [H1 H2]. split.
    - intros s1 s2 HR. destruct (H1 _ _ HR). split; [congruence|assumption].
    - intros s1 s2 HR. exact (H2 _ _ HR).
  Qed.

  Lemma lockstep_same Rel s1 s2 : lockstep Rel -> Rel s1 s2 -> same_stream w s1 s2.
  Proof. intros L. apply bisim_same_stream; apply lockstep_fsim; [|apply lockstep_flip]; exact L. Qed.
End Lockstep.

(** an invariant that every step keeps holds after next() *)
Section Inv.
  Context {P : Type} (D : dataset P) (w : nat) (I : st D -> Prop) (K : event (sample P) -> st D -> Prop).
  Hypothesis H : forall s, I s ->
    match ds_step D w (fst s) (snd s) with
    | (o, g, Tau) => I (o, g)
    | (o, g, e) => K e (o, g)
    end.
  Lemma next_inv s e s' : I s -> next w s e s' -> K e s'.
  Proof.
    intros HI [n N]. revert s HI N. induction n as [|n IH]; [discriminate|]. intros s HI N.
    specialize (H HI). cbn [nextn] in N. destruct (ds_step D w (fst s) (snd s)) as [[o g] e1] eqn:E.
    destruct e1; try (injection N; intros; subst; exact H). exact (IH _ H N).
  Qed.
End Inv.

Lemma key_eqb_spec a b : key_eqb a b = true <-> sh_name (fst a) = sh_name (fst b) /\ sh_offset (fst a) = sh_offset (fst b).
Proof. unfold key_eqb. rewrite andb_true_iff, Nat.eqb_eq, Z.eqb_eq. reflexivity. Qed.

Lemma shard_eqb_refl a : shard_eqb a a = true.
Proof. unfold shard_eqb. rewrite Nat.eqb_refl, !Z.eqb_refl. reflexivity. Qed.
Lemma zip_eqb_refl l : zip_eqb l l = true.
Proof. induction l; cbn [zip_eqb]; [reflexivity|]. rewrite shard_eqb_refl. assumption. Qed.

(** the name and the offset in the first column tell the sub-shards of a worker apart *)
Definition distinct_keys (ws : list shseq) : Prop :=
  NoDup (map (fun s => (sh_name (fst s), sh_offset (fst s))) ws).

Lemma find_by_key_self ws s : distinct_keys ws -> In s ws -> find_by_key ws s = Ok s.
Proof.
  intros ND Hin. unfold find_by_key.
  destruct (find (fun t => key_eqb t s) (rev ws)) as [t|] eqn:F.
  - apply find_some in F. destruct F as [Ht K]. apply in_rev in Ht. apply key_eqb_spec in K.
    assert (t = s) as ->.
    { unfold distinct_keys in ND.
      destruct (In_nth_error _ _ Ht) as [i Hi]. destruct (In_nth_error _ _ Hin) as [j Hj].
      assert (i = j) as ->.
      { apply (proj1 (NoDup_nth_error _) ND).
        - rewrite map_length. apply (proj1 (nth_error_Some ws i)). rewrite Hi. discriminate.
        - rewrite (nth_error_map_some _ Hi), (nth_error_map_some _ Hj). f_equal. destruct K. congruence. }
      congruence. }
    rewrite zip_eqb_refl. reflexivity.
  - exfalso. assert (F1 : key_eqb s s = false) by (apply (find_none _ _ F s); apply in_rev; rewrite rev_involutive; exact Hin).
    assert (F2 : key_eqb s s = true) by (apply key_eqb_spec; auto). congruence.
Qed.

Lemma sequence_ok_map {A B} (f : A -> result B) (g : A -> B) l :
  (forall x, In x l -> f x = Ok (g x)) -> sequence (map f l) = Ok (map g l).
Proof.
  induction l as [|x l IH]; intros H; [reflexivity|]. cbn [map sequence].
  rewrite (H x) by (left; reflexivity). rewrite IH by (intros; apply H; right; assumption). reflexivity.
Qed.

Section P.
  Context {X : Type} (R : rng_ops).
  Variables (shards : list (list shseq)) (content : shseq -> list (sample X))
            (par : nat) (shuffle : shuffling) (loop : bool)
            (rsample : nat -> rkey -> result (sample X)).
  Notation L := (loader_ds R shards content par shuffle loop rsample).
  Notation ws := (worker_shards shards).
  Notation nw := (length shards).
  Notation hd := (@sl_head X R shards par shuffle).
  Notation lp := (@sl_loop X R shards content par shuffle loop).
  Notation once := (@shards_once R par shuffle).

  (** *** steps depend only on the worker's slot and effective generator *)
  Definition same4 {G E} (w : nat) (a b : wrng R * slot * G * E) : Prop :=
    geff w (fst (fst (fst a))) = geff w (fst (fst (fst b))) /\
    snd (fst (fst a)) = snd (fst (fst b)) /\ snd (fst a) = snd (fst b) /\ snd a = snd b.

  Lemma draw_eff w l r1 r2 : geff w r1 = geff w r2 -> @draw R w l r1 = @draw R w l r2.
  Proof. intros E. unfold draw. rewrite (below_eff _ E). reflexivity. Qed.
  Lemma draws_eff n : forall w l r1 r2, geff w r1 = geff w r2 ->
    fst (@draws R n w l r1) = fst (@draws R n w l r2) /\ geff w (snd (@draws R n w l r1)) = geff w (snd (@draws R n w l r2)).
  Proof.
    destruct n as [|n]; intros w l r1 r2 E; cbn [draws]; [auto|].
    rewrite (draw_eff _ E). auto.
  Qed.

  Lemma once_eff w r1 r2 : geff w r1 = geff w r2 ->
    fst (once w (ws w) r1) = fst (once w (ws w) r2) /\ geff w (snd (once w (ws w) r1)) = geff w (snd (once w (ws w) r2)).
  Proof.
    intros E. unfold shards_once. destruct shuffle; [auto|apply draws_eff; exact E|].
    rewrite (shuffle_eff _ E). auto.
  Qed.

  Lemma head_eff w r1 r2 s : geff w r1 = geff w r2 -> same4 w (hd w r1 s) (hd w r2 s).
  Proof.
    intros E. unfold same4, sl_head. destruct (existsb _ _ || _).
    - destruct (_ =? par); auto.
    - destruct (once_eff E) as [E1 E2].
      destruct (once w (ws w) r1) as [x1 q1], (once w (ws w) r2) as [x2 q2]. cbn [fst snd] in *. subst x2.
      destruct x1; auto.
  Qed.

  Lemma loop_eff w r1 r2 s probs : geff w r1 = geff w r2 -> same4 w (lp w r1 s probs) (lp w r2 s probs).
  Proof.
    intros E. unfold same4, sl_loop. destruct (forallb _ _); [auto|].
    set (c1 := match shuffle with NoShuffle => (0, r1) | _ => wrng_choice_idx w probs r1 end).
    set (c2 := match shuffle with NoShuffle => (0, r2) | _ => wrng_choice_idx w probs r2 end).
    assert (C : fst c1 = fst c2 /\ geff w (snd c1) = geff w (snd c2)).
    { subst c1 c2. destruct shuffle; auto; apply choice_eff; exact E. }
    destruct c1 as [i1 q1], c2 as [i2 q2]. cbn [fst snd] in C. destruct C as [<- E'].
    destruct (match shuffle with NoShuffle => _ | _ => _ end); [auto|].
    destruct (nth_error (sl_act s) i1) as [[[sh k]|]|]; auto.
    destruct (nth_error (content sh) k); auto.
    destruct (sl_pend s) as [|t pend]; auto.
    destruct shuffle; auto. rewrite (draw_eff _ E'). destruct (draw w _ q2) as [[t|e] q]; auto.
  Qed.

  Definition lkrel (w : nat) (s1 s2 : st L) : Prop :=
    snd s1 = snd s2 /\ geff w (so_rng (fst s1)) = geff w (so_rng (fst s2)) /\
    slot_at par w (fst s1) = slot_at par w (fst s2) /\
    w < length (so_slots (fst s1)) /\ w < length (so_slots (fst s2)).

  Lemma clear_other_slots_length w l : length (clear_other_slots par w l) = length l.
  Proof. unfold clear_other_slots. rewrite map_length, combine_length, seq_length. lia. Qed.

  Lemma nth_combine_seq {A} (l : list A) : forall b i x, nth_error l i = Some x -> nth_error (combine (seq b (length l)) l) i = Some (b + i, x).
  Proof.
    induction l as [|y l IH]; intros b [|i] x H; try discriminate; cbn in *.
    - injection H as ->. rewrite Nat.add_0_r. reflexivity.
    - rewrite (IH (S b) i x H). do 2 f_equal. lia.
  Qed.

  Lemma slot_at_clear w (r : wrng R) l d : w < length l -> nth w (clear_other_slots par w l) d = slot_at par w (mkSl r l).
  Proof.
    intros H. unfold slot_at. cbn [so_slots]. unfold clear_other_slots.
    destruct (nth_error l w) as [x|] eqn:E; [|apply nth_error_None in E; lia].
    rewrite (nth_error_nth l w (empty_slot par) E).
    apply nth_error_nth. erewrite nth_error_map_some; [|apply nth_combine_seq; exact E].
    cbn [fst snd Nat.add]. rewrite Nat.eqb_refl. reflexivity.
  Qed.

  Lemma lk_lockstep w : lockstep w (lkrel w).
  Proof.
    split.
    - intros [o1 g1] [o2 g2] (Eg & Er & Es & W1 & W2). cbn [fst snd] in *. subst g2.
      cbn [ds_step loader_ds]. rewrite <- Es.
      destruct g1 as [| |probs].
      + destruct (sl_bad (slot_at par w o1)); [repeat split; auto|].
        destruct (ws w); [repeat split; auto|]. cbn [fst snd]. split; [reflexivity|].
        unfold lkrel. cbn [fst snd so_rng so_slots slot_at]. rewrite !clear_other_slots_length.
        repeat split; auto. unfold slot_at. cbn [so_slots].
        rewrite (slot_at_clear (so_rng o1) _ W1), (slot_at_clear (so_rng o2) _ W2). destruct o1, o2; exact Es.
      + pose proof (head_eff (slot_at par w o1) Er) as S4.
        destruct (hd w (so_rng o1) _) as [[[q1 s1] h1] e1], (hd w (so_rng o2) _) as [[[q2 s2] h2] e2].
        destruct S4 as (A & B & C & E). cbn [fst snd] in *. subst s2 h2 e2. split; [reflexivity|].
        unfold lkrel. cbn [fst snd so_rng so_slots]. rewrite !upd_length. repeat split; auto.
        unfold slot_at. cbn [so_slots]. rewrite !nth_upd_same by assumption. reflexivity.
      + pose proof (loop_eff (slot_at par w o1) probs Er) as S4.
        destruct (lp w (so_rng o1) _ _) as [[[q1 s1] h1] e1], (lp w (so_rng o2) _ _) as [[[q2 s2] h2] e2].
        destruct S4 as (A & B & C & E). cbn [fst snd] in *. subst s2 h2 e2. split; [reflexivity|].
        unfold lkrel. cbn [fst snd so_rng so_slots]. rewrite !upd_length. repeat split; auto.
        unfold slot_at. cbn [so_slots]. rewrite !nth_upd_same by assumption. reflexivity.
    - intros s1 s2 (_ & Er & Es & W1 & W2). repeat split; auto.
  Qed.

  (** *** reachable states *)
  Definition act_in (w : nat) (p : option progress) : Prop := match p with None => True | Some (s, _) => In s (ws w) end.
  Definition slot_ok (w : nat) (s : slot) : Prop :=
    Forall (fun t => In t (ws w)) (sl_pend s) /\ Forall (act_in w) (sl_act s) /\ length (sl_act s) = par /\ sl_bad s = None.
  Definition sinv (w : nat) (s : st L) : Prop :=
    length (so_slots (fst s)) = nw /\ slot_ok w (slot_at par w (fst s)) /\
    match snd s with SgLoop probs => probs = map prob (sl_act (slot_at par w (fst s))) | _ => True end.

  Lemma slot_ok_empty w : slot_ok w (empty_slot par).
  Proof.
    repeat split; cbn; auto.
    - apply Forall_forall. intros p Hp. apply repeat_spec in Hp. subst p. exact I.
    - apply repeat_length.
  Qed.

  Lemma nth_repeat_any {A} (d : A) n i : nth i (repeat d n) d = d.
  Proof. revert i; induction n; intros [|i]; cbn; auto. Qed.

  Lemma forallb_upd {A} (P : A -> Prop) l i v : Forall P l -> P v -> Forall P (upd l i v).
  Proof.
    intros H Hv. revert i. induction H as [|x l Hx H IH]; intros [|i]; cbn; constructor; auto.
  Qed.

  Lemma map_upd {A B} (f : A -> B) l i v : map f (upd l i v) = upd (map f l) i (f v).
  Proof. revert i; induction l; intros [|i]; cbn; f_equal; auto. Qed.

  Lemma draw_in w l r t r' : @draw R w l r = (Ok t, r') -> In t l.
  Proof.
    unfold draw. destruct (wrng_below w (length l) r) as [i q]. destruct (nth_error l i) eqn:E; intros H; [|discriminate].
    injection H as -> _. eapply nth_error_In; eauto.
  Qed.
  Lemma draws_in n : forall w l r x r', @draws R n w l r = (Ok x, r') -> Forall (fun t => In t l) x /\ length x = n.
  Proof.
    induction n as [|n IH]; intros w l r x r' H; cbn [draws] in H.
    - injection H as <- _. auto.
    - destruct (draw w l r) as [[t|e] q] eqn:E1; destruct (draws n w l q) as [[y|e'] q'] eqn:E2; cbn [bind] in H; try discriminate.
      injection H as <- _. destruct (IH _ _ _ _ _ E2). split; [constructor; auto; eapply draw_in; eauto|]. cbn. auto.
  Qed.

  (** drawing elements by position yields elements of the list (no contract needed) *)
  Lemma shuffle_in {A} w (l : list A) (r : wrng R) : Forall (fun t => In t l) (fst (wrng_shuffle w l r)).
  Proof.
    unfold wrng_shuffle. destruct (wrng_force w r) as [g ?]. destruct (rng_perm R (length l) g) as [p ?]. cbn [fst].
    apply Forall_forall. intros t Ht. apply in_flat_map in Ht. destruct Ht as (i & _ & Hi).
    destruct (nth_error l i) as [x|] eqn:E; [|destruct Hi]. destruct Hi as [->|[]]. eapply nth_error_In; eauto.
  Qed.

  Lemma once_in w r order r' : once w (ws w) r = (Ok order, r') -> Forall (fun t => In t (ws w)) order.
  Proof.
    unfold shards_once. intros H. destruct shuffle as [| |k].
    - injection H as <- _. apply Forall_forall. auto.
    - eapply draws_in; eauto.
    - pose proof (shuffle_in w (concat (repeat (ws w) k)) r) as F.
      destruct (wrng_shuffle w _ r) as [l q]. injection H as <- _. cbn [fst] in F.
      eapply Forall_impl; [|exact F]. cbn. intros t Ht. apply in_concat in Ht. destruct Ht as (x & Hx & Hin).
      apply repeat_spec in Hx. subst x. exact Hin.
  Qed.

  Lemma Forall_firstn_ {A} (P : A -> Prop) n l : Forall P l -> Forall P (firstn n l).
  Proof. rewrite <- (firstn_skipn n l) at 1. rewrite Forall_app. tauto. Qed.
  Lemma Forall_skipn_ {A} (P : A -> Prop) n l : Forall P l -> Forall P (skipn n l).
  Proof. rewrite <- (firstn_skipn n l) at 1. rewrite Forall_app. tauto. Qed.

  Lemma head_ok w r s : slot_ok w s ->
    let '(r', s', g', e) := hd w r s in
    slot_ok w s' /\ match g' with SgLoop probs => probs = map prob (sl_act s') | _ => True end /\
    match e with Tau | Raise _ => True | _ => False end.
  Proof.
    intros H. pose proof H as (H1 & H2 & H3 & H4). unfold sl_head. destruct (existsb _ _ || _).
    - destruct (_ =? par); auto.
    - destruct (once w (ws w) r) as [[order|e] r'] eqn:E; [|auto].
      apply once_in in E. split; [|auto]. repeat split; cbn [sl_pend sl_act sl_bad]; auto.
      + apply Forall_skipn_. exact E.
      + apply Forall_app. split.
        * apply Forall_forall. intros p Hp. apply in_map_iff in Hp. destruct Hp as (t & <- & Ht).
          cbn. apply (proj1 (Forall_forall _ _) (Forall_firstn_ par E)). exact Ht.
        * apply Forall_forall. intros p Hp. apply repeat_spec in Hp. subst p. exact I.
      + rewrite app_length, repeat_length, map_length, firstn_length. lia.
  Qed.

  Lemma loop_ok w r s probs : slot_ok w s -> probs = map prob (sl_act s) ->
    let '(r', s', g', e) := lp w r s probs in
    slot_ok w s' /\ match g' with SgLoop ps => ps = map prob (sl_act s') | _ => True end /\
    match e with
    | Yield _ => existsb is_some (sl_act s') = true /\ g' = SgLoop (map prob (sl_act s'))
    | _ => True
    end.
  Proof.
    intros H Hp. pose proof H as (H1 & H2 & H3 & H4). unfold sl_loop. destruct (forallb _ _).
    { split; [|destruct loop; auto]. repeat split; auto. }
    destruct (match shuffle with NoShuffle => (0, r) | _ => _ end) as [i r1].
    destruct (match shuffle with NoShuffle => _ | _ => _ end); [auto|].
    destruct (nth_error (sl_act s) i) as [[[sh k]|]|] eqn:Ei; auto.
    assert (Hsh : In sh (ws w)).
    { pose proof (proj1 (Forall_forall _ _) H2 _ (nth_error_In _ _ Ei)) as Q. exact Q. }
    assert (Hi : i < length (sl_act s)) by (apply nth_error_Some; rewrite Ei; discriminate).
    destruct (nth_error (content sh) k) as [row|].
    { assert (EM : map prob (sl_act s) = map prob (upd (sl_act s) i (Some (sh, S k)))).
      { rewrite map_upd. cbn [prob]. clear -Ei. revert i Ei. induction (sl_act s) as [|p l IH]; intros [|i] Ei; try discriminate; cbn in *.
        - injection Ei as ->. reflexivity.
        - f_equal. apply IH. exact Ei. }
      split; [|split].
      - repeat split; cbn [sl_pend sl_act sl_bad]; auto.
        + apply forallb_upd; auto.
        + rewrite upd_length. exact H3.
      - cbn [sl_act]. congruence.
      - cbn [sl_act]. split; [|congruence]. apply existsb_exists. exists (Some (sh, S k)). split; [|reflexivity].
        eapply nth_error_In. apply nth_error_upd_same. exact Hi. }
    destruct (sl_pend s) as [|t pend] eqn:Ep.
    - assert (NONE : slot_ok w (set_act s [] i None) /\
        upd probs i 0%Q = map prob (sl_act (set_act s [] i None))).
      { split; [repeat split; cbn [sl_pend sl_act sl_bad set_act]; auto|].
        - apply forallb_upd; [auto|exact I].
        - rewrite upd_length. exact H3.
        - cbn [sl_act set_act]. rewrite map_upd, Hp. reflexivity. }
      destruct shuffle; try (destruct NONE; auto).
      destruct (draw w (ws w) r1) as [[t|e] r2] eqn:Ed; [|auto].
      apply draw_in in Ed. split; [|split; auto].
      + repeat split; cbn [sl_pend sl_act sl_bad set_act]; auto.
        * apply forallb_upd; auto.
        * rewrite upd_length. exact H3.
      + cbn [sl_act set_act]. rewrite map_upd, Hp. reflexivity.
    - inversion_clear H1. split; [|split; auto].
      + repeat split; cbn [sl_pend sl_act sl_bad set_act]; auto.
        * apply forallb_upd; auto.
        * rewrite upd_length. exact H3.
      + cbn [sl_act set_act]. rewrite map_upd, Hp. reflexivity.
  Qed.

  Hypothesis HK : forall w, distinct_keys (ws w).

  Lemma restore_slot_ok w s : slot_ok w s -> restore_slot shards par w s = s.
  Proof.
    intros (H1 & H2 & H3 & H4). unfold restore_slot.
    rewrite (@sequence_ok_map _ _ _ (fun t => t)).
    2:{ intros t Ht. apply find_by_key_self; auto. apply (proj1 (Forall_forall _ _) H1). exact Ht. }
    rewrite (@sequence_ok_map _ _ _ (fun t => t)).
    2:{ intros [[t k]|] Ht; [|reflexivity]. rewrite find_by_key_self; auto.
        apply (proj1 (Forall_forall _ _) H2 _ Ht). }
    rewrite !map_id. destruct s. cbn in *. congruence.
  Qed.

  (** a state at which the dataset may be saved *)
  Definition savable (w : nat) (s : st L) : Prop :=
    sinv w s /\ (snd s = SgStart \/
      (existsb is_some (sl_act (slot_at par w (fst s))) = true /\ snd s = SgLoop (map prob (sl_act (slot_at par w (fst s)))))).

  Lemma step_inv w s : w < nw -> sinv w s ->
    match ds_step L w (fst s) (snd s) with
    | (o, g, Tau) => sinv w (o, g)
    | (o, g, e) => sinv w (o, g) /\ match e with Yield _ => savable w (o, g) | _ => True end
    end.
  Proof.
    intros W (HL & HS & HG). destruct s as [o g]. cbn [fst snd] in *. cbn [ds_step loader_ds].
    assert (WL : w < length (so_slots o)) by lia.
    destruct g as [| |probs].
    - destruct (sl_bad (slot_at par w o)); [repeat split; auto; apply HS|].
      destruct (ws w); [repeat split; auto; apply HS|].
      split; cbn [fst so_slots]; [rewrite clear_other_slots_length; exact HL|]. split; [|exact I].
      unfold slot_at. cbn [so_slots]. rewrite (slot_at_clear (so_rng o) _ WL). destruct o; exact HS.
    - pose proof (head_ok (so_rng o) HS) as HO. destruct (hd w (so_rng o) _) as [[[r' s'] g'] e].
      destruct HO as (A & B & C).
      assert (SI : sinv w (mkSl r' (upd (so_slots o) w s'), g')).
      { unfold sinv, slot_at. cbn [fst snd so_slots]. rewrite upd_length, nth_upd_same by assumption. auto. }
      destruct e; auto. destruct C.
    - pose proof (loop_ok (so_rng o) HS HG) as HO. destruct (lp w (so_rng o) _ _) as [[[r' s'] g'] e].
      destruct HO as (A & B & C).
      assert (SI : sinv w (mkSl r' (upd (so_slots o) w s'), g')).
      { unfold sinv, slot_at. cbn [fst snd so_slots]. rewrite upd_length, nth_upd_same by assumption. auto. }
      destruct e as [row| | |]; auto.
      split; [exact SI|]. split; [exact SI|]. right.
      unfold slot_at. cbn [fst snd so_slots]. rewrite nth_upd_same by assumption. exact C.
  Qed.

  Lemma restored_slot w (s : st L) sts : nth_error sts w = Some (Some (ds_save L w (fst s))) -> length sts = nw ->
    let o' := ds_restore L (Some (ds_merge L sts)) (ds_init L) in
    geff w (so_rng o') = geff w (so_rng (fst s)) /\ length (so_slots o') = nw /\
    slot_at par w o' = restore_slot shards par w (slot_at par w (fst s)).
  Proof.
    intros E Hl. cbn [ds_restore ds_merge loader_ds ds_init so_rng so_slots]. split; [|split].
    - apply geff_restore. erewrite nth_error_map_some; [|exact E]. reflexivity.
    - rewrite map_length, combine_length, seq_length, !map_length. rewrite Nat.min_id. exact Hl.
    - unfold slot_at at 1. cbn [so_slots]. apply nth_error_nth.
      erewrite nth_error_map_some.
      2:{ apply nth_combine_seq. erewrite nth_error_map_some; [|exact E]. reflexivity. }
      reflexivity.
  Qed.

  Lemma reach_savable rst w s : w < nw -> reach w rst nw s -> savable w s.
  Proof.
    intros W. induction 1 as [|s a s' HR IH N|s s' HR IH N|s sts HR IH Hl Hs|s Hr HR IH].
    - split; [|left; reflexivity]. split; [cbn; apply repeat_length|]. split; [|exact I].
      unfold slot_at. cbn [fst ds_init loader_ds so_slots]. rewrite nth_repeat_any. apply slot_ok_empty.
    - apply (@next_inv _ L w (sinv w) (fun e s => sinv w s /\ match e with Yield _ => savable w s | _ => True end)) in N.
      + tauto.
      + intros. apply step_inv; auto.
      + apply IH.
    - apply (@next_inv _ L w (sinv w) (fun e s => sinv w s /\ match e with Yield _ => savable w s | _ => True end)) in N.
      + destruct N as [(A & B & C) _]. split; [|left; reflexivity]. split; [exact A|]. split; [exact B|exact I].
      + intros. apply step_inv; auto.
      + apply IH.
    - destruct (restored_slot Hs Hl) as (A & B & C). split; [|left; reflexivity].
      split; [exact B|]. split; [|exact I]. cbn [fst]. rewrite C, restore_slot_ok; apply IH.
    - split; [|left; reflexivity]. split; [cbn; apply repeat_length|]. split; [|exact I].
      unfold slot_at. cbn [fst ds_restore loader_ds so_slots]. rewrite nth_repeat_any. apply slot_ok_empty.
  Qed.

  Theorem loader_resumable rst : resumable L rst nw.
  Proof.
    intros w s sts W HR Hl Hs. pose proof (reach_savable W HR) as [(HL & HS & HG) C].
    destruct (restored_slot Hs Hl) as (A & B & D).
    set (o' := ds_restore L (Some (ds_merge L sts)) (ds_init L)) in *.
    rewrite restore_slot_ok in D by exact HS.
    destruct s as [o g]. cbn [fst snd] in *. destruct C as [-> | [Hact ->]].
    - apply (lockstep_same (lk_lockstep w)). repeat split; cbn [fst snd]; auto; lia.
    - assert (NE : ws w <> []).
      { apply existsb_exists in Hact. destruct Hact as ([[t k]|] & Hin & Hs'); [|discriminate].
        destruct HS as (_ & H2 & _). pose proof (proj1 (Forall_forall _ _) H2 _ Hin) as Q. cbn in Q.
        intros Z. rewrite Z in Q. destruct Q. }
      pose proof HS as (H1 & H2 & H3 & H4).
      set (o1 := mkSl (so_rng o') (clear_other_slots par w (so_slots o'))).
      assert (S1 : slot_at par w o1 = slot_at par w o).
      { subst o1. unfold slot_at at 1. cbn [so_slots]. rewrite (slot_at_clear (so_rng o')) by lia. rewrite <- D. destruct o'; reflexivity. }
      apply same_stream_sym. eapply same_stream_trans; [eapply (@same_stream_tau _ L w (o', SgStart) o1 SgHead)|].
      { cbn [ds_step loader_ds fst snd]. rewrite D, H4. destruct (ws w); [congruence|reflexivity]. }
      set (o2 := mkSl (so_rng o') (upd (so_slots o1) w (slot_at par w o))).
      eapply same_stream_trans; [eapply (@same_stream_tau _ L w (o1, SgHead) o2 (SgLoop (map prob (sl_act (slot_at par w o)))))|].
      { cbn [ds_step loader_ds fst snd]. rewrite S1. unfold sl_head. rewrite Hact. cbn [orb]. rewrite H3, Nat.eqb_refl. reflexivity. }
      apply (lockstep_same (lk_lockstep w)). unfold lkrel. cbn [fst snd so_rng o2 so_slots].
      assert (WL : w < length (so_slots o1)) by (subst o1; cbn [so_slots]; rewrite clear_other_slots_length; lia).
      rewrite upd_length. repeat split; auto; try lia.
      exact (nth_upd_same (slot_at par w o) (empty_slot par) WL).
  Qed.
End P.
