(** Property C68: which pipelines can be saved, and which samples can be brought back, depending on which user functions are
    marked stateless. *)
From Coq Require Import QArith String.
From Verif Require Import Base Dataset DatasetProofs Wrap WrapProofs WrapSpec SourceProofs Wrappers MapModel Batch RandomFns
  Config ConfigProofs SaveCheck P_Random SampleLoader.
Local Close Scope Q_scope.
Local Close Scope Z_scope.
Local Open Scope nat_scope.

(** ** Specification *)
(** [directly d p]: dataset [d] was passed to the constructor of [p] *)
Inductive directly : pipe -> pipe -> Prop :=
| in_map f fc s h d : directly d (PMap f fc s h d)
| in_iter f fc l s h d : directly d (PIterMap f fc l s h d)
| in_filter f fc d : directly d (PFilter f fc d)
| in_shuffle n d : directly d (PShuffle n d)
| in_batch n f fc s dl h d : directly d (PBatch n f fc s dl h d)
| in_group n k f fc s dl h d : directly d (PGroup n k f fc s dl h d)
| in_pack n a b fc s h d : directly d (PPack n a b fc s h d)
| in_repeat n d : directly d (PRepeat n d)
| in_epochize n d : directly d (PEpochize n d)
| in_limit n r d : directly d (PLimit n r d)
| in_gc n d : directly d (PGc n d)
| in_log n d : directly d (PLog n d)
| in_blend d q ds : In (d, q) ds -> directly d (PBlend ds)
| in_concat d ds : In d ds -> directly d (PConcat ds).

(** [below q p]: dataset [q] is [p] or lies somewhere below it *)
Inductive below (q : pipe) : pipe -> Prop :=
| b_here : below q q
| b_down d p : directly d p -> below q d -> below q p.

(** a dataset with a user function that is not marked stateless *)
Inductive unmarked : pipe -> Prop :=
| un_map f fc h d : unmarked (PMap f fc false h d)
| un_iter f fc l h d : unmarked (PIterMap f fc l false h d)
| un_batch n f fc dl h d : unmarked (PBatch n f fc false dl h d)
| un_group n k f fc dl h d : unmarked (PGroup n k f fc false dl h d)
| un_pack n a b fc h d : unmarked (PPack n a b fc false h d).

(** a dataset that keeps samples back and saves their keys *)
Inductive buffering (seen : bool) : pipe -> Prop :=
| bu_shuffle n d : buffering seen (PShuffle n d)
| bu_pack n a b fc s h d : buffering seen (PPack n a b fc s h d)
| bu_group n k f fc s dl h d : seen = true -> buffering seen (PGroup n k f fc s dl h d).

(** ** Proofs *)
Lemma bind_ok {X} (r : result unit) (x : result X) y : bind r (fun _ => x) = Ok y <-> r = Ok tt /\ x = Ok y.
Proof. destruct r as [[]|e]; cbn; split; intros H; try discriminate; intuition discriminate. Qed.

Lemma fold_binds (l : list (result unit)) : forall r, fold_left (fun r x => bind r (fun _ => x)) l r = Ok tt <-> r = Ok tt /\ Forall (fun x => x = Ok tt) l.
Proof.
  induction l as [|x l IH]; intros r; cbn; [split; [auto|tauto]|].
  rewrite IH, bind_ok, Forall_cons_iff. tauto.
Qed.

Lemma below_iff q p : below q p <-> q = p \/ exists d, directly d p /\ below q d.
Proof. split; [intros [|d p' H B]; eauto|intros [-> | (d & H & B)]; [constructor|eapply b_down; eauto]]. Qed.

Section Inner.
  Variable Q : pipe -> Prop.
  Definition somewhere (p : pipe) : Prop := exists q, below q p /\ Q q.
  Lemma somewhere_iff p : somewhere p <-> Q p \/ exists d, directly d p /\ somewhere d.
  Proof.
    unfold somewhere. split.
    - intros (q & B & H). apply below_iff in B as [-> | (d & D & B)]; [left; exact H|right; eauto].
    - intros [H|(d & D & q & B & H)]; [exists p; split; [constructor|exact H]|exists q; split; [eapply b_down; eauto|exact H]].
  Qed.
  Lemma somewhere_one p d0 : (forall d, directly d p <-> d = d0) -> (somewhere p <-> Q p \/ somewhere d0).
  Proof.
    intros H. rewrite somewhere_iff. split; intros [X|X]; auto.
    - destruct X as (d & D & S). apply H in D as ->. auto.
    - right. exists d0. split; [apply H; reflexivity|exact X].
  Qed.
End Inner.

Ltac one_inner := intros; split; [let HH := fresh "HH" in intros HH; inversion HH; reflexivity|let HH := fresh "HH" in intros HH; rewrite HH; constructor].

(** samples can be brought back by their key exactly if every user function is marked stateless *)
Theorem C68_can_restore_iff p : can_restore p = true <-> ~ exists q, below q p /\ unmarked q.
Proof.
  change (can_restore p = true <-> ~ somewhere unmarked p).
  assert (NB : forall q, (forall f fc s h d, q <> PMap f fc s h d) -> (forall f fc l s h d, q <> PIterMap f fc l s h d) ->
     (forall n f fc s dl h d, q <> PBatch n f fc s dl h d) -> (forall n k f fc s dl h d, q <> PGroup n k f fc s dl h d) ->
     (forall n a b fc s h d, q <> PPack n a b fc s h d) -> ~ unmarked q).
  { intros q H1 H2 H3 H4 H5 U. destruct U; [eapply H1|eapply H2|eapply H3|eapply H4|eapply H5]; reflexivity. }
  induction p using pipe_ind'; cbn [can_restore].
  1: { split; [|reflexivity]. intros _ S. apply somewhere_iff in S as [U|(? & D & _)]; [inversion U|inversion D]. }
  all: try (erewrite somewhere_one by one_inner).
  all: try (rewrite andb_true_iff, IHp; split; [intros [-> H] [U|U]; [inversion U|tauto]|
              intros H; split; [match goal with |- ?b = true => destruct b; [reflexivity|exfalso; apply H; left; constructor] end|tauto]]).
  all: try (rewrite IHp; split; [intros H [U|U]; [inversion U|tauto]|tauto]).
  - rewrite forallb_forall. rewrite Forall_forall in H. rewrite somewhere_iff. split.
    + intros HA [U|(d & D & U)]; [inversion U|]. inversion D as [| | | | | | | | | | | |d' q ds' HI|]; subst.
      apply (H _ HI); [|exact U]. apply HA. apply in_map_iff. exists (d, q). auto.
    + intros HN b HB. apply in_map_iff in HB as ([d q] & <- & HI). cbn [fst]. apply (H _ HI). intros U. apply HN. right. exists d.
      split; [econstructor; exact HI|exact U].
  - rewrite forallb_forall. rewrite Forall_forall in H. rewrite somewhere_iff. split.
    + intros HA [U|(d & D & U)]; [inversion U|]. inversion D as [| | | | | | | | | | | | |d' ds' HI]; subst.
      apply (H _ HI); [|exact U]. apply HA. apply in_map_iff. exists d. auto.
    + intros HN b HB. apply in_map_iff in HB as (d & <- & HI). apply (H _ HI). intros U. apply HN. right. exists d.
      split; [econstructor; exact HI|exact U].
Qed.
Print Assumptions C68_can_restore_iff.

(** the two methods agree: assert_can_restore() raises exactly if can_restore_sample() is False *)
Theorem C68_assert_agrees p : (assert_can_restore p = Ok tt <-> can_restore p = true) /\
  (assert_can_restore p = Ok tt \/ assert_can_restore p = Err AssertionError).
Proof.
  assert (FE : forall l, Forall (fun x : result unit => x = Ok tt \/ x = Err AssertionError) l -> forall r : result unit, r = Ok tt \/ r = Err AssertionError ->
    fold_left (fun r x => bind r (fun _ => x)) l r = Ok tt \/ fold_left (fun r x => bind r (fun _ => x)) l r = Err AssertionError).
  { induction 1 as [|x l Hx _ IH]; intros r Hr; cbn; [exact Hr|]. apply IH. destruct Hr as [-> | ->]; cbn; auto. }
  induction p using pipe_ind'; cbn [can_restore assert_can_restore]; try exact IHp.
  1: { split; [split; reflexivity|left; reflexivity]. }
  all: try (destruct IHp as [I1 I2]; rewrite andb_true_iff, <- I1; match goal with |- context [if ?b then _ else _] => destruct b end;
            [split; [tauto|exact I2]|split; [split; [discriminate|intros [X _]; discriminate X]|auto]]).
  - split.
    + rewrite fold_binds, forallb_forall, Forall_forall. rewrite Forall_forall in H. split.
      * intros [_ HA] b HB. apply in_map_iff in HB as (d & <- & HI). apply (H _ HI). apply HA. apply in_map_iff. eauto.
      * intros HA. split; [reflexivity|]. intros r HR. apply in_map_iff in HR as (d & <- & HI). apply (H _ HI). apply HA. apply in_map_iff. eauto.
    + apply FE; [|auto]. rewrite Forall_forall in *. intros r HR. apply in_map_iff in HR as (d & <- & HI). apply (H _ HI).
  - split.
    + rewrite fold_binds, forallb_forall, Forall_forall. rewrite Forall_forall in H. split.
      * intros [_ HA] b HB. apply in_map_iff in HB as (d & <- & HI). apply (H _ HI). apply HA. apply in_map_iff. eauto.
      * intros HA. split; [reflexivity|]. intros r HR. apply in_map_iff in HR as (d & <- & HI). apply (H _ HI). apply HA. apply in_map_iff. eauto.
    + apply FE; [|auto]. rewrite Forall_forall in *. intros r HR. apply in_map_iff in HR as (d & <- & HI). apply (H _ HI).
Qed.
Print Assumptions C68_assert_agrees.

(** the pipelines that cannot be saved: a buffering dataset above a function that is not marked *)
Definition unsavable (seen : bool) (p : pipe) : Prop :=
  exists q d r, below q p /\ buffering seen q /\ directly d q /\ below r d /\ unmarked r.

Definition bad (seen : bool) (q : pipe) : Prop := buffering seen q /\ exists d, directly d q /\ somewhere unmarked d.

(** Saving the state works exactly if no dataset that keeps samples back is (anywhere) above a user function that is not marked
    stateless; otherwise it raises an AssertionError.  (A SavableDataLoader with workers saves the state of every worker after
    its first sample already.) *)
Theorem C68_save_iff seen p : (save_check seen p = Ok tt <-> ~ unsavable seen p) /\
  (save_check seen p = Ok tt \/ save_check seen p = Err AssertionError).
Proof.
  assert (EQ : unsavable seen p <-> somewhere (bad seen) p).
  { split.
    - intros (q & d & r & B & U & D & B2 & M). exists q. split; [exact B|]. split; [exact U|]. exists d. split; [exact D|]. exists r. auto.
    - intros (q & B & U & d & D & r & B2 & M). exists q, d, r. auto 10. }
  rewrite EQ. clear EQ.
  assert (FE : forall l, Forall (fun x : result unit => x = Ok tt \/ x = Err AssertionError) l -> forall r : result unit, r = Ok tt \/ r = Err AssertionError ->
    fold_left (fun r x => bind r (fun _ => x)) l r = Ok tt \/ fold_left (fun r x => bind r (fun _ => x)) l r = Err AssertionError).
  { induction 1 as [|x l Hx _ IH]; intros r Hr; cbn; [exact Hr|]. apply IH. destruct Hr as [-> | ->]; cbn; auto. }
  assert (AS : forall d, assert_can_restore d = Ok tt <-> ~ somewhere unmarked d).
  { intros d. rewrite (proj1 (C68_assert_agrees d)), C68_can_restore_iff. reflexivity. }
  induction p using pipe_ind'; cbn [save_check].
  1: { split; [|auto]. split; [|reflexivity]. intros _ S. apply somewhere_iff in S as [U|(? & D & _)]; [destruct U as [U _]; inversion U|inversion D]. }
  all: try (erewrite somewhere_one by one_inner).
  all: try (destruct IHp as [I1 I2]; split; [|exact I2]; rewrite I1; split; [intros H [[U _]|U]; [inversion U|tauto]|tauto]).
  all: try (destruct IHp as [I1 I2]; split; [|destruct I2 as [-> | ->]; cbn; [apply C68_assert_agrees|auto]];
            rewrite bind_ok, I1, AS; unfold bad; split;
            [intros [H1 H2] [(_ & d & D & S)|U]; [inversion D; subst; tauto|tauto]
            |intros H; split; [tauto|]; intros S; apply H; left; split; [constructor|]; eexists; split; [constructor|exact S]]).
  - destruct IHp as [I1 I2]. split.
    + rewrite bind_ok, I1. destruct seen.
      * rewrite AS. unfold bad. split.
        -- intros [H1 H2] [(_ & d & D & S)|U]; [inversion D; subst; tauto|tauto].
        -- intros H; split; [tauto|]; intros S; apply H; left; split; [constructor; reflexivity|]; eexists; split; [constructor|exact S].
      * split; [intros [H1 _] [[U _]|U]; [inversion U; discriminate|tauto]|intros H; split; [tauto|reflexivity]].
    + destruct I2 as [-> | ->]; cbn; [|auto]. destruct seen; [apply C68_assert_agrees|auto].
  - rewrite Forall_forall in H. split.
    + rewrite fold_binds, Forall_forall, somewhere_iff. split.
      * intros [_ HA] [[U _]|(d & D & U)]; [inversion U|]. inversion D as [| | | | | | | | | | | |d' q ds' HI|]; subst.
        apply (proj1 (H _ HI)); [|exact U]. apply HA. apply in_map_iff. exists (d, q). auto.
      * intros HN. split; [reflexivity|]. intros b HB. apply in_map_iff in HB as ([d q] & <- & HI). cbn [fst]. apply (H _ HI). intros U. apply HN. right. exists d.
        split; [econstructor; exact HI|exact U].
    + apply FE; [|auto]. apply Forall_forall. intros r HR. apply in_map_iff in HR as (d & <- & HI). apply (H _ HI).
  - rewrite Forall_forall in H. split.
    + rewrite fold_binds, Forall_forall, somewhere_iff. split.
      * intros [_ HA] [[U _]|(d & D & U)]; [inversion U|]. inversion D as [| | | | | | | | | | | | |d' ds' HI]; subst.
        apply (proj1 (H _ HI)); [|exact U]. apply HA. apply in_map_iff. exists d. auto.
      * intros HN. split; [reflexivity|]. intros b HB. apply in_map_iff in HB as (d & <- & HI). apply (H _ HI). intros U. apply HN. right. exists d.
        split; [econstructor; exact HI|exact U].
    + apply FE; [|auto]. apply Forall_forall. intros r HR. apply in_map_iff in HR as (d & <- & HI). apply (H _ HI).
Qed.
Print Assumptions C68_save_iff.

(** whatever can be restored by key can be saved *)
Theorem C68_restorable_savable seen p : can_restore p = true -> save_check seen p = Ok tt.
Proof.
  intros H. apply C68_can_restore_iff in H. apply C68_save_iff. intros (q & d & r & B & _ & D & B2 & M). apply H. exists r. split; [|exact M].
  clear - B D B2. induction B as [|d' p' D' B IH]; [eapply b_down; eauto|eapply b_down; eauto].
Qed.
Print Assumptions C68_restorable_savable.

(** examples: random encode_sample below batching is fine, below packing or a shuffle buffer it is not; a random encode_batch is fine *)
Definition afn : callable := mkCallable None None 0.
Definition src : pipe := PLoad [] [] true NoShuffle 1 0 0.
Example C68_nonvacuous :
  save_check true (PMap afn NoConfig false afn (PBatch 4 afn NoConfig false true afn (PMap afn NoConfig false afn (PShuffle 100 src)))) = Ok tt /\
  save_check true (PPack 100 afn afn NoConfig true afn (PMap afn NoConfig false afn (PShuffle 100 src))) = Err AssertionError /\
  save_check true (PShuffle 10 (PBlend [(PMap afn NoConfig true afn src, 1%Q); (PMap afn NoConfig false afn src, 2%Q)])) = Err AssertionError /\
  unsavable true (PPack 100 afn afn NoConfig true afn (PMap afn NoConfig false afn (PShuffle 100 src))).
Proof.
  repeat (split; [reflexivity|]).
  eexists _, _, _. split; [constructor|]. split; [constructor|]. split; [constructor|]. split; [constructor|]. constructor.
Qed.

(** grouping datasets only notice once they hold a group: the same pipeline can be saved before the first sample, but not after it *)
Theorem C68_group_late_refuted : exists p, save_check false p = Ok tt /\ save_check true p = Err AssertionError.
Proof. exists (PGroup (Some 2) afn afn NoConfig true true afn (PMap afn NoConfig false afn src)). split; reflexivity. Qed.
Print Assumptions C68_group_late_refuted.

(** A generator function on top of random functions: the state is saved without complaint, but whenever a sample has just been
    delivered it cannot be resumed: the first next() of the restored dataset raises an AssertionError.  For every generator
    function, every random pipeline below it, every history and every dataset below that. *)
Section GenOverRandom.
  Context {V G : Type} (nw : nat) (seed : nat -> G) (P : rpipe V G) (f : nat -> nat -> V -> list V * gend) (D : dataset V) (w : nat).
  Notation W := (wrap (mapgen_ds nw f) (wrap (random_ds nw seed P) D)).

  Definition in_gen (g : t_gen (mapgen_ds nw f)) : Prop := match g with MgResume _ _ _ _ | MgGen _ _ _ => True | _ => False end.
  Definition held (s : st W) : Prop :=
    length (mg_key (w_loc (fst s))) = nw /\ length (mg_off (w_loc (fst s))) = nw /\
    (in_gen (snd s) -> nth w (mg_key (w_loc (fst s))) None <> None).
  Definition held_now (s : st W) : Prop :=
    nth w (mg_key (w_loc (fst s))) None <> None /\ nth w (mg_off (w_loc (fst s))) None <> None.

  Lemma held_step (Hw : w < nw) (s : st W) o g e : held s -> ds_step W w (fst s) (snd s) = (o, g, e) ->
    held (o, g) /\ (forall y, e = Yield y -> held_now (o, g)).
  Proof.
    destruct s as [x h]. intros (L1 & L2 & HK) E. cbn [fst snd] in *. cbn [ds_step wrap] in E. unfold wrap_step in E at 1.
    cbn [t_act mapgen_ds] in E. destruct h as [|a i j t| |a i j].
    - destruct (nth w (mg_key (w_loc x)) None) as [key|] eqn:EK; [|inversion E; subst; clear E; split; [split; [exact L1|split; [exact L2|intros []]]|discriminate]].
      destruct (nth w (mg_off (w_loc x)) None) as [t|]; [|inversion E; subst; clear E; split; [split; [exact L1|split; [exact L2|intros []]]|discriminate]].
      cbn in E. inversion E; subst; clear E; split; [split; [exact L1|split; [exact L2|intros []]]|discriminate].
    - destruct (f w i (pl a)) as [ys e']. destruct (nth_error ys j) as [y|].
      + destruct (t <=? j); inversion E; subst; clear E; (split; [split; [exact L1|split; [cbn; rewrite ?upd_length; exact L2|intros _; apply HK; exact I]]|]).
        * intros y' _. split; [apply HK; exact I|]. cbn. rewrite nth_upd_same by lia. discriminate.
        * discriminate.
      + destruct e'; inversion E; subst; clear E; (split; [|discriminate]).
        * split; [cbn; rewrite upd_length; exact L1|split; [cbn; rewrite upd_length; exact L2|intros []]].
        * split; [exact L1|split; [exact L2|exact HK]].
        * split; [exact L1|split; [exact L2|exact HK]].
        * split; [exact L1|split; [exact L2|exact HK]].
    - match type of E with match ?t with _ => _ end = _ => destruct t as [[io ig] [a| | |e']] end; inversion E; subst; clear E; (split; [|discriminate]).
      + split; [cbn; rewrite upd_length; exact L1|split; [cbn; rewrite upd_length; exact L2|intros _; cbn; rewrite nth_upd_same by lia; discriminate]].
      + split; [exact L1|split; [exact L2|intros []]].
      + split; [exact L1|split; [exact L2|intros []]].
      + split; [exact L1|split; [exact L2|intros []]].
    - destruct (f w i (pl a)) as [ys e']. destruct (nth_error ys j) as [y|].
      + inversion E; subst; clear E. split; [split; [exact L1|split; [cbn; rewrite ?upd_length; exact L2|intros _; apply HK; exact I]]|].
        intros y' _. split; [apply HK; exact I|]. cbn. rewrite nth_upd_same by lia. discriminate.
      + destruct e'; inversion E; subst; clear E; (split; [|discriminate]).
        * split; [cbn; rewrite upd_length; exact L1|split; [cbn; rewrite upd_length; exact L2|intros []]].
        * split; [exact L1|split; [exact L2|intros []]].
        * split; [exact L1|split; [exact L2|intros []]].
        * split; [exact L1|split; [exact L2|exact HK]].
  Qed.

  Lemma held_next (Hw : w < nw) (s : st W) e s' : held s -> next w s e s' -> held s' /\ (forall y, e = Yield y -> held_now s').
  Proof.
    intros HS [n HN]. revert s HS HN. induction n as [|n IH]; intros s HS HN; [discriminate|]. cbn [nextn] in HN.
    destruct (ds_step W w (fst s) (snd s)) as [[o g] e'] eqn:ES. destruct (held_step Hw HS ES) as [H1 H2].
    destruct e' as [y| | |x]; try (injection HN as <- <-; split; [exact H1|]; intros y' Y; try discriminate; apply (H2 _ eq_refl)).
    eapply IH; eauto.
  Qed.

  Lemma held_reach (Hw : w < nw) rst (s : st W) : reach w rst nw s -> held s.
  Proof.
    induction 1 as [|s a s' R IH HN|s s' R IH HN|s sts R IH HL HS|s _ R IH].
    - split; [apply repeat_length|split; [apply repeat_length|intros []]].
    - eapply held_next; eauto.
    - destruct (held_next Hw IH HN) as [(L1 & L2 & _) _]. split; [exact L1|split; [exact L2|intros []]].
    - unfold held. cbn. rewrite !map_length. split; [exact HL|split; [exact HL|intros []]].
    - unfold held. cbn. split; [apply repeat_length|split; [apply repeat_length|intros []]].
  Qed.
End GenOverRandom.

Theorem C68_generator_over_random_refuted {V G} nw (seed : nat -> G) (P : rpipe V G) (f : nat -> nat -> V -> list V * gend) (D : dataset V)
    w rst (s s' : st (wrap (mapgen_ds nw f) (wrap (random_ds nw seed P) D))) y sts :
  let W := wrap (mapgen_ds nw f) (wrap (random_ds nw seed P) D) in
  w < nw -> reach w rst nw s -> next w s (Yield y) s' ->
  length sts = nw -> nth_error sts w = Some (Some (ds_save W w (fst s'))) ->
  emits (D := W) w (ds_restore W (Some (ds_merge W sts)) (ds_init W), ds_iter W) [Raise AssertionError].
Proof.
  cbv zeta. intros Hw R HN HL HS.
  destruct (held_next Hw (held_reach Hw R) HN) as [_ H]. destruct (H _ eq_refl) as [HK HO].
  destruct (nth w (mg_key (w_loc (fst s'))) None) as [key|] eqn:EK; [|congruence].
  destruct (nth w (mg_off (w_loc (fst s'))) None) as [j|] eqn:EO; [|congruence].
  eapply em_raise. eapply next_now; [|discriminate]. cbn [fst snd ds_step wrap]. unfold wrap_step at 1. cbn [ds_iter wrap t_iter mapgen_ds t_act].
  cbn [ds_restore wrap w_loc t_restore mapgen_ds option_map ds_merge fst snd t_merge mg_key mg_off ds_init t_init].
  assert (X : nth_error (map (option_map fst) sts) w = Some (Some (t_save (mapgen_ds nw f) w (w_loc (fst s'))))).
  { etransitivity; [eapply map_nth_error; exact HS|reflexivity]. }
  cbn [t_save mapgen_ds] in X. rewrite EO, EK in X.
  match goal with |- context [nth w (map ?h (map (option_map fst) sts)) None] => rewrite (nth_error_nth (map h _) w None (map_nth_error h w _ X)) end.
  match goal with |- context [nth w (map ?h (map (option_map fst) sts)) None] => rewrite (nth_error_nth (map h _) w None (map_nth_error h w _ X)) end.
  reflexivity.
Qed.
Print Assumptions C68_generator_over_random_refuted.

(** the hypotheses of the last theorem can be met: two samples out of each random sample, after the first of them *)
Example C68_generator_nonvacuous :
  let W := wrap (mapgen_ds 1 (fun w i x => ([x; x + 1], GEnd))) (wrap (random_ds 1 seeds (mkRpipe [RMap (always jitter)] None [])) (stream_ds (fun i => i))) in
  exists (s s' : st W) y, reach 0 false 1 s /\ next 0 s (Yield y) s' /\ pl y = 1.
Proof.
  cbv zeta. eexists _, _, _. split; [apply r_init|]. split; [exists 50; vm_compute; reflexivity|]. reflexivity.
Qed.
