(** Which datasets are brought back to their beginning by restore_state(None): used by LimitDataset with
    reset_after_epoch (validation). *)
From Coq Require Import QArith.
From Verif Require Import Base Dataset DatasetProofs Wrap WrapProofs WrapSpec Multi MultiProofs Concat ConcatProofs
  Rng Sharder SampleLoader Wrappers MapModel Batch.
Local Close Scope Q_scope.
Local Close Scope Z_scope.
Local Open Scope nat_scope.

(** a wrapper in equal local states over inner datasets with the same stream *)
Section WrapReset.
  Context {A B : Type} (T : trans A B) (D : dataset A) (nw : nat) (ne nr : bool).

  Lemma local_ok_sim rs w rst Q Y Dn Inv Sav : local_ok (T := T) rs w nw rst Q Y Dn Inv Sav ->
    local_sim (T := T) rs w Q (fun b l1 l2 => l1 = l2 /\ Inv b l1).
  Proof.
    intros LO b l1 l2 [<- HI]. exists l1, l1. split; [constructor|]. split; [constructor|].
    destruct (act rs w l1) as [o g e|k|o g] eqn:E; cbn [amatch].
    - pose proof (lo_local LO HI E) as P. unfold post in P. unfold ematch. destruct e as [a| | |x]; auto.
      + destruct P as [_ P]. split; [reflexivity|]. split; [reflexivity|]. apply (lo_sav LO P).
      + destruct P as (_ & P1 & P2). split; [exact P1|]. split; [reflexivity|]. apply (lo_sav LO P2).
    - intros r Hr. pose proof (lo_pull LO HI E Hr) as P. unfold post in P. unfold ematch.
      destruct (k r) as [[o g] e]. destruct e as [a| | |x]; auto.
      + destruct P as [_ P]. split; [reflexivity|]. split; [reflexivity|]. apply (lo_sav LO P).
      + destruct P as (_ & P1 & P2). split; [exact P1|]. split; [reflexivity|]. apply (lo_sav LO P2).
    - split; [reflexivity|]. exact (lo_reset LO HI E).
  Qed.

  Lemma wrap_resettable Y Dn : t_keep T = false -> no_reset T ->
    (forall o, t_restore T None o = t_init T) ->
    (nr = true -> restorable D true nw) -> (ne = true -> endless D true nw) ->
    local_yields T true nw ne nr Y Dn -> resettable D true nw -> resettable (wrap T D) true nw.
  Proof.
    intros HK HN HT Hnr Hne LY HR w s Hw Rs.
    destruct (LY w (ds_restore_sample D w) Hw) as (Inv & Sav & LO).
    assert (HQy : forall s a s', reach w true nw s -> next (D := D) w s (Yield a) s' -> Qof ne nr (ds_restore_sample D w) (Some a))
      by (intros s0 a s' R0 N0 E0; eapply (Hnr E0); eauto).
    assert (HQd : forall s s', reach w true nw s -> next (D := D) w s Done s' -> Qof ne nr (ds_restore_sample D w) None).
    { intros s0 s' R0 N0. cbn. destruct ne; [|reflexivity]. exfalso. eapply (Hne eq_refl); eauto. }
    assert (HRs : (forall l o g, act (T := T) (ds_restore_sample D w) w l <> Reset o g) \/ true = true) by auto.
    assert (HO : true = true -> true = true /\ t_keep T = false) by auto.
    pose proof (@good_reach _ _ T D w nw true true _ HQy HQd HRs HO _ _ Inv Sav LO s Rs) as (b & HI & HE & _).
    eapply (@R_same_stream _ _ T D w nw true true (Qof ne nr (ds_restore_sample D w)) HQy HQd HRs HO).
    - exact (local_ok_sim LO).
    - left. intros l o g. apply HN.
    - exists true. unfold loc, eff. cbn [wrap ds_restore ds_init ds_iter fst snd w_loc w_in w_it cur_it option_map].
      rewrite HT, HK. cbn [cur_it]. split; [split; [reflexivity|]; apply (lo_sav LO (lo_init LO))|].
      split; [exact (HR w (eff s) Hw HE)|]. split; [exact (r_reset (s := eff s) eq_refl HE)|]. split; [apply r_init|auto].
  Qed.
End WrapReset.

(** ConcatDataset *)
Lemma concat_resettable {A} n (D : nat -> dataset A) nw :
  (forall i, i < n -> resettable (D i) true nw) -> resettable (concat_ds n D) true nw.
Proof.
  intros H w s Hw Rs. apply crel_same. split; [reflexivity|]. intros i Hi. rewrite !csub_iter.
  exact (H i Hi w (csub s i) Hw (concat_reach Rs Hi)).
Qed.

(** the sample loader of a validation dataset (no shuffling, no looping) never uses its random generator *)
Lemma loader_resettable {X} R shards (content : shseq -> list (sample X)) par loop rs rst nw :
  resettable (loader_ds R shards content par NoShuffle loop rs) rst nw.
Proof.
  set (D := loader_ds R shards content par NoShuffle loop rs).
  intros w s _ _.
  set (Rel := fun s1 s2 : st D => so_slots (fst s1) = so_slots (fst s2) /\ snd s1 = snd s2).
  assert (F : forall s1 s2, Rel s1 s2 -> Rel (fst (ds_step D w (fst s1) (snd s1))) (fst (ds_step D w (fst s2) (snd s2))) /\
    snd (ds_step D w (fst s1) (snd s1)) = snd (ds_step D w (fst s2) (snd s2))).
  { intros [[r1 sl1] g1] [[r2 sl2] g2] [E1 E2]. cbn [fst snd so_slots] in *. subst sl2 g2. unfold Rel.
    cbn [D loader_ds ds_step]. unfold slot_at. cbn [so_slots so_rng].
    destruct g1 as [| |probs].
    - destruct (sl_bad _); [auto|]. destruct (worker_shards shards w); auto.
    - unfold sl_head, shards_once. destruct (_ || _); [destruct (_ =? par); auto|auto].
    - unfold sl_loop. destruct (forallb _ probs); [auto|]. destruct (negb (par =? 1)); [auto|].
      destruct (nth_error (sl_act _) 0) as [[[sh k]|]|]; auto.
      destruct (nth_error (content sh) k); auto. destruct (sl_pend _); auto. }
  assert (FS : fsim (D := D) w Rel).
  { intros s1 s2 HRel e s1' [n N]. revert s1 s2 HRel N. induction n as [|n IH]; intros s1 s2 HRel N; [discriminate|].
    cbn [nextn] in N. destruct (F s1 s2 HRel) as [F1 F2].
    destruct (ds_step D w (fst s1) (snd s1)) as [[o1 g1] e1] eqn:E1.
    destruct (ds_step D w (fst s2) (snd s2)) as [[o2 g2] e2] eqn:E2. cbn [fst snd] in F1, F2. subst e2.
    destruct e1 as [a| | |x].
    - injection N as <- <-. exists (o2, g2). split; [apply next_now; [exact E2|discriminate]|exact F1].
    - destruct (IH _ _ F1 N) as (s2' & N2 & Q). exists s2'. split; [eapply next_tau; eauto|exact Q].
    - injection N as <- <-. exists (o2, g2). split; [apply next_now; [exact E2|discriminate]|].
      destruct F1 as [F1 _]. split; [exact F1|reflexivity].
    - injection N as <- <-. exists (o2, g2). split; [apply next_now; [exact E2|discriminate]|]. exact I. }
  apply bisim_same_stream with (R := Rel).
  - exact FS.
  - intros s1 s2 H e s1' N. unfold flip_rel in *. assert (H' : Rel s1 s2) by (destruct H; split; auto).
    destruct (FS _ _ H' _ _ N) as (s2' & N2 & Q). exists s2'. split; [exact N2|]. destruct e; auto; destruct Q; split; auto.
  - split; reflexivity.
Qed.
