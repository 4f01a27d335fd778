From Coq Require Import String QArith.
From Verif Require Import Base Dataset DatasetProofs WrapSpec Rng RngProofs Multi MultiProofs Blend BlendSpec.
Local Close Scope Q_scope.
Local Open Scope nat_scope.

Section B.
  Context {A : Type} (R : rng_ops) (n : nat) (D : nat -> dataset A) (weight : nat -> Q) (has : nat -> nat -> bool).
  Notation BD := (blend_ds R n D weight has).
  Notation live := (live n has).
  Notation probs := (probs n weight has).
  Notation drawable := (drawable n weight has).

  Definition its_of (g : bl_gen D) : forall i, option (ds_gen (D i)) :=
    match g with BlStart _ => fun _ => None | BlPick its => its | BlPull its _ => its end.
  Definition sub (s : st BD) (i : nat) : st (D i) := (bl_in (fst s) i, running (its_of (snd s) i)).
  Definition at_pick (w : nat) (s : st BD) : Prop :=
    match snd s with BlStart _ => True | BlPick _ => live w <> [] | BlPull _ _ => False end.

  (** one dataset advanced, the others as before *)
  Definition moved (s s' : st BD) (i : nat) (si : st (D i)) : Prop :=
    sub s' i = si /\ forall j, j <> i -> sub s' j = sub s j.

  Lemma pull_step_inv w k i : nth_error (live w) k = Some i -> forall fuel o its e s',
    nextn (D := BD) w fuel (o, BlPull its k) = Some (e, s') ->
    exists e1 si, pull w (bl_in o i, running (its i)) e1 si /\
      match e1 with
      | Yield a => e = Yield (add_idx blend_name k a) /\ bl_rng (fst s') = bl_rng o /\ moved (o, BlPull its k) s' si /\
                   exists its', snd s' = BlPick its'
      | Raise x => e = Raise x
      | _ => False
      end.
  Proof.
    intros Hi. induction fuel as [|fuel IH]; intros o its e s' H; [discriminate|].
    cbn [nextn] in H. cbn [fst snd ds_step blend_ds bl_step] in H. rewrite Hi in H.
    destruct (ds_step (D i) w (bl_in o i) (running (its i))) as [[io ig] ev] eqn:ES.
    destruct ev as [a| | |x].
    - injection H as <- <-. exists (Yield a), (io, ig). split; [apply pull_now; [apply next_now; [exact ES|discriminate]|discriminate]|].
      split; [reflexivity|]. split; [reflexivity|]. split; [|eexists; reflexivity].
      split.
      + unfold sub. cbn [fst snd its_of bl_in]. rewrite !dupd_same. reflexivity.
      + intros j Hj. unfold sub. cbn [fst snd its_of bl_in]. rewrite !dupd_other by auto. reflexivity.
    - specialize (IH _ _ _ _ H). cbn [bl_in bl_rng] in IH. rewrite !dupd_same in IH. cbn [running] in IH.
      destruct IH as (e1 & si & HP & Q). exists e1, si. split.
      + assert (T : forall s e0 s', ds_step (D i) w (fst s) (snd s) = (io, ig, Tau) -> pull w (io, ig) e0 s' -> pull w s e0 s').
        { intros s0 e0 s0' EQ HP0. inversion HP0; subst.
          - apply pull_now; auto. eapply next_tau; eauto.
          - eapply pull_again; [eapply next_tau; eauto|eauto]. }
        eapply T; [exact ES|exact HP].
      + destruct e1 as [a| | |x]; auto. destruct Q as (Q1 & Q2 & (Q3 & Q4) & Q5). repeat split; auto.
        intros j Hj. rewrite Q4 by auto. unfold sub. cbn [fst snd its_of bl_in]. rewrite !dupd_other by auto. reflexivity.
    - specialize (IH _ _ _ _ H). cbn [bl_in bl_rng] in IH. rewrite !dupd_same in IH. cbn [running] in IH.
      destruct IH as (e1 & si & HP & Q). exists e1, si. split.
      + eapply pull_again; [apply next_now; [exact ES|discriminate]|exact HP].
      + destruct e1 as [a| | |x]; auto. destruct Q as (Q1 & Q2 & (Q3 & Q4) & Q5). repeat split; auto.
        intros j Hj. rewrite Q4 by auto. unfold sub. cbn [fst snd its_of bl_in]. rewrite !dupd_other by auto. reflexivity.
    - injection H as <- <-. exists (Raise x), (io, ig). split; [apply pull_now; [apply next_now; [exact ES|discriminate]|discriminate]|reflexivity].
  Qed.

  (** one inner next inside the blend *)
  Lemma pull_next w k i : nth_error (live w) k = Some i -> forall fuel (s0 : st (D i)) e1 si,
    nextn w fuel s0 = Some (e1, si) -> forall o its, s0 = (bl_in o i, running (its i)) ->
    match e1 with
    | Yield a => exists s', next (D := BD) w (o, BlPull its k) (Yield (add_idx blend_name k a)) s'
    | Raise x => exists s', next (D := BD) w (o, BlPull its k) (Raise x) s'
    | Done => exists o' its', (forall e s', next (D := BD) w (o', BlPull its' k) e s' -> next (D := BD) w (o, BlPull its k) e s')
                /\ (bl_in o' i, running (its' i)) = (fst si, ds_iter (D i))
    | Tau => True
    end.
  Proof.
    intros Hi. induction fuel as [|fuel IH]; intros s0 e1 si H o its ->; [discriminate|].
    cbn [nextn fst snd] in H. destruct (ds_step (D i) w (bl_in o i) (running (its i))) as [[io ig] ev] eqn:ES.
    assert (EQ : ds_step BD w o (BlPull its k) = 
      match ev with
      | Yield a => (mkBl (bl_rng o) (dupd (bl_in o) io), BlPick (dupd its (Some ig)), Yield (add_idx blend_name k a))
      | Tau => (mkBl (bl_rng o) (dupd (bl_in o) io), BlPull (dupd its (Some ig)) k, Tau)
      | Done => (mkBl (bl_rng o) (dupd (bl_in o) io), BlPull (@dupd (fun i => option (ds_gen (D i))) its i None) k, Tau)
      | Raise e => (mkBl (bl_rng o) (dupd (bl_in o) io), BlPull its k, Raise e)
      end).
    { cbn [ds_step blend_ds bl_step]. rewrite Hi, ES. destruct ev; reflexivity. }
    destruct ev as [a| | |x]; cbn iota in H.
    - injection H as <- <-. eexists. apply next_now; [exact EQ|discriminate].
    - specialize (IH _ _ _ H (mkBl (bl_rng o) (dupd (bl_in o) io)) (dupd its (Some ig))).
      cbn [bl_in] in IH. rewrite !dupd_same in IH. specialize (IH eq_refl). destruct e1 as [a| | |x]; auto.
      + destruct IH as (s' & N). exists s'. eapply next_tau; [exact EQ|exact N].
      + destruct IH as (o' & its' & T & E). exists o', its'. split; [|exact E]. intros e s' N.
        eapply next_tau; [exact EQ|apply T; exact N].
      + destruct IH as (s' & N). exists s'. eapply next_tau; [exact EQ|exact N].
    - injection H as <- <-. do 2 eexists. split; [intros e s' N; eapply next_tau; [exact EQ|exact N]|].
      cbn [bl_in fst]. rewrite !dupd_same. reflexivity.
    - injection H as <- <-. eexists. apply next_now; [exact EQ|discriminate].
  Qed.

  Lemma pull_fwd w k i : nth_error (live w) k = Some i -> forall s0 e1 (si : st (D i)), pull w s0 e1 si ->
    forall o its, s0 = (bl_in o i, running (its i)) ->
    match e1 with
    | Yield a => exists s', next (D := BD) w (o, BlPull its k) (Yield (add_idx blend_name k a)) s'
    | Raise x => exists s', next (D := BD) w (o, BlPull its k) (Raise x) s'
    | _ => True
    end.
  Proof.
    intros Hi s0 e1 si H. induction H as [s e s' [m N] E|s s1 e s' [m N] _ IH]; intros o its ->.
    - pose proof (pull_next Hi N eq_refl) as Q. destruct e; auto.
    - pose proof (pull_next Hi N eq_refl) as Q. cbn iota in Q. destruct Q as (o' & its' & T & E).
      specialize (IH o' its' (eq_sym E)). destruct e as [a| | |x]; auto.
      + destruct IH as (s2 & N2). eauto.
      + destruct IH as (s2 & N2). eauto.
  Qed.

  (** next() of the blend *)
  Lemma blend_next_inv w s e s' : at_pick w s -> next (D := BD) w s e s' ->
    let '(k, r) := wrng_choice_idx w (probs w) (bl_rng (fst s)) in
    if drawable w then
      match nth_error (live w) k with
      | Some i => exists e1 si, pull w (sub s i) e1 si /\
          match e1 with
          | Yield a => e = Yield (add_idx blend_name k a) /\ bl_rng (fst s') = r /\ moved s s' si /\ at_pick w s'
          | Raise x => e = Raise x
          | _ => False
          end
      | None => e = Raise (match live w with [] => AssertionError | _ => IndexError end)
      end
    else e = Raise (match live w with [] => AssertionError | _ => RuntimeError end).
  Proof.
    intros HA N.
    assert (HB : forall o its, live w <> [] -> next (D := BD) w (o, BlPick its) e s' ->
      let '(k, r) := wrng_choice_idx w (probs w) (bl_rng o) in
      if drawable w then
        match nth_error (live w) k with
        | Some i => exists e1 si, pull w (sub (o, BlPick its) i) e1 si /\
            match e1 with
            | Yield a => e = Yield (add_idx blend_name k a) /\ bl_rng (fst s') = r /\ moved (o, BlPick its) s' si /\ at_pick w s'
            | Raise x => e = Raise x
            | _ => False
            end
        | None => e = Raise (match live w with [] => AssertionError | _ => IndexError end)
        end
      else e = Raise (match live w with [] => AssertionError | _ => RuntimeError end)).
    { intros o its L N1.
      destruct (wrng_choice_idx w (probs w) (bl_rng o)) as [k r] eqn:EC.
      assert (EL : forall x y : exn, match live w with [] => x | _ => y end = y) by (destruct (live w); [congruence|reflexivity]).
      rewrite !EL.
      assert (ES : ds_step BD w o (BlPick its) = if drawable w then (mkBl r (bl_in o), BlPull its k, Tau) else (o, BlPick its, Raise RuntimeError)).
      { cbn [ds_step blend_ds bl_step]. rewrite EC. reflexivity. }
      destruct (drawable w).
      - eapply next_tau_inv in N1; [|exact ES].
        destruct (nth_error (live w) k) as [i|] eqn:Hi.
        + destruct N1 as [m N1]. destruct (pull_step_inv Hi N1) as (e1 & si & HP & Q). exists e1, si. split; [exact HP|].
          destruct e1 as [a| | |x]; auto. destruct Q as (Q1 & Q2 & (Q3 & Q4) & its' & Q5). repeat split; auto.
          unfold at_pick. rewrite Q5. exact L.
        + assert (ES2 : ds_step BD w (mkBl r (bl_in o)) (BlPull its k) = (mkBl r (bl_in o), BlPull its k, Raise IndexError)).
          { cbn [ds_step blend_ds bl_step]. rewrite Hi. reflexivity. }
          pose proof (next_now (D := BD) (s := (mkBl r (bl_in o), BlPull its k)) ES2 ltac:(discriminate)) as N2.
          destruct (next_det N1 N2) as [-> _]. reflexivity.
      - pose proof (next_now (D := BD) (s := (o, BlPick its)) ES ltac:(discriminate)) as N2.
        destruct (next_det N1 N2) as [-> _]. reflexivity. }
    destruct s as [o g]. destruct g as [|its|its k]; cbn [at_pick snd] in HA.
    - destruct (live w) as [|i0 li] eqn:EL.
      + assert (ES : ds_step BD w o (BlStart D) = (o, BlStart D, Raise AssertionError)).
        { cbn [ds_step blend_ds bl_step]. rewrite EL. reflexivity. }
        pose proof (next_now (D := BD) (s := (o, BlStart D)) ES ltac:(discriminate)) as N2.
        destruct (next_det N N2) as [-> _]. cbn [fst]. destruct (wrng_choice_idx w (probs w) (bl_rng o)) as [k r].
        destruct (drawable w); [|reflexivity]. destruct k; reflexivity.
      + assert (ES : ds_step BD w o (BlStart D) = (o, BlPick (fun _ => None), Tau)).
        { cbn [ds_step blend_ds bl_step]. rewrite EL. reflexivity. }
        eapply next_tau_inv in N; [|exact ES]. rewrite <- EL in *.
        apply HB in N; [exact N|rewrite EL; discriminate].
    - apply HB in N; auto.
    - destruct HA.
  Qed.

  Lemma pick_tau w s e s' : at_pick w s -> live w <> [] -> drawable w = true ->
    next (D := BD) w (mkBl (snd (wrng_choice_idx w (probs w) (bl_rng (fst s)))) (bl_in (fst s)),
                      BlPull (its_of (snd s)) (fst (wrng_choice_idx w (probs w) (bl_rng (fst s))))) e s' ->
    next (D := BD) w s e s'.
  Proof.
    intros HA HL HD N.
    assert (HB : forall its, its = its_of (snd s) -> next (D := BD) w (fst s, BlPick its) e s').
    { intros its ->. eapply next_tau; [|exact N]. cbn [fst snd ds_step blend_ds bl_step]. rewrite HD.
      destruct (wrng_choice_idx w (probs w) (bl_rng (fst s))); reflexivity. }
    destruct s as [o g]. destruct g as [|its|its k]; cbn [snd fst] in *.
    - eapply next_tau; [|apply (HB _ eq_refl)]. cbn [fst snd ds_step blend_ds bl_step its_of]. destruct (live w); [congruence|reflexivity].
    - apply HB. reflexivity.
    - destruct HA.
  Qed.

  Lemma blend_next w s : at_pick w s ->
    let '(k, r) := wrng_choice_idx w (probs w) (bl_rng (fst s)) in
    (drawable w = true -> forall i, nth_error (live w) k = Some i -> forall e1 si, pull w (sub s i) e1 si ->
      match e1 with
      | Yield a => exists s', next (D := BD) w s (Yield (add_idx blend_name k a)) s'
      | Raise x => exists s', next (D := BD) w s (Raise x) s'
      | _ => True
      end) /\
    (drawable w = true -> live w <> [] -> nth_error (live w) k = None -> exists s', next (D := BD) w s (Raise IndexError) s') /\
    (live w = [] -> exists s', next (D := BD) w s (Raise AssertionError) s') /\
    (drawable w = false -> live w <> [] -> exists s', next (D := BD) w s (Raise RuntimeError) s').
  Proof.
    intros HA. pose proof (@pick_tau w s) as PT.
    destruct (wrng_choice_idx w (probs w) (bl_rng (fst s))) as [k r] eqn:EC. cbn [fst snd] in PT.
    split; [|split; [|split]].
    - intros HD i Hi e1 si HP. pose proof (@pull_fwd w k i Hi _ _ _ HP (mkBl r (bl_in (fst s))) (its_of (snd s)) eq_refl) as Q.
      assert (HL : live w <> []) by (intros E; rewrite E in Hi; destruct k; discriminate).
      destruct e1 as [a| | |x]; auto.
      + destruct Q as (s' & N). exists s'. auto.
      + destruct Q as (s' & N). exists s'. auto.
    - intros HD HL Hi. eexists. apply PT; auto. apply next_now; [|discriminate].
      cbn [fst snd ds_step blend_ds bl_step]. rewrite Hi. reflexivity.
    - intros HL. destruct s as [o g]. destruct g as [|its|its k']; cbn [at_pick snd] in HA; [|congruence|destruct HA].
      eexists. apply next_now; [|discriminate]. cbn [fst snd ds_step blend_ds bl_step]. rewrite HL. reflexivity.
    - intros HD HL.
      assert (HB : forall o its, exists s', next (D := BD) w (o, BlPick its) (Raise RuntimeError) s').
      { intros o its. eexists. apply next_now; [|discriminate]. cbn [fst snd ds_step blend_ds bl_step]. rewrite HD. reflexivity. }
      destruct s as [o g]. destruct g as [|its|its k']; cbn [at_pick snd] in HA; [|apply HB|destruct HA].
      destruct (HB o (fun _ => None)) as (s' & N). exists s'. eapply next_tau; [|exact N].
      cbn [fst snd ds_step blend_ds bl_step]. destruct (live w); [congruence|reflexivity].
  Qed.

  Lemma live_lt w i : In i (live w) -> i < n.
  Proof. intros H. apply filter_In in H as [H _]. apply in_seq in H. lia. Qed.

  (** two blend states with equivalent generators and datasets *)
  Definition brel (w : nat) (s1 s2 : st BD) : Prop :=
    at_pick w s1 /\ at_pick w s2 /\ geff w (bl_rng (fst s1)) = geff w (bl_rng (fst s2)) /\
    forall i, i < n -> same_stream w (sub s1 i) (sub s2 i).

  Lemma brel_sym w s1 s2 : brel w s1 s2 -> brel w s2 s1.
  Proof. intros (H1 & H2 & H3 & H4). repeat split; auto; intros; apply H4; auto. Qed.

  Lemma brel_fsim w : fsim (D := BD) w (brel w).
  Proof.
    intros s1 s2 (A1 & A2 & G & S) e s1' N.
    pose proof (blend_next_inv A1 N) as I1. pose proof (blend_next A2) as F2.
    destruct (choice_eff (probs w) G) as [C1 C2].
    destruct (wrng_choice_idx w (probs w) (bl_rng (fst s1))) as [k r1].
    destruct (wrng_choice_idx w (probs w) (bl_rng (fst s2))) as [k2 r2] eqn:EC2. cbn [fst snd] in C1, C2. subst k2.
    destruct F2 as (F2a & F2b & F2c & F2d).
    assert (EL : forall x y : exn, live w <> [] -> match live w with [] => x | _ => y end = y) by (intros; destruct (live w); [congruence|reflexivity]).
    assert (DE : live w = [] \/ live w <> []) by (destruct (live w); [left; reflexivity|right; discriminate]).
    destruct (drawable w) eqn:HD.
    - destruct (nth_error (live w) k) as [i|] eqn:Hi.
      + destruct I1 as (e1 & si & HP & Q).
        assert (Li : i < n) by (eapply live_lt, nth_error_In; eauto).
        destruct (pull_same (S i Li) HP) as (si2 & HP2 & Q2).
        specialize (F2a eq_refl i eq_refl _ _ HP2).
        destruct e1 as [a| | |x]; [|destruct Q|destruct Q|].
        * destruct Q as (-> & Hr1 & (M1 & M2) & A1'). destruct F2a as (s2' & N2). exists s2'. split; [exact N2|].
          pose proof (blend_next_inv A2 N2) as I2. rewrite EC2, Hi, HD in I2.
          destruct I2 as (e2 & si2' & HP2' & Q').
          destruct (pull_det HP2 HP2') as [<- <-]. destruct Q' as (_ & Hr2 & (M1' & M2') & A2').
          split; [exact A1'|]. split; [exact A2'|]. split; [rewrite Hr1, Hr2; exact C2|].
          intros j Hj. destruct (Nat.eq_dec j i) as [->|Hne].
          -- rewrite M1, M1'. exact Q2.
          -- rewrite M2, M2' by auto. apply S; auto.
        * subst e. destruct F2a as (s2' & N2). exists s2'. split; [exact N2|exact I].
      + subst e. destruct DE as [HL|HL].
        * rewrite HL. destruct (F2c HL) as (s2' & N2). exists s2'. auto.
        * rewrite EL by auto. destruct (F2b eq_refl HL eq_refl) as (s2' & N2). exists s2'. auto.
    - subst e. destruct DE as [HL|HL].
      + rewrite HL. destruct (F2c HL) as (s2' & N2). exists s2'. auto.
      + rewrite EL by auto. destruct (F2d eq_refl HL) as (s2' & N2). exists s2'. auto.
  Qed.

  Lemma brel_same w s1 s2 : brel w s1 s2 -> same_stream w s1 s2.
  Proof.
    intros H. apply bisim_same_stream with (R := brel w); auto; [apply brel_fsim|].
    intros a b HR e a' N. destruct (brel_fsim (brel_sym HR) N) as (b' & N2 & Q). exists b'. split; [exact N2|].
    destruct e; auto; apply brel_sym; exact Q.
  Qed.

  Lemma blend_never_done w s s' : at_pick w s -> ~ next (D := BD) w s Done s'.
  Proof.
    intros HA N. pose proof (blend_next_inv HA N) as I.
    destruct (wrng_choice_idx w (probs w) (bl_rng (fst s))) as [k r].
    destruct (drawable w); [|discriminate]. destruct (nth_error (live w) k); [|discriminate].
    destruct I as (e1 & si & _ & Q). destruct e1 as [b| | |x]; [|exact Q|exact Q|discriminate]. destruct Q as (Q & _). discriminate.
  Qed.

  (** at the points where it may be saved, the blend is between two draws, and every inner dataset is
      at a point where it may be saved *)
  Lemma blend_reach rst nw w s : reach (D := BD) w rst nw s ->
    at_pick w s /\ forall i, i < n -> reach w rst nw (sub s i).
  Proof.
    intros H. induction H as [|s a s' _ (A1 & I1) N|s s' _ (A1 & _) N|s sts _ (A1 & I1) HL HN|s E _ (A1 & I1)].
    - split; [exact I|]. intros i Hi. apply r_init.
    - pose proof (blend_next_inv A1 N) as Q. destruct (wrng_choice_idx w (probs w) (bl_rng (fst s))) as [k r].
      destruct (drawable w); [|discriminate]. destruct (nth_error (live w) k) as [i|] eqn:Hi; [|discriminate].
      destruct Q as (e1 & si & HP & Q). destruct e1 as [b| | |x]; [|destruct Q|destruct Q|discriminate].
      destruct Q as (_ & _ & (M1 & M2) & A2). split; [exact A2|]. intros j Hj.
      destruct (Nat.eq_dec j i) as [->|Hne].
      + rewrite M1. eapply pull_reach; [apply I1; auto|exact HP].
      + rewrite M2 by auto. apply I1; auto.
    - exfalso. eapply blend_never_done; eauto.
    - split; [exact I|]. intros i Hi. unfold sub.
      apply (@r_restore _ (D i) w rst nw (sub s i) (map (option_map (fun s => snd s i)) sts)); auto.
      + rewrite map_length. exact HL.
      + erewrite map_nth_error by exact HN. reflexivity.
    - split; [exact I|]. intros i Hi. apply (@r_reset _ (D i) w rst nw (sub s i)); auto.
  Qed.

  Lemma blend_resumable rst nw : (forall i, i < n -> resumable (D i) rst nw) -> resumable BD rst nw.
  Proof.
    intros H w s sts W HR HL HN. destruct (blend_reach HR) as [HA HI]. apply brel_same.
    split; [exact HA|]. split; [exact I|]. split.
    - symmetry. apply geff_restore. erewrite map_nth_error by exact HN. reflexivity.
    - intros i Hi. apply (H i Hi w (sub s i)); auto.
      + rewrite map_length. exact HL.
      + erewrite map_nth_error by exact HN. reflexivity.
  Qed.

  Lemma blend_endless rst nw : endless BD rst nw.
  Proof. intros w s s' W HR N. destruct (blend_reach HR) as [HA _]. eapply blend_never_done; eauto. Qed.

  (** if every dataset has samples for every worker, the index in the key is right *)
  Lemma live_all w : (forall i, i < n -> has i w = true) -> live w = seq 0 n.
  Proof.
    intros H. unfold Blend.live. assert (Q : forall m a, a + m <= n -> filter (fun i => has i w) (seq a m) = seq a m).
    { induction m as [|m IH]; intros a Ha; cbn; [reflexivity|]. rewrite H by lia. f_equal. apply IH. lia. }
    apply Q. lia.
  Qed.

  Lemma blend_restorable rst nw : (forall i w, i < n -> w < nw -> has i w = true) ->
    (forall i, i < n -> restorable (D i) rst nw) -> restorable BD rst nw.
  Proof.
    intros HH H w s a s' W HR N. destruct (blend_reach HR) as [HA HI].
    pose proof (blend_next_inv HA N) as Q. destruct (wrng_choice_idx w (probs w) (bl_rng (fst s))) as [k r].
    destruct (drawable w); [|discriminate]. destruct (nth_error (live w) k) as [i|] eqn:Hi; [|discriminate].
    destruct Q as (e1 & si & HP & Q). destruct e1 as [b| | |x]; [|destruct Q|destruct Q|discriminate].
    destruct Q as (Q & _). injection Q as ->. rewrite live_all in Hi by auto.
    assert (Li : i < n) by (apply nth_error_In, in_seq in Hi; lia).
    assert (i = k) as ->.
    { pose proof (nth_error_nth _ _ 0 Hi) as E. assert (k < length (seq 0 n)) by (apply nth_error_Some; rewrite Hi; discriminate).
      rewrite seq_length in *. rewrite seq_nth in E by auto. cbn in E. auto. }
    cbn [ds_restore_sample blend_ds add_idx rk blend_name]. cbn [String.eqb Ascii.eqb Bool.eqb].
    apply Nat.ltb_lt in Li as Li'. rewrite Li'.
    rewrite (@pull_restorable _ (D k) w nw rst _ _ _ (H k Li) W (HI k Li) HP). reflexivity.
  Qed.

  (** the index drawn has a positive weight *)
  Lemma blend_positive w (r : wrng R) : rng_ok R -> (forall i, i < n -> (0 <= weight i)%Q) ->
    existsb (fun i => negb (Qle_bool (weight i) 0)) (live w) = true ->
    exists i, nth_error (live w) (fst (wrng_choice_idx w (probs w) r)) = Some i /\ (0 < weight i)%Q.
  Proof.
    intros OK HN HE. apply existsb_exists in HE as (i0 & I0 & P0). apply Bool.negb_true_iff in P0.
    assert (P : (0 < weight i0)%Q).
    { apply Qnot_le_lt. intros C. apply Qle_bool_iff in C. congruence. }
    assert (SN : forall l, (forall i, In i l -> (0 <= weight i)%Q) -> (0 <= qsum (map weight l))%Q /\ (In i0 l -> (0 < qsum (map weight l))%Q)).
    { induction l as [|i l IH]; intros Hl; cbn [map qsum fold_right]; [split; [apply Qle_refl|intros []]|].
      destruct (IH (fun j Hj => Hl j (or_intror Hj))) as [I1 I2]. fold (qsum (map weight l)). split.
      - apply (Qplus_le_compat 0 _ 0); [apply Hl; left; reflexivity|exact I1].
      - intros [->|Hi].
        + setoid_replace 0%Q with (0 + 0)%Q by reflexivity. apply Qplus_lt_le_compat; auto.
        + setoid_replace 0%Q with (0 + 0)%Q by reflexivity. rewrite (Qplus_comm (weight i)). apply Qplus_lt_le_compat; auto. apply Hl. left; reflexivity. }
    assert (HNL : forall i, In i (live w) -> (0 <= weight i)%Q) by (intros i Hi; apply HN; eapply live_lt; eauto).
    destruct (SN (live w) HNL) as [_ SP]. specialize (SP I0).
    destruct (@choice_ok R OK w (probs w) r) as (p & Hp & Pp).
    - exists (weight i0 / qsum (map weight (live w)))%Q. split.
      + unfold Blend.probs. apply in_map_iff. exists (weight i0). split; [reflexivity|]. apply in_map. exact I0.
      + unfold Qdiv. apply Qmult_lt_0_compat; [exact P|]. apply Qinv_lt_0_compat. exact SP.
    - intros p Hp. unfold Blend.probs in Hp. apply in_map_iff in Hp as (x & <- & Hx). apply in_map_iff in Hx as (j & <- & Hj).
      unfold Qdiv. apply Qmult_le_0_compat; [auto|]. apply Qinv_le_0_compat. apply Qlt_le_weak. exact SP.
    - unfold Blend.probs in Hp. rewrite map_map, nth_error_map in Hp.
      destruct (nth_error (live w) (fst (wrng_choice_idx w (map (fun x => (x / qsum (map weight (live w)))%Q) (map weight (live w))) r))) as [i|] eqn:Hi; [|].
      + exists i. unfold Blend.probs. split; [exact Hi|].
        assert (E : nth_error (live w) (fst (wrng_choice_idx w (map (fun x => (weight x / qsum (map weight (live w)))%Q) (live w)) r)) = Some i).
        { rewrite map_map in Hi. exact Hi. }
        rewrite E in Hp. cbn in Hp. injection Hp as <-.
        destruct (Qlt_le_dec 0 (weight i)) as [G|G]; [exact G|]. exfalso.
        assert (weight i == 0)%Q as Z by (apply Qle_antisym; [exact G|apply HNL; eapply nth_error_In; eauto]).
        unfold Qdiv in Pp. rewrite Z in Pp. rewrite Qmult_0_l in Pp. discriminate.
      + rewrite map_map in Hi. rewrite Hi in Hp. discriminate.
  Qed.

  (** ** what it yields *)
  Lemma some_pos w i : in_use n has w i -> (0 < weight i)%Q -> existsb (fun i => negb (Qle_bool (weight i) 0)) (live w) = true.
  Proof.
    intros [H1 H2] H3. apply existsb_exists. exists i. split; [apply filter_In; split; [apply in_seq; lia|exact H2]|].
    apply Bool.negb_true_iff. destruct (Qle_bool (weight i) 0) eqn:E; [|reflexivity].
    apply Qle_bool_iff in E. exfalso. apply (Qlt_not_le _ _ H3 E).
  Qed.

  Definition positive_weights (w : nat) : Prop :=
    (forall i, i < n -> (0 <= weight i)%Q) /\ exists i, in_use n has w i /\ (0 < weight i)%Q.

  Lemma blend_trace_from w l : forall s, at_pick w s -> emits (D := BD) w s l -> clean l ->
    exists ys, Forall2 (drawn n has w) ys l /\
      (rng_ok R -> positive_weights w -> Forall (fun y => (0 < weight (fst y))%Q) ys) /\
      (forall i, i < n -> exists li, emits w (sub s i) li /\ clean li /\ samples li = of_ds i ys).
  Proof.
    induction l as [|e l IH]; intros s HA HE HC.
    - exists []. split; [constructor|]. split; [constructor|]. intros i Hi. exists []. repeat split; constructor.
    - inversion HC as [|? ? He HC']; subst. inversion HE as [|? a s1 ? N E1|? s1 ? N E1|? x s1 N]; subst.
      + pose proof (blend_next_inv HA N) as Q.
        assert (PO := fun OK HN => @blend_positive w (bl_rng (fst s)) OK HN).
        destruct (wrng_choice_idx w (probs w) (bl_rng (fst s))) as [k r].
        destruct (drawable w); [|discriminate]. destruct (nth_error (live w) k) as [i|] eqn:Hi; [|discriminate].
        destruct Q as (e1 & si & HP & Q). destruct e1 as [b| | |x]; [|destruct Q|destruct Q|discriminate].
        destruct Q as (Q & _ & (M1 & M2) & A2). injection Q as ->.
        destruct (IH s1 A2 E1 HC') as (ys & F & PW & G). exists ((i, b) :: ys). split; [|split].
        * constructor; [|exact F]. exists k. auto.
        * intros OK HW. constructor; [|apply PW; auto]. destruct HW as (HN & i0 & I0 & P0).
          destruct (PO OK HN (some_pos I0 P0)) as (i1 & Hi1 & P1). cbn [fst] in Hi1. rewrite Hi in Hi1. injection Hi1 as <-. exact P1.
        * intros j Hj. destruct (G j Hj) as (lj & Ej & Cj & Sj). unfold of_ds. cbn [filter fst].
          destruct (i =? j) eqn:Ei.
          -- apply Nat.eqb_eq in Ei as <-. rewrite M1 in Ej. destruct (pull_emits HP Ej) as (m & Em).
             exists (repeat Done m ++ Yield b :: lj). split; [exact Em|]. split.
             ++ apply Forall_app. split; [|constructor; auto]. apply Forall_forall. intros x Hx. apply repeat_spec in Hx as ->. exact I.
             ++ cbn [map snd]. clear - Sj. induction m as [|m IHm]; cbn; [f_equal; exact Sj|exact IHm].
          -- apply Nat.eqb_neq in Ei. rewrite M2 in Ej by auto. exists lj. auto.
      + exfalso. eapply blend_never_done; eauto.
      + destruct He.
  Qed.

  (** an exception comes from one of the datasets *)
  Lemma blend_raise_from w l x : rng_ok R -> positive_weights w -> forall s, at_pick w s -> emits (D := BD) w s (l ++ [Raise x]) ->
    exists i li, in_use n has w i /\ emits w (sub s i) (li ++ [Raise x]).
  Proof.
    intros OK HW. induction l as [|e l IH]; intros s HA HE; cbn [app] in HE.
    - apply emits_raise_inv in HE as (s' & N & _). pose proof (blend_next_inv HA N) as Q. destruct HW as (HN & i0 & I0 & P0).
      destruct (@blend_positive w (bl_rng (fst s)) OK HN (some_pos I0 P0)) as (i1 & Hi1 & P1).
      assert (DR : drawable w = true) by (unfold Blend.drawable; rewrite (some_pos I0 P0); apply Bool.orb_true_r).
      destruct (wrng_choice_idx w (probs w) (bl_rng (fst s))) as [k r]. cbn [fst] in Hi1. rewrite DR, Hi1 in Q.
      destruct Q as (e1 & si & HP & Q). destruct e1 as [b| | |y]; [|destruct Q|destruct Q|].
      { destruct Q as (Q & _). discriminate. }
      injection Q as <-. exists i1.
      assert (U : in_use n has w i1) by (apply nth_error_In, filter_In in Hi1 as [H1 H2]; apply in_seq in H1; split; [lia|exact H2]).
      assert (K : exists li, emits w (sub s i1) (li ++ [Raise x])).
      { clear - HP. remember (Raise x) as e. induction HP as [s0 e s1 N E|s0 s1 e s2 N _ IH]; subst.
        - exists []. eapply em_raise; eauto.
        - destruct (IH eq_refl) as (li & E). exists (Done :: li). cbn. eapply em_done; eauto. }
      destruct K as (li & E). exists li. auto.
    - inversion HE as [|? a s1 ? N E1|? s1 ? N E1|? x' s1 N]; subst.
      + pose proof (blend_next_inv HA N) as Q. destruct (wrng_choice_idx w (probs w) (bl_rng (fst s))) as [k r].
        destruct (drawable w); [|discriminate]. destruct (nth_error (live w) k) as [i|] eqn:Hi; [|discriminate].
        destruct Q as (e1 & si & HP & Q). destruct e1 as [b| | |y]; [|destruct Q|destruct Q|discriminate].
        destruct Q as (Q & _ & (M1 & M2) & A2). injection Q as ->.
        destruct (IH s1 A2 E1) as (j & lj & U & Ej). exists j.
        destruct (Nat.eq_dec j i) as [->|Hne].
        * rewrite M1 in Ej. destruct (pull_emits HP Ej) as (m & Em). exists (repeat Done m ++ Yield b :: lj). split; [exact U|].
          rewrite <- app_assoc. exact Em.
        * rewrite M2 in Ej by auto. eauto.
      + exfalso. eapply blend_never_done; eauto.
      + destruct l; discriminate.
  Qed.

  (** as long as the drawable datasets deliver, the blend delivers *)
  Lemma blend_lively w : rng_ok R -> positive_weights w -> forall k s, at_pick w s ->
    (forall i, in_use n has w i -> (0 < weight i)%Q -> lively w (sub s i)) ->
    exists l, emits (D := BD) w s (map Yield l) /\ length l = k.
  Proof.
    intros OK HW. induction k as [|k IH]; intros s HA HL; [exists []; split; [constructor|reflexivity]|].
    destruct HW as (HN & i0 & I0 & P0).
    destruct (@blend_positive w (bl_rng (fst s)) OK HN (some_pos I0 P0)) as (i1 & Hi1 & P1).
    assert (DR : drawable w = true) by (unfold Blend.drawable; rewrite (some_pos I0 P0); apply Bool.orb_true_r).
    assert (U : in_use n has w i1) by (pose proof (nth_error_In _ _ Hi1) as H0; apply filter_In in H0 as [H1 H2]; apply in_seq in H1; split; [lia|exact H2]).
    destruct (lively_pull (HL i1 U P1)) as (a & si & HP & LS).
    pose proof (blend_next HA) as F. pose proof (fun e s' N => @blend_next_inv w s e s' HA N) as G.
    destruct (wrng_choice_idx w (probs w) (bl_rng (fst s))) as [j r]. cbn [fst] in Hi1.
    destruct F as (F & _). specialize (F DR i1 Hi1 _ _ HP). cbn iota in F. destruct F as (s' & N).
    specialize (G _ _ N). rewrite DR, Hi1 in G. destruct G as (e1 & si' & HP' & Q).
    destruct (pull_det HP HP') as [<- <-]. destruct Q as (_ & _ & (M1 & M2) & A2).
    destruct (IH s' A2) as (l & El & Ll).
    { intros i Ui Pi. destruct (Nat.eq_dec i i1) as [->|Hne]; [rewrite M1; exact LS|rewrite M2 by auto; apply HL; auto]. }
    exists (add_idx blend_name j a :: l). split; [cbn; eapply em_yield; eauto|cbn; lia].
  Qed.
End B.
