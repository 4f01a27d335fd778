From Coq Require Import String.
From Verif Require Import Base Dataset DatasetProofs WrapSpec Multi MultiProofs Concat.
Local Open Scope list_scope.
Local Open Scope nat_scope.

Section C.
  Context {A : Type} (n : nat) (D : nat -> dataset A).
  Notation CD := (concat_ds n D).

  Definition cpos (s : st CD) : nat := match snd s with @CcAt _ _ i _ => i end.
  Definition csub (s : st CD) (j : nat) : st (D j) :=
    (fst s j, match snd s with
              | @CcAt _ _ i it => running (@dupd (fun j => option (ds_gen (D j))) (fun _ => None) i it j)
              end).

  Lemma od_same (o : ds_obj CD) i io : @dupd (fun i => ds_obj (D i)) o i io i = io.
  Proof. apply (@dupd_same (fun i => ds_obj (D i))). Qed.
  Lemma od_other (o : ds_obj CD) i io j : i <> j -> @dupd (fun i => ds_obj (D i)) o i io j = o j.
  Proof. apply (@dupd_other (fun i => ds_obj (D i))). Qed.

  Lemma csub_at (o : ds_obj CD) i it : csub (o, @CcAt _ D i it) i = (o i, running it).
  Proof. unfold csub. cbn [fst snd]. rewrite dupd_same. reflexivity. Qed.
  Lemma csub_other (o : ds_obj CD) i it j : j <> i -> csub (o, @CcAt _ D i it) j = (o j, ds_iter (D j)).
  Proof. intros H. unfold csub. cbn [fst snd]. rewrite dupd_other by auto. reflexivity. Qed.

  (** one step of the concatenation over one next of the current dataset *)
  Lemma at_next w i : i < n -> forall fuel (s0 : st (D i)) e si, nextn w fuel s0 = Some (e, si) ->
    forall (o : ds_obj CD) it, s0 = (o i, running it) ->
    exists o', o' i = fst si /\ (forall j, j <> i -> o' j = o j) /\
    match e with
    | Yield a => exists g', snd si = g' /\ next (D := CD) w (o, @CcAt _ D i it) (Yield (add_idx concat_name i a)) (o', @CcAt _ D i (Some g'))
    | Done => forall e' s', next (D := CD) w (o', @CcAt _ D (S i) None) e' s' -> next (D := CD) w (o, @CcAt _ D i it) e' s'
    | Raise x => exists s', next (D := CD) w (o, @CcAt _ D i it) (Raise x) s'
    | Tau => True
    end.
  Proof.
    intros Hi. apply Nat.ltb_lt in Hi. induction fuel as [|fuel IH]; intros s0 e si H o it ->; [discriminate|].
    cbn [nextn fst snd] in H. destruct (ds_step (D i) w (o i) (running it)) as [[io ig] ev] eqn:ES.
    assert (EQ : ds_step CD w o (@CcAt _ D i it) =
      match ev with
      | Yield a => (dupd o io, @CcAt _ D i (Some ig), Yield (add_idx concat_name i a))
      | Tau => (dupd o io, @CcAt _ D i (Some ig), Tau)
      | Done => (dupd o io, @CcAt _ D (S i) None, Tau)
      | Raise e => (dupd o io, @CcAt _ D i it, Raise e)
      end).
    { cbn [ds_step concat_ds cc_step]. rewrite Hi, ES. destruct ev; reflexivity. }
    destruct ev as [a| | |x]; cbn iota in H.
    - injection H as <- <-. exists (dupd o io). split; [apply od_same|]. split; [intros j Hj; apply od_other; auto|].
      exists ig. split; [reflexivity|]. apply next_now; [exact EQ|discriminate].
    - destruct (IH _ _ _ H (dupd o io) (Some ig)) as (o' & H1 & H2 & H3); [rewrite dupd_same; reflexivity|].
      exists o'. split; [exact H1|]. split; [intros j Hj; rewrite H2 by auto; apply od_other; auto|].
      destruct e as [a| | |x]; auto.
      + destruct H3 as (g' & G & N). exists g'. split; [exact G|]. eapply next_tau; [exact EQ|exact N].
      + intros e' s' N. eapply next_tau; [exact EQ|apply H3; exact N].
      + destruct H3 as (s' & N). exists s'. eapply next_tau; [exact EQ|exact N].
    - injection H as <- <-. exists (dupd o io). split; [apply od_same|]. split; [intros j Hj; apply od_other; auto|].
      intros e' s' N. eapply next_tau; [exact EQ|exact N].
    - injection H as <- <-. exists (dupd o io). split; [apply od_same|]. split; [intros j Hj; apply od_other; auto|].
      eexists. apply next_now; [exact EQ|discriminate].
  Qed.

  Lemma at_end w i (o : ds_obj CD) it : n <= i -> next (D := CD) w (o, @CcAt _ D i it) Done (o, @CcAt _ D i it).
  Proof.
    intros H. apply next_now; [|discriminate]. cbn [fst snd ds_step concat_ds cc_step].
    destruct (i <? n) eqn:E; [apply Nat.ltb_lt in E; lia|reflexivity].
  Qed.

  (** next() of the concatenation: the current dataset's, unless it ends *)
  Inductive cnext (w : nat) : st CD -> event (sample A) -> st CD -> Prop :=
  | cn_yield (o : ds_obj CD) i it a si o' : i < n -> next w (o i, running it) (Yield a) si ->
      o' i = fst si -> (forall j, j <> i -> o' j = o j) ->
      cnext w (o, @CcAt _ D i it) (Yield (add_idx concat_name i a)) (o', @CcAt _ D i (Some (snd si)))
  | cn_raise (o : ds_obj CD) i it x si s' : i < n -> next w (o i, running it) (Raise x) si ->
      cnext w (o, @CcAt _ D i it) (Raise x) s'
  | cn_skip (o : ds_obj CD) i it si o' e s' : i < n -> next w (o i, running it) Done si ->
      o' i = fst si -> (forall j, j <> i -> o' j = o j) -> cnext w (o', @CcAt _ D (S i) None) e s' ->
      cnext w (o, @CcAt _ D i it) e s'
  | cn_end (o : ds_obj CD) i it : n <= i -> cnext w (o, @CcAt _ D i it) Done (o, @CcAt _ D i it).

  Lemma cnext_tau w (s0 : st CD) e s1 : cnext w s0 e s1 -> forall (o : ds_obj CD) i it io ig,
    s0 = (@dupd (fun i => ds_obj (D i)) o i io, @CcAt _ D i (Some ig)) -> i < n ->
    ds_step (D i) w (o i) (running it) = (io, ig, Tau) -> cnext w (o, @CcAt _ D i it) e s1.
  Proof.
    intros H o i it io ig E0 Hi ES.
    assert (T : forall e si, next (D := D i) w (io, ig) e si -> next w (o i, running it) e si)
      by (intros e0 si0 N0; eapply next_tau; [exact ES|exact N0]).
    destruct H as [o1 i1 it1 a si o' H1 N H2 H3|o1 i1 it1 x si s' H1 N|o1 i1 it1 si o' e s' H1 N H2 H3 H4|o1 i1 it1 H1].
    * pose proof (f_equal fst E0) as Eo. apply (f_equal snd) in E0. cbn [fst snd] in E0, Eo. subst o1.
      assert (Ei : i1 = i) by exact (f_equal (fun g => match g with @CcAt _ _ i _ => i end) E0). subst i1.
      assert (Eit : it1 = Some ig) by (injection E0 as E0; apply (Eqdep_dec.inj_pair2_eq_dec _ nat_dec) in E0; exact E0). subst it1.
      rewrite dupd_same in N. cbn [running] in N.
      apply (@cn_yield w o i it a si o'); auto. intros j Hj. rewrite H3 by auto. apply od_other; auto.
    * pose proof (f_equal fst E0) as Eo. apply (f_equal snd) in E0. cbn [fst snd] in E0, Eo. subst o1.
      assert (Ei : i1 = i) by exact (f_equal (fun g => match g with @CcAt _ _ i _ => i end) E0). subst i1.
      assert (Eit : it1 = Some ig) by (injection E0 as E0; apply (Eqdep_dec.inj_pair2_eq_dec _ nat_dec) in E0; exact E0). subst it1.
      rewrite dupd_same in N. cbn [running] in N. eapply cn_raise; eauto.
    * pose proof (f_equal fst E0) as Eo. apply (f_equal snd) in E0. cbn [fst snd] in E0, Eo. subst o1.
      assert (Ei : i1 = i) by exact (f_equal (fun g => match g with @CcAt _ _ i _ => i end) E0). subst i1.
      assert (Eit : it1 = Some ig) by (injection E0 as E0; apply (Eqdep_dec.inj_pair2_eq_dec _ nat_dec) in E0; exact E0). subst it1.
      rewrite dupd_same in N. cbn [running] in N.
      apply (@cn_skip w o i it si o'); auto. intros j Hj. rewrite H3 by auto. apply od_other; auto.
    * exfalso. apply (f_equal snd) in E0. cbn [snd] in E0. assert (Ei : i1 = i) by exact (f_equal (fun g => match g with @CcAt _ _ i _ => i end) E0). lia.
  Qed.

  Lemma next_cnext w : forall fuel s e s', nextn (D := CD) w fuel s = Some (e, s') -> cnext w s e s'.
  Proof.
    induction fuel as [|fuel IH]; intros s e s' H; [discriminate|]. destruct s as [o [i it]].
    cbn [nextn fst snd ds_step concat_ds cc_step] in H. destruct (i <? n) eqn:Hi.
    - apply Nat.ltb_lt in Hi. destruct (ds_step (D i) w (o i) (running it)) as [[io ig] ev] eqn:ES.
      destruct ev as [a| | |x]; cbn iota in H.
      + injection H as <- <-. apply (@cn_yield w o i it a (io, ig) (dupd o io)); auto.
        * apply next_now; [exact ES|discriminate].
        * apply od_same.
        * intros j Hj. apply od_other; auto.
      + apply IH in H. eapply cnext_tau; eauto.
      + apply IH in H. apply (@cn_skip w o i it (io, ig) (dupd o io)); auto.
        * apply next_now; [exact ES|discriminate].
        * apply od_same.
        * intros j Hj. apply od_other; auto.
      + injection H as <- <-. eapply cn_raise; eauto. apply next_now; [exact ES|discriminate].
    - apply Nat.ltb_ge in Hi. injection H as <- <-. apply cn_end. exact Hi.
  Qed.

  Lemma concat_next_inv w s e s' : next (D := CD) w s e s' -> cnext w s e s'.
  Proof. intros [m N]. eapply next_cnext; eauto. Qed.

  (** states that behave alike *)
  Definition crel (w : nat) (s1 s2 : st CD) : Prop :=
    cpos s1 = cpos s2 /\ forall i, i < n -> same_stream w (csub s1 i) (csub s2 i).
  Lemma crel_sym w s1 s2 : crel w s1 s2 -> crel w s2 s1.
  Proof. intros [H1 H2]. split; [auto|]. intros i Hi. apply same_stream_sym. auto. Qed.

  Lemma crel_fsim w : fsim (D := CD) w (crel w).
  Proof.
    intros s1 s2 HR e s1' N. apply concat_next_inv in N. revert s2 HR.
    induction N as [o i it a si o' Hi N E1 E2|o i it x si s' Hi N|o i it si o' e s' Hi N E1 E2 _ IH|o i it Hi]; intros [p [j jt]] [HP HS];
      unfold cpos in HP; cbn [snd] in HP; subst j.
    - pose proof (HS i Hi) as Si. rewrite !csub_at in Si. destruct (same_stream_fsim Si N) as (s2 & [m N2] & Q).
      destruct (@at_next w i Hi m _ _ _ N2 p jt eq_refl) as (p' & P1 & P2 & g' & G & N3).
      eexists. split; [exact N3|]. split; [reflexivity|]. intros k Hk. destruct (Nat.eq_dec k i) as [->|Hne].
      + rewrite !csub_at. cbn [running]. rewrite E1, P1, <- G. rewrite <- !surjective_pairing. exact Q.
      + rewrite !csub_other by auto. rewrite E2, P2 by auto. specialize (HS k Hk). rewrite !csub_other in HS by auto. exact HS.
    - pose proof (HS i Hi) as Si. rewrite !csub_at in Si. destruct (same_stream_fsim Si N) as (s2 & [m N2] & _).
      destruct (@at_next w i Hi m _ _ _ N2 p jt eq_refl) as (p' & P1 & P2 & s3 & N3). exists s3. auto.
    - pose proof (HS i Hi) as Si. rewrite !csub_at in Si. destruct (same_stream_fsim Si N) as (s2 & [m N2] & Q).
      destruct (@at_next w i Hi m _ _ _ N2 p jt eq_refl) as (p' & P1 & P2 & T).
      destruct (IH (p', @CcAt _ D (S i) None)) as (s3 & N3 & Q3).
      { split; [reflexivity|]. intros k Hk.
        assert (K : forall (q : ds_obj CD), csub (q, @CcAt _ D (S i) None) k = (q k, ds_iter (D k))).
        { intros q. destruct (Nat.eq_dec k (S i)) as [->|Hne]; [rewrite csub_at; reflexivity|rewrite csub_other by auto; reflexivity]. }
        rewrite !K. destruct (Nat.eq_dec k i) as [->|Hne].
        - rewrite E1, P1. exact Q.
        - rewrite E2, P2 by auto. specialize (HS k Hk). rewrite !csub_other in HS by auto. exact HS. }
      exists s3. split; [apply T; exact N3|exact Q3].
    - eexists. split; [apply at_end; exact Hi|]. cbn [fst]. split; [reflexivity|].
      assert (K : forall (q : ds_obj CD) k, csub (q, ds_iter CD) k = (q k, ds_iter (D k))).
      { intros q k. cbn [ds_iter concat_ds]. destruct (Nat.eq_dec k 0) as [->|Hne]; [rewrite csub_at; reflexivity|rewrite csub_other by auto; reflexivity]. }
      intros k Hk. rewrite !K. specialize (HS k Hk). rewrite !csub_other in HS by lia. exact HS.
  Qed.

  Lemma crel_same w s1 s2 : crel w s1 s2 -> same_stream w s1 s2.
  Proof.
    intros H. apply bisim_same_stream with (R := crel w); auto; [apply crel_fsim|].
    intros a b HR e a' N. destruct (crel_fsim (crel_sym HR) N) as (b' & N2 & Q). exists b'. split; [exact N2|].
    destruct e; auto; apply crel_sym; exact Q.
  Qed.

  Lemma csub_iter (q : ds_obj CD) k : csub (q, ds_iter CD) k = (q k, ds_iter (D k)).
  Proof. cbn [ds_iter concat_ds]. destruct (Nat.eq_dec k 0) as [->|Hne]; [rewrite csub_at; reflexivity|rewrite csub_other by auto; reflexivity]. Qed.

  (** every inner dataset is at a point where it may be saved, also in the middle of a next() *)
  Lemma cnext_reach rst nw w s e s' : cnext w s e s' -> (forall i, i < n -> reach w rst nw (csub s i)) ->
    match e with
    | Yield a => (forall i, i < n -> reach w rst nw (csub s' i)) /\ cpos s <= cpos s' < n /\
        exists b si, a = add_idx concat_name (cpos s') b /\ reach w rst nw si /\ next (D := D (cpos s')) w si (Yield b) (csub s' (cpos s'))
    | Done => forall i, i < n -> reach w rst nw (csub (fst s', ds_iter CD) i)
    | _ => True
    end.
  Proof.
    intros N. induction N as [o i it a si o' Hi N E1 E2|o i it x si s' Hi N|o i it si o' e s' Hi N E1 E2 _ IH|o i it Hi]; intros HR; auto.
    - pose proof (HR i Hi) as Ri. rewrite csub_at in Ri. cbn [cpos snd]. split; [|split; [lia|]].
      + intros k Hk. destruct (Nat.eq_dec k i) as [->|Hne].
        * rewrite csub_at. cbn [running]. rewrite E1, <- surjective_pairing. eapply r_yield; eauto.
        * rewrite csub_other by auto. rewrite E2 by auto. specialize (HR k Hk). rewrite csub_other in HR by auto. exact HR.
      + exists a, (o i, running it). split; [reflexivity|]. split; [exact Ri|]. rewrite csub_at. cbn [running]. rewrite E1, <- surjective_pairing. exact N.
    - assert (HR' : forall k, k < n -> reach w rst nw (csub (o', @CcAt _ D (S i) None) k)).
      { intros k Hk.
        assert (K : forall (q : ds_obj CD), csub (q, @CcAt _ D (S i) None) k = (q k, ds_iter (D k))).
        { intros q. destruct (Nat.eq_dec k (S i)) as [->|Hne]; [rewrite csub_at; reflexivity|rewrite csub_other by auto; reflexivity]. }
        rewrite K. pose proof (HR k Hk) as Rk. destruct (Nat.eq_dec k i) as [->|Hne].
        - rewrite E1. rewrite csub_at in Rk. eapply r_done; eauto.
        - rewrite E2 by auto. rewrite csub_other in Rk by auto. exact Rk. }
      specialize (IH HR'). destruct e as [a| | |x]; auto.
      destruct IH as (I1 & I2 & I3). split; [exact I1|]. split; [cbn [cpos snd] in *; lia|exact I3].
    - intros k Hk. cbn [fst]. rewrite csub_iter. specialize (HR k Hk). rewrite csub_other in HR by lia. exact HR.
  Qed.

  Lemma concat_reach rst nw w s : reach (D := CD) w rst nw s -> forall i, i < n -> reach w rst nw (csub s i).
  Proof.
    intros H. induction H as [|s a s' _ IH N|s s' _ IH N|s sts _ IH HL HN|s E _ IH]; intros i Hi.
    - rewrite (csub_iter (ds_init CD)). apply r_init.
    - apply concat_next_inv in N. apply (@cnext_reach rst nw) in N; auto. apply N; auto.
    - apply concat_next_inv in N. apply (@cnext_reach rst nw) in N; auto.
    - rewrite csub_iter. cbn [ds_restore concat_ds].
      apply (@r_restore _ (D i) w rst nw (csub s i) (map (option_map (fun s => s i)) sts)); auto.
      + rewrite map_length. exact HL.
      + erewrite map_nth_error by exact HN. reflexivity.
    - rewrite csub_iter. apply (@r_reset _ (D i) w rst nw (csub s i)); auto.
  Qed.

  Lemma concat_restorable rst nw : (forall i, i < n -> restorable (D i) rst nw) -> restorable CD rst nw.
  Proof.
    intros H w s a s' W HR N. pose proof (concat_reach HR) as HI. apply concat_next_inv in N. apply (@cnext_reach rst nw) in N; auto.
    destruct N as (_ & [_ Li] & b & si & -> & R1 & N1). cbn [ds_restore_sample concat_ds add_idx rk concat_name]. cbn [String.eqb Ascii.eqb Bool.eqb].
    apply Nat.ltb_lt in Li as Li'. rewrite Li'. rewrite (H _ Li w si b _ W R1 N1). reflexivity.
  Qed.

  (** saved while it has not gone beyond the first dataset: resumes *)
  Lemma concat_resumes_first rst nw : (forall i, i < n -> resumable (D i) rst nw) ->
    forall w (s : st CD) sts, w < nw -> reach w rst nw s -> cpos s = 0 -> length sts = nw ->
      nth_error sts w = Some (Some (ds_save CD w (fst s))) ->
      same_stream w s (ds_restore CD (Some (ds_merge CD sts)) (ds_init CD), ds_iter CD).
  Proof.
    intros H w s sts W HR HP HL HN. apply crel_same. split; [exact HP|]. intros i Hi.
    rewrite csub_iter. cbn [ds_restore concat_ds ds_merge option_map].
    apply (H i Hi w (csub s i)); auto.
    - apply concat_reach; auto.
    - rewrite map_length. exact HL.
    - erewrite map_nth_error by exact HN. reflexivity.
  Qed.

  (** ** what it yields *)
  Lemma concat_run w L : forall k i, i + k = n -> forall (xs : nat -> list (sample A)) (l : nat -> list (event (sample A))) (o : ds_obj CD) it,
    (i < n -> emits w (o i, running it) (epoch (xs i) ++ l i)) ->
    (forall j, i < j < n -> emits w (o j, ds_iter (D j)) (epoch (xs j) ++ l j)) ->
    (forall j, j < i -> emits w (o j, ds_iter (D j)) (l j)) ->
    (forall o' : ds_obj CD, (forall j, j < n -> emits w (o' j, ds_iter (D j)) (l j)) -> emits (D := CD) w (o', ds_iter CD) L) ->
    emits (D := CD) w (o, @CcAt _ D i it) (epoch (flat_map (fun j => map (add_idx concat_name j) (xs j)) (seq i k)) ++ L).
  Proof.
    induction k as [|k IH]; intros i Hik xs l o it Hi Hj Hd HL.
    - cbn. eapply em_done; [apply at_end; lia|]. apply HL. intros j Hj'. apply Hd. lia.
    - assert (Li : i < n) by lia. specialize (Hi Li). cbn [seq flat_map].
      (* the samples of dataset i *)
      assert (Q : forall ys (o : ds_obj CD) it, emits w (o i, running it) (epoch ys ++ l i) ->
        (forall j, i < j < n -> emits w (o j, ds_iter (D j)) (epoch (xs j) ++ l j)) ->
        (forall j, j < i -> emits w (o j, ds_iter (D j)) (l j)) ->
        emits (D := CD) w (o, @CcAt _ D i it) (map Yield (map (add_idx concat_name i) ys) ++
           (epoch (flat_map (fun j => map (add_idx concat_name j) (xs j)) (seq (S i) k)) ++ L))).
      { clear o it Hi Hj Hd. induction ys as [|y ys IHy]; intros o it Hi Hj Hd.
        - cbn [map app]. unfold epoch at 1 in Hi. cbn [map app] in Hi. apply emits_done_inv in Hi as (si & [m N] & E).
          destruct (@at_next w i Li m _ _ _ N o it eq_refl) as (o' & O1 & O2 & T).
          assert (E2 : emits (D := CD) w (o', @CcAt _ D (S i) None) (epoch (flat_map (fun j => map (add_idx concat_name j) (xs j)) (seq (S i) k)) ++ L)).
          { apply IH with (l := l); auto; try lia.
            - intros Hs. cbn [running]. rewrite O2 by lia. apply Hj. lia.
            - intros j Hj'. rewrite O2 by lia. apply Hj. lia.
            - intros j Hj'. destruct (Nat.eq_dec j i) as [->|Hne]; [rewrite O1; exact E|rewrite O2 by auto; apply Hd; lia]. }
          inversion E2; subst; [constructor|eapply em_yield|eapply em_done|eapply em_raise]; eauto.
        - cbn [map app]. unfold epoch at 1 in Hi. cbn [map app] in Hi. apply emits_yield_inv in Hi as (si & [m N] & E).
          destruct (@at_next w i Li m _ _ _ N o it eq_refl) as (o' & O1 & O2 & g' & G & N2).
          eapply em_yield; [exact N2|]. apply IHy.
          + cbn [running]. rewrite O1, <- G, <- surjective_pairing. exact E.
          + intros j Hj'. rewrite O2 by lia. apply Hj. lia.
          + intros j Hj'. rewrite O2 by lia. apply Hd. lia. }
      unfold epoch. rewrite map_app, <- !app_assoc. specialize (Q (xs i) o it Hi Hj Hd). unfold epoch in Q. rewrite <- app_assoc in Q. exact Q.
  Qed.

  Lemma concat_epochs w : forall m (xs : nat -> nat -> list (sample A)) (o : ds_obj CD),
    (forall i, i < n -> emits w (o i, ds_iter (D i)) (concat (map (fun e => epoch (xs i e)) (seq 0 m)))) ->
    emits (D := CD) w (o, ds_iter CD)
      (concat (map (fun e => epoch (flat_map (fun j => map (add_idx concat_name j) (xs j e)) (seq 0 n))) (seq 0 m))).
  Proof.
    induction m as [|m IH]; intros xs o H; [constructor|].
    cbn [seq map concat]. rewrite <- seq_shift, map_map.
    apply (@concat_run w _ n 0 eq_refl (fun i => xs i 0) (fun i => concat (map (fun e => epoch (xs i (S e))) (seq 0 m))) o None).
    - intros L. specialize (H 0 L). cbn [seq map concat] in H. rewrite <- seq_shift, map_map in H. exact H.
    - intros j Hj. specialize (H j ltac:(lia)). cbn [seq map concat] in H. rewrite <- seq_shift, map_map in H. exact H.
    - intros j Hj. lia.
    - intros o' Ho'. apply (IH (fun i e => xs i (S e))). exact Ho'.
  Qed.
End C.
