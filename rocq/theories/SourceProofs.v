(** The example sources satisfy the interface properties. *)
From Verif Require Import Base Dataset DatasetProofs WrapSpec.

Lemma src_pos_restore w sts n : nth_error sts w = Some (Some n) -> src_pos w (src_restore (Some sts)) = n.
Proof. intros H. unfold src_pos, src_restore. cbn. rewrite (nth_error_nth sts w None H). reflexivity. Qed.

Section Stream.
  Context {P : Type} (f : nat -> P).
  Notation D := (stream_ds f).

  Lemma stream_next w (s : st D) e s' : next w s e s' ->
    e = Yield (mkS (f (src_pos w (fst s))) (src_key (src_pos w (fst s)))) /\ s' = ((S (src_pos w (fst s)), None), tt).
  Proof. intros [n N]. destruct n as [|n]; [discriminate|]. cbn in N. injection N as <- <-. auto. Qed.

  Lemma stream_endless rst nw : endless D rst nw.
  Proof. intros w s s' _ _ N. apply stream_next in N as [E _]. discriminate. Qed.

  Lemma stream_restorable rst nw : restorable D rst nw.
  Proof. intros w s a s' _ _ N. apply stream_next in N as [E _]. injection E as ->. reflexivity. Qed.

  Lemma stream_same w (s1 s2 : st D) : src_pos w (fst s1) = src_pos w (fst s2) -> same_stream w s1 s2.
  Proof.
    intros E. apply bisim_same_stream with (R := fun a b => src_pos w (fst a) = src_pos w (fst b)); auto.
    - intros a b H e a' N. apply stream_next in N as [-> ->].
      exists ((S (src_pos w (fst b)), None), tt). split; [|first [exact (f_equal S H)|exact (f_equal S (eq_sym H))]].
      apply next_now; [cbn in H |- *; rewrite H; reflexivity|discriminate].
    - intros a b H e a' N. apply stream_next in N as [-> ->]. unfold flip_rel in *.
      exists ((S (src_pos w (fst b)), None), tt). split; [|first [exact (f_equal S H)|exact (f_equal S (eq_sym H))]].
      apply next_now; [cbn in H |- *; rewrite H; reflexivity|discriminate].
  Qed.

  Lemma stream_resumable rst nw : resumable D rst nw.
  Proof. intros w s sts Hw R Hl Hs. apply stream_same. symmetry. apply src_pos_restore. exact Hs. Qed.

  Lemma stream_resettable rst nw : resettable D rst nw.
  Proof. intros w s Hw R. apply stream_same. reflexivity. Qed.
End Stream.

Section List.
  Context {P : Type} (xs : list P).
  Notation D := (list_ds xs).

  (** the samples with their keys *)
  Definition keyed (b : nat) (l : list P) : list (sample P) :=
    map (fun p => mkS (snd p) (src_key (fst p))) (combine (seq b (length l)) l).

  Lemma list_epoch_from w n : forall o, length xs - src_pos w o = n -> src_pos w o <= length xs ->
    emits (D := D) w (o, tt) (epoch (keyed (src_pos w o) (skipn (src_pos w o) xs))).
  Proof.
    induction n as [|n IH]; intros o Hn Ho.
    - assert (E : src_pos w o = length xs) by lia. rewrite E, skipn_all. cbn.
      eapply em_done; [|constructor].
      apply next_now; [|discriminate]. cbn. rewrite E.
      rewrite (proj2 (nth_error_None xs (length xs)) (le_n _)). reflexivity.
    - destruct (nth_error xs (src_pos w o)) as [x|] eqn:E.
      2:{ apply nth_error_None in E. lia. }
      assert (S1 : skipn (src_pos w o) xs = x :: skipn (S (src_pos w o)) xs).
      { apply skipn_cons_nth. exact E. }
      rewrite S1. cbn. eapply em_yield with (s' := (((S (src_pos w o), None), tt) : st D)).
      + apply next_now; [|discriminate]. cbn. rewrite E. reflexivity.
      + apply (IH (S (src_pos w o), None)); cbn; lia.
  Qed.

  Lemma list_produces w : produces (D := D) w (fresh D) (keyed 0 xs).
  Proof. apply (@list_epoch_from w (length xs) (0, None)); cbn; lia. Qed.

  Lemma list_next w o g e s' : next (D := D) w (o, g) e s' ->
    match nth_error xs (src_pos w o) with
    | Some x => e = Yield (mkS x (src_key (src_pos w o))) /\ s' = ((S (src_pos w o), None), tt)
    | None => e = Done /\ s' = ((0, None), tt)
    end.
  Proof.
    intros [n N]. destruct n as [|n]; [discriminate|]. cbn in N.
    destruct (nth_error xs (src_pos w o)) as [x|]; injection N as <- <-; auto.
  Qed.

  Lemma list_restorable rst nw : restorable D rst nw.
  Proof.
    intros w [o g] a s' _ _ N. apply list_next in N.
    destruct (nth_error xs (src_pos w o)) as [x|] eqn:E; destruct N as [N _]; [|discriminate].
    injection N as ->. cbn. rewrite E. reflexivity.
  Qed.

  Lemma list_same w (s1 s2 : st D) : src_pos w (fst s1) = src_pos w (fst s2) -> same_stream w s1 s2.
  Proof.
    assert (F : fsim (D := D) w (fun a b => src_pos w (fst a) = src_pos w (fst b))).
    { intros [a ga] [b gb] H e a' N. cbn [fst] in H. apply list_next in N. rewrite H in N.
      destruct (nth_error xs (src_pos w b)) as [x|] eqn:E; destruct N as [-> ->].
      - exists ((S (src_pos w b), None), tt). split; [|reflexivity].
        apply next_now; [|discriminate]. cbn. rewrite E. reflexivity.
      - exists ((0, None), tt). split; [|reflexivity].
        apply next_now; [|discriminate]. cbn. rewrite E. reflexivity. }
    intros E. apply bisim_same_stream with (R := fun a b => src_pos w (fst a) = src_pos w (fst b)); auto.
    intros a b H. unfold flip_rel in *. intros e a' N.
    destruct (F _ _ (eq_sym H) _ _ N) as (s2' & N2 & M). exists s2'. split; [exact N2|].
    destruct e; auto.
  Qed.

  Lemma list_resumable rst nw : resumable D rst nw.
  Proof. intros w s sts Hw R Hl Hs. apply list_same. symmetry. apply src_pos_restore. exact Hs. Qed.

  Lemma list_resettable rst nw : resettable D rst nw.
  Proof. intros w s Hw R. apply list_same. reflexivity. Qed.
End List.
