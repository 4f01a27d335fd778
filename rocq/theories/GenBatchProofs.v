(** Generator batchers and generator final packers: their samples can be restored from their keys. *)
From Coq Require Import String.
From Verif Require Import Base Dataset DatasetProofs Wrap WrapProofs WrapRun WrapTrace WrapSpec WrapLib
  Wrappers MapModel IdxProofs Buffer BufferProofs Batch BatchSpec BatchProofs Packing PackingProofs.
Local Open Scope list_scope.
Local Open Scope nat_scope.

Lemma restore_all_seq {A} (rs : rkey -> result (sample A)) keys batch : sequence (map rs keys) = Ok batch ->
  Batch.restore_all rs (map ATup keys) = Ok batch.
Proof. intros E. unfold Batch.restore_all. rewrite map_map. exact E. Qed.
Lemma sequence_snoc {X} (l : list (result X)) r x : sequence l = Ok r -> sequence (l ++ [Ok x]) = Ok (r ++ [x]).
Proof.
  revert r. induction l as [|y l IH]; intros r E; cbn in *; [injection E as <-; reflexivity|].
  destruct y as [y|e]; [|discriminate]. destruct (sequence l) as [l'|e]; [|discriminate]. injection E as <-. rewrite (IH l' eq_refl). reflexivity.
Qed.

Section BatchGen.
  Context {A B : Type} (nw size : nat) (drop_last : bool) (f : nat -> nat -> list A -> list B * gend).
  Notation T := (batchgen_ds nw size drop_last f).

  Lemma bg_no_reset : no_reset T.
  Proof.
    intros rs w o g o' g' Ha. destruct g; cbn [batchgen_ds t_act] in Ha; try discriminate.
    - destruct (nth w (bg_key o) None); [|discriminate]. destruct (nth w (bg_off o) None); [|discriminate]. destruct (sequence _); discriminate.
    - destruct (f w i _) as [ys e]. destruct (nth_error ys j); [destruct (target <=? j)|destruct e]; discriminate.
    - destruct (f w i _) as [ys e]. destruct (nth_error ys j); [|destruct e]; discriminate.
  Qed.

  (** the batcher never raises *)
  Hypothesis Hend : forall w i l, snd (f w i l) = GEnd.

  Definition bg_Inv (rs : rkey -> result (sample A)) (b : bool) (x : lst T) : Prop :=
    match snd x with
    | BgStart => True
    | BgResume batch keys _ _ _ | BgLoop batch keys => sequence (map rs keys) = Ok batch
    | BgGen last batch keys _ _ => sequence (map rs keys) = Ok batch /\ (last = true -> b = true)
    | BgEnd => b = true
    end.

  Lemma bg_key_ok rs w i j keys batch y : sequence (map rs keys) = Ok batch -> nth_error (fst (f w i (map pl batch))) j = Some y ->
    t_restore_sample T rs w (batchgen_key i j keys) = Ok (mkS y (batchgen_key i j keys)).
  Proof.
    intros E N. unfold batchgen_key, batch_name. cbn [batchgen_ds t_restore_sample]. change (String.eqb "BatchDataset" "BatchDataset") with true. cbn iota.
    rewrite (restore_all_seq E). cbn [bind]. rewrite N. reflexivity.
  Qed.

  Lemma bg_restores rst : local_yields T rst nw false true (fun rs w y => t_restore_sample T rs w (rk y) = Ok y) True.
  Proof.
    intros w rs Hw. exists (bg_Inv rs), (bg_Inv rs). constructor.
    - exact I.
    - auto.
    - intros b [o g] o' g' e HI Ha. unfold act in Ha. cbn [batchgen_ds t_act fst snd] in Ha. unfold bg_Inv in HI. cbn [snd] in HI.
      destruct g as [|batch keys i j t|batch keys|last batch keys i j|].
      + destruct (nth w (bg_key o) None) as [keys|]; [|injection Ha as <- <- <-; reflexivity].
        destruct (nth w (bg_off o) None) as [t|]; [|injection Ha as <- <- <-; exact I].
        destruct (sequence (map rs keys)) as [batch|err] eqn:E; injection Ha as <- <- <-; [exact E|exact I].
      + pose proof (Hend w i (map pl batch)) as He. destruct (f w i (map pl batch)) as [ys e0] eqn:Ef. cbn in He. subst e0.
        destruct (nth_error ys j) as [y|] eqn:Ej.
        * destruct (t <=? j); injection Ha as <- <- <-; [|exact HI]. cbn [post]. split; [|exact HI].
          apply (@bg_key_ok rs w i j keys batch y HI). rewrite Ef. exact Ej.
        * injection Ha as <- <- <-. reflexivity.
      + discriminate.
      + pose proof (Hend w i (map pl batch)) as He. destruct (f w i (map pl batch)) as [ys e0] eqn:Ef. cbn in He. subst e0. destruct HI as [HI HL].
        destruct (nth_error ys j) as [y|] eqn:Ej; injection Ha as <- <- <-.
        * cbn [post]. split; [|split; [exact HI|exact HL]]. apply (@bg_key_ok rs w i j keys batch y HI). rewrite Ef. exact Ej.
        * destruct last; cbn [bg_next post bg_Inv snd]; [apply HL|]; reflexivity.
      + injection Ha as <- <- <-. cbn [post]. split; [exact I|]. split; [right; exact HI|exact I].
    - intros b [o g] k r HI Ha HQ. unfold act in Ha. cbn [batchgen_ds t_act fst snd] in Ha. unfold bg_Inv in HI. cbn [snd] in HI.
      destruct g as [|batch keys i j t|batch keys|last batch keys i j|].
      + exfalso. destruct (nth w (bg_key o) None); [|discriminate]. destruct (nth w (bg_off o) None); [|discriminate]. destruct (sequence _); discriminate.
      + exfalso. destruct (f w i _) as [ys e]. destruct (nth_error ys j); [destruct (t <=? j)|destruct e]; discriminate.
      + injection Ha as <-. destruct r as [a|].
        * assert (E : sequence (map rs (keys ++ [rk a])) = Ok (batch ++ [a])).
          { rewrite map_app. cbn [map]. cbn in HQ. rewrite (HQ eq_refl). apply sequence_snoc. exact HI. }
          destruct (length (batch ++ [a]) =? size); cbn [bg_flush post bg_Inv snd is_none]; [split; [exact E|discriminate]|exact E].
        * destruct ((0 <? length batch) && negb drop_last); cbn [bg_flush post bg_Inv snd is_none].
          -- split; [exact HI|reflexivity].
          -- split; [exact I|]. split; [right; reflexivity|exact I].
      + exfalso. destruct (f w i _) as [ys e]. destruct (nth_error ys j); [|destruct e]; discriminate.
      + discriminate.
    - intros b [o g] o' g' _ Ha. exfalso. exact (@bg_no_reset rs _ _ _ _ _ Ha).
    - intros. exact I.
    - intros. exact I.
  Qed.
End BatchGen.

Section PackGen.
  Context {A B : Type} (nw size : nat).
  Variable pre : nat -> nat -> list (sample A) -> ures (list (list (sample A))).
  Variable f : nat -> nat -> list A -> list B * gend.
  Notation T := (packgen_ds nw size pre f).
  Hypothesis Hs : 0 < size.
  Hypothesis Hsel : forall w i l gs, pre w i l = UOk gs -> incl (concat gs) l.

  Lemma pg_no_reset : no_reset T.
  Proof.
    intros rs w o g o' g' Ha. destruct g; cbn [packgen_ds t_act] in Ha.
    - destruct (pk_start rs w o); discriminate.
    - destruct (nth w (pk_len o) []) as [|k rest]; [|discriminate].
      unfold pk_read_step in Ha. destruct (_ <? size); [discriminate|]. destruct (negb _); [discriminate|].
      destruct (0 <? buf_len w (pk_read o)); [destruct (pk_prepack pre w o); [|discriminate Ha]|]; destruct (10 <? S r); discriminate Ha.
    - destruct (nth w (pk_len o) []) as [|k rest]; discriminate.
    - destruct (f w i _) as [ys e]. destruct (nth_error ys j); [|destruct e]; discriminate.
  Qed.

  Section At.
    Variables (w : nat) (rs : rkey -> result (sample A)).
    Hypothesis Hw : w < nw.
    Notation okk := (fun a : sample A => rs (rk a) = Ok a).

    (** the buffers hold restorable samples; [pack] is being packed *)
    Definition pg_Inv (b : bool) (x : lst T) : Prop := exists lr gl pi fi,
      Forall okk lr /\ Forall okk (concat gl) /\
      match snd x with
      | PgStart => pk_may nw w lr gl pi fi (fst x)
      | PgLoop _ => pk_is nw w lr gl pi fi (fst x)
      | PgDrain => pk_is nw w lr gl pi fi (fst x) /\ b = true
      | PgGen pack _ _ d => pk_is nw w lr gl pi fi (fst x) /\ Forall okk pack /\ (d = true -> b = true)
      end.

    Lemma pg_key_ok i j pack y : Forall okk pack -> nth_error (fst (f w i (map pl pack))) j = Some y ->
      t_restore_sample T rs w (packgen_key i j (map rk pack)) = Ok (mkS y (packgen_key i j (map rk pack))).
    Proof.
      intros F N. unfold packgen_key, pack_name. cbn [packgen_ds t_restore_sample]. change (String.eqb "PackingDataset" "PackingDataset") with true. cbn iota.
      rewrite (BatchProofs.restore_all_ok F). cbn [bind]. rewrite N. reflexivity.
    Qed.

    Lemma pg_local_ok rst : local_ok (T := T) rs w nw rst (Qof false true rs) (fun y => t_restore_sample T rs w (rk y) = Ok y) True pg_Inv pg_Inv.
    Proof.
      constructor.
      - exists [], [], 0, 0. split; [constructor|]. split; [constructor|]. apply pk_is_may, pk_init_is.
      - auto.
      - intros b [o g] o' g' e (lr & gl & pi & fi & F1 & F2 & H) Ha. unfold act in Ha. cbn [packgen_ds t_act fst snd] in *.
        destruct g as [|r| |pack i j d].
        + destruct (pk_start_is Hw F1 F2 H) as (o2 & E & H2). rewrite E in Ha. injection Ha as <- <- <-. exists lr, gl, pi, fi. auto.
        + rewrite (pk_len_is H) in Ha. destruct gl as [|g gl]; cbn [map] in Ha.
          * destruct (@pk_read_step_is A B nw size w Hw pre _ rs lr pi fi o r (@PgLoop A) (@PgDrain A) Hs H) as (a & E & X). rewrite E in Ha. clear E.
            destruct (length lr <? size); [destruct X as (k & -> & _); discriminate|].
            destruct (length lr =? size); [|rewrite X in Ha; injection Ha as <- <- <-; exact I].
            destruct (made pre w pi lr) as [gs|] eqn:M; [|rewrite X in Ha; injection Ha as <- <- <-; exact I].
            destruct X as (o2 & H2 & E). rewrite E in Ha. destruct (10 <? S r); injection Ha as <- <- <-; [exact I|].
            exists [], gs, (S pi), fi. split; [constructor|]. split; [exact (made_ok Hsel F1 M)|exact H2].
          * destruct (pk_take_is Hw H) as (o2 & E & H2). rewrite E in Ha. cbn [fst snd] in Ha. injection Ha as <- <- <-.
            cbn [concat] in F2. apply Forall_app in F2. destruct F2 as [Fg F2]. exists lr, gl, pi, (S fi). split; [exact F1|]. split; [exact F2|].
            split; [exact H2|]. split; [exact Fg|discriminate].
        + destruct H as [H Hb]. rewrite (pk_len_is H) in Ha. destruct gl as [|g gl]; cbn [map] in Ha.
          * injection Ha as <- <- <-. cbn [post]. split; [exact I|]. split; [auto|]. exists lr, [], pi, fi. split; [exact F1|]. split; [constructor|]. apply pk_is_may. exact H.
          * destruct (pk_take_is Hw H) as (o2 & E & H2). rewrite E in Ha. cbn [fst snd] in Ha. injection Ha as <- <- <-.
            cbn [concat] in F2. apply Forall_app in F2. destruct F2 as [Fg F2]. exists lr, gl, pi, (S fi). split; [exact F1|]. split; [exact F2|].
            split; [exact H2|]. split; [exact Fg|]. intros _. exact Hb.
        + destruct H as (H & FP & Hd). destruct (f w i (map pl pack)) as [ys e0] eqn:Ef. destruct (nth_error ys j) as [y|] eqn:Ej.
          * injection Ha as <- <- <-. cbn [post]. split; [apply pg_key_ok; [exact FP|rewrite Ef; exact Ej]|]. exists lr, gl, pi, fi. cbn [fst snd]. auto 10.
          * assert (X : g' = (if d then PgDrain else PgLoop 0) -> o' = o -> pg_Inv b (o', g')).
            { intros -> ->. exists lr, gl, pi, fi. split; [exact F1|]. split; [exact F2|]. destruct d; cbn [fst snd]; [split; [exact H|]; apply Hd; reflexivity|exact H]. }
            destruct e0; injection Ha as <- <- <-; try exact I; apply X; reflexivity.
      - intros b [o g] k x (lr & gl & pi & fi & F1 & F2 & H) Ha HQ. unfold act in Ha. cbn [packgen_ds t_act fst snd] in *.
        destruct g as [|r| |pack i j d].
        + exfalso. destruct (pk_start rs w o); discriminate.
        + rewrite (pk_len_is H) in Ha. destruct gl as [|g gl]; cbn [map] in Ha; [|discriminate].
          destruct (@pk_read_step_is A B nw size w Hw pre _ rs lr pi fi o r (@PgLoop A) (@PgDrain A) Hs H) as (a & E & X). rewrite E in Ha. clear E.
          destruct (length lr <? size).
          2:{ exfalso. destruct (length lr =? size); [|congruence]. destruct (made pre w pi lr); [|congruence]. destruct X as (o2 & _ & X). rewrite X in Ha. destruct (10 <? S r); discriminate. }
          destruct X as (k' & E & X1 & X2). rewrite E in Ha. injection Ha as <-. destruct x as [a'|].
          * destruct (X1 a') as (o2 & -> & H2). cbn [post]. exists (lr ++ [a']), [], pi, fi. split; [|split; [constructor|exact H2]].
            apply Forall_app. split; [exact F1|]. repeat constructor. apply HQ. reflexivity.
          * destruct lr as [|a0 lr].
            -- rewrite X2. cbn [post is_none]. exists [], [], pi, fi. cbn [fst snd]. auto.
            -- destruct (made pre w pi (a0 :: lr)) as [gs|] eqn:M; [|rewrite X2; exact I]. destruct X2 as (o2 & -> & H2). cbn [post is_none].
               exists [], gs, (S pi), fi. split; [constructor|]. split; [exact (made_ok Hsel F1 M)|]. cbn [fst snd]. auto.
        + exfalso. destruct H as [H Hb]. destruct (nth w (pk_len o) []); discriminate.
        + exfalso. destruct (f w i _) as [ys e]. destruct (nth_error ys j); [|destruct e]; discriminate.
      - intros b [o g] o' g' _ Ha. exfalso. exact (@pg_no_reset rs _ _ _ _ _ Ha).
      - intros b [o g] sts (lr & gl & pi & fi & F1 & F2 & H) Hl HN. exists lr, gl, pi, fi. split; [exact F1|]. split; [exact F2|].
        cbn [fst snd packgen_ds t_iter t_restore t_merge]. apply pk_restore_may with (o := o); [|exact Hl|exact HN].
        cbn [fst snd] in H. destruct g; [exact H|apply pk_is_may; exact H|apply pk_is_may; apply H|apply pk_is_may; apply H].
      - intros. exists [], [], 0, 0. split; [constructor|]. split; [constructor|]. apply pk_is_may, pk_init_is.
    Qed.
  End At.

  Lemma pg_restores rst : local_yields T rst nw false true (fun rs w y => t_restore_sample T rs w (rk y) = Ok y) True.
  Proof. intros w rs Hw. eexists _, _. apply pg_local_ok; auto. Qed.
End PackGen.
