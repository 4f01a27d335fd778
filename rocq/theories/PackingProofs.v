(** PackingDataset: its state, saving, restore keys. *)
From Coq Require Import String.
From Verif Require Import Base Dataset DatasetProofs Wrap WrapProofs WrapRun WrapTrace WrapSpec WrapLib
  Wrappers MapModel IdxProofs Buffer BufferProofs Batch BatchSpec BatchProofs Packing.
Local Open Scope list_scope.
Local Open Scope nat_scope.

(** the groups the pre packer makes; None: a system exception *)
Definition made {A} (pre : nat -> nat -> list (sample A) -> ures (list (list (sample A)))) (w i : nat) (l : list (sample A)) :
    option (list (list (sample A))) :=
  match pre w i l with UOk gs => Some gs | USkip | UErr => Some [] | UFatal => None end.

Section State.
  Context {A B : Type} (nw size : nat) (w : nat) (Hw : w < nw).
  Variable pre : nat -> nat -> list (sample A) -> ures (list (list (sample A))).

  (** worker [w] has read [lr], holds the groups [gl]; sample indices [pi], [fi] *)
  Definition pk_rest (gl : list (list (sample A))) (pi fi : nat) (o : pk_obj (A := A)) : Prop :=
    length (pk_len o) = nw /\ nth w (pk_len o) [] = map (@length _) gl /\
    length (pk_pidx o) = nw /\ nth w (pk_pidx o) 0 = pi /\ length (pk_fidx o) = nw /\ nth w (pk_fidx o) 0 = fi.
  Definition pk_is (lr : list (sample A)) (gl : list (list (sample A))) (pi fi : nat) (o : pk_obj (A := A)) : Prop :=
    buf_is w nw lr (pk_read o) /\ buf_is w nw (concat gl) (pk_pre o) /\ pk_rest gl pi fi o.
  Definition pk_may (lr : list (sample A)) (gl : list (list (sample A))) (pi fi : nat) (o : pk_obj (A := A)) : Prop :=
    (buf_is w nw lr (pk_read o) \/ buf_pending w nw lr (pk_read o)) /\
    (buf_is w nw (concat gl) (pk_pre o) \/ buf_pending w nw (concat gl) (pk_pre o)) /\ pk_rest gl pi fi o.

  Lemma pk_is_may lr gl pi fi o : pk_is lr gl pi fi o -> pk_may lr gl pi fi o.
  Proof. intros (H1 & H2 & H3). split; [auto|]. split; auto. Qed.

  Lemma pk_init_is : pk_is [] [] 0 0 (pk_init nw).
  Proof.
    split; [apply buf_init_is|]. split; [apply buf_init_is|]. unfold pk_rest, pk_init. cbn. rewrite !repeat_length, nth_repeat_nil.
    assert (Z : forall n k, nth k (repeat 0 n) 0 = 0) by (clear; induction n as [|n IH]; intros [|k]; cbn; auto). rewrite Z. auto 10.
  Qed.

  Lemma pk_start_is rs lr gl pi fi o : Forall (fun a => rs (rk a) = Ok a) lr -> Forall (fun a => rs (rk a) = Ok a) (concat gl) ->
    pk_may lr gl pi fi o -> exists o', pk_start rs w o = Ok o' /\ pk_is lr gl pi fi o'.
  Proof.
    intros F1 F2 (H1 & H2 & H3).
    assert (X1 : exists b', buf_start rs w (pk_read o) = Ok b' /\ buf_is w nw lr b').
    { destruct H1 as [H|H]; [apply buf_start_is; exact H|apply buf_start_pending; auto]. }
    assert (X2 : exists b', buf_start rs w (pk_pre o) = Ok b' /\ buf_is w nw (concat gl) b').
    { destruct H2 as [H|H]; [apply buf_start_is; exact H|apply buf_start_pending; auto]. }
    destruct X1 as (b1 & E1 & B1). destruct X2 as (b2 & E2 & B2). unfold pk_start. rewrite E1, E2. cbn [bind].
    eexists. split; [reflexivity|]. split; [exact B1|]. split; [exact B2|exact H3].
  Qed.

  Lemma pk_start_any rs lr gl pi fi o : pk_is lr gl pi fi o -> exists o', pk_start rs w o = Ok o' /\ pk_is lr gl pi fi o'.
  Proof.
    intros (H1 & H2 & H3). destruct (buf_start_is rs H1) as (b1 & E1 & B1). destruct (buf_start_is rs H2) as (b2 & E2 & B2).
    unfold pk_start. rewrite E1, E2. cbn [bind]. eexists. split; [reflexivity|]. split; [exact B1|]. split; [exact B2|exact H3].
  Qed.

  Lemma fold_extend_is (gs : list (list (sample A))) : forall l b, buf_is w nw l b ->
    buf_is w nw (l ++ concat gs) (fold_left (fun b g => buf_extend w g (map rk g) b) gs b).
  Proof.
    induction gs as [|g gs IH]; intros l b H; cbn [fold_left concat]; [rewrite app_nil_r; exact H|].
    rewrite app_assoc. apply IH. apply buf_extend_is; auto.
  Qed.

  Lemma pk_prepack_is lr pi fi o : pk_is lr [] pi fi o ->
    match made pre w pi lr with
    | None => pk_prepack pre w o = None
    | Some gs => exists o', pk_prepack pre w o = Some o' /\ pk_is [] gs (S pi) fi o'
    end.
  Proof.
    intros (H1 & H2 & R1 & R2 & R3 & R4 & R5 & R6). unfold pk_prepack, made. pose proof H1 as (_ & _ & _ & HA & _). rewrite HA, R4.
    assert (B1 : buf_is w nw [] (buf_set w [] [] (pk_read o))) by (eapply buf_set_is; eauto).
    destruct (pre w pi lr) as [gs| | |]; [| | |reflexivity]; (eexists; split; [reflexivity|]).
    - split; [exact B1|]. cbn [pk_fill pk_read pk_pre pk_len pk_pidx pk_fidx]. split; [apply (@fold_extend_is gs [] _ H2)|].
      unfold pk_rest. cbn [pk_fill pk_read pk_pre pk_len pk_pidx pk_fidx]. rewrite !upd_length, !nth_upd_same by (rewrite ?upd_length; lia). cbn [app]. auto 10.
    - split; [exact B1|]. split; [exact H2|]. unfold pk_rest. cbn [pk_read pk_pre pk_len pk_pidx pk_fidx]. rewrite !upd_length, !nth_upd_same by lia. auto 10.
    - split; [exact B1|]. split; [exact H2|]. unfold pk_rest. cbn [pk_read pk_pre pk_len pk_pidx pk_fidx]. rewrite !upd_length, !nth_upd_same by lia. auto 10.
  Qed.

  Lemma pk_take_is lr g gl pi fi o : pk_is lr (g :: gl) pi fi o -> exists o',
    pk_take w o (length g) (map (@length _) gl) = (g, o') /\ pk_is lr gl pi (S fi) o'.
  Proof.
    clear pre.
    intros (H1 & H2 & R1 & R2 & R3 & R4 & R5 & R6). unfold pk_take. pose proof H2 as (_ & _ & _ & HA & HK). rewrite HA, HK, R6. cbn [concat].
    assert (K1 : forall X (u v : list X), firstn (length u) (u ++ v) = u).
    { intros X u v. rewrite firstn_app, Nat.sub_diag, firstn_all, firstn_O, app_nil_r. reflexivity. }
    assert (K2 : forall X (u v : list X) n, n = length u -> skipn n (u ++ v) = v).
    { intros X u v n ->. rewrite skipn_app, Nat.sub_diag, skipn_all, skipn_O. reflexivity. }
    rewrite K1, K2 by reflexivity. rewrite map_app, K2 by (symmetry; apply map_length).
    eexists. split; [reflexivity|]. split; [exact H1|]. split; [eapply buf_set_is; eauto|].
    unfold pk_rest. cbn [pk_read pk_pre pk_len pk_pidx pk_fidx]. rewrite !upd_length, !nth_upd_same by lia. auto 10.
  Qed.

  Lemma pk_len_is lr gl pi fi o : pk_is lr gl pi fi o -> nth w (pk_len o) [] = map (@length _) gl.
  Proof. intros (_ & _ & _ & H & _). exact H. Qed.
  Lemma pk_fidx_is lr gl pi fi o : pk_is lr gl pi fi o -> nth w (pk_fidx o) 0 = fi.
  Proof. intros (_ & _ & _ & _ & _ & _ & _ & H). exact H. Qed.

  Lemma pk_append_is lr gl pi fi o a : pk_is lr gl pi fi o ->
    pk_is (lr ++ [a]) gl pi fi (mkPk (buf_append w a (pk_read o)) (pk_pre o) (pk_len o) (pk_pidx o) (pk_fidx o)).
  Proof. intros (H1 & H2 & H3). split; [apply buf_append_is; auto|]. split; [exact H2|exact H3]. Qed.

  (** the step when there is no group left: what it does *)
  Lemma pk_read_step_is {G} rs lr pi fi o r (loop : nat -> G) drain : 0 < size -> pk_is lr [] pi fi o ->
    exists a : action (pk_obj (A := A)) G A B, pk_read_step size pre rs w o r loop drain = a /\
    if length lr <? size then
      exists k, a = Pull k /\
        (forall x, exists o', k (Some x) = (o', loop r, Tau) /\ pk_is (lr ++ [x]) [] pi fi o') /\
        match lr with
        | [] => k None = (o, drain, Tau)
        | _ => match made pre w pi lr with
               | None => k None = (o, drain, Raise OtherError)
               | Some gs => exists o', k None = (o', drain, Tau) /\ pk_is [] gs (S pi) fi o'
               end
        end
    else if length lr =? size then
      match made pre w pi lr with
      | None => a = Local o drain (Raise OtherError)
      | Some gs => exists o', pk_is [] gs (S pi) fi o' /\
          a = if 10 <? S r then Local o' drain (Raise OtherError) else Local o' (loop (S r)) Tau
      end
    else a = Local o drain (Raise AssertionError).
  Proof.
    intros Hs H. eexists. split; [reflexivity|]. unfold pk_read_step. pose proof H as (H1 & H2 & _).
    rewrite (buf_is_len H1), (buf_is_len H2). cbn [concat length]. rewrite Nat.add_0_r. cbn [Nat.eqb andb].
    pose proof (pk_prepack_is H) as HP.
    destruct (length lr <? size) eqn:E1.
    - eexists. split; [reflexivity|]. split.
      + intros x. eexists. split; [reflexivity|]. apply pk_append_is. exact H.
      + destruct lr as [|a0 lr]; [reflexivity|]. cbn [length Nat.ltb Nat.leb].
        destruct (made pre w pi (a0 :: lr)) as [gs|]; [|rewrite HP; reflexivity]. destruct HP as (o' & -> & HP). exists o'. auto.
    - apply Nat.ltb_ge in E1. destruct (length lr =? size) eqn:E2; cbn [negb]; [|reflexivity].
      apply Nat.eqb_eq in E2. replace (0 <? length lr) with true by (symmetry; apply Nat.ltb_lt; lia).
      destruct (made pre w pi lr) as [gs|]; [|rewrite HP; reflexivity]. destruct HP as (o' & -> & HP). exists o'. auto.
  Qed.

  Lemma pk_restore_may lr gl pi fi o sts : pk_may lr gl pi fi o -> length sts = nw ->
    nth_error sts w = Some (Some (pk_save w o)) -> pk_may lr gl pi fi (pk_restore nw (Some (pk_merge sts))).
  Proof.
    intros (H1 & H2 & R1 & R2 & R3 & R4 & R5 & R6) Hl Hs. unfold pk_restore, pk_merge. unfold pk_may, pk_rest. cbn [pk_read pk_pre pk_len pk_pidx pk_fidx].
    split; [right; eapply buf_restore_pending; [exact H1|rewrite map_length; exact Hl|exact (nth_error_map_some (option_map (fun s : pk_wst => fst (fst (fst (fst s))))) Hs)]|].
    split; [right; eapply buf_restore_pending; [exact H2|rewrite map_length; exact Hl|exact (nth_error_map_some (option_map (fun s : pk_wst => snd (fst (fst (fst s))))) Hs)]|].
    split; [rewrite map_length; exact Hl|].
    split; [erewrite nth_error_nth; [|exact (@nth_error_map_some _ _ (fun s : option pk_wst => match s with None => [0; 0] | Some s => snd (fst (fst s)) end) _ _ _ Hs)]; exact R2|].
    unfold restore_nat. split; [rewrite merge_nat_length, map_length; exact Hl|].
    split; [rewrite (@merge_nat_nth w _ pi); [reflexivity|]; rewrite <- R4; exact (nth_error_map_some (option_map (fun s : pk_wst => snd (fst s))) Hs)|].
    split; [rewrite merge_nat_length, map_length; exact Hl|].
    rewrite (@merge_nat_nth w _ fi); [reflexivity|]. rewrite <- R6. exact (nth_error_map_some (option_map (fun s : pk_wst => snd s)) Hs).
  Qed.
End State.

Section Plain.
  Context {A B : Type} (nw size : nat).
  Variable pre : nat -> nat -> list (sample A) -> ures (list (list (sample A))).
  Variable f : nat -> nat -> list A -> ures B.
  Notation T := (pack_ds nw size pre f).
  Hypothesis Hs : 0 < size.

  Lemma pk_no_reset : no_reset T.
  Proof.
    intros rs w o g o' g' Ha.
    assert (F : forall k rest nx, pk_final f w o k rest nx <> Reset o' g').
    { intros k rest nx. unfold pk_final. destruct (pk_take w o k rest) as [p o2]. destruct (f w _ _); discriminate. }
    destruct g; cbn [pack_ds t_act] in Ha.
    - destruct (pk_start rs w o); discriminate.
    - destruct (nth w (pk_len o) []) as [|k rest]; [|exact (F _ _ _ Ha)].
      unfold pk_read_step in Ha. destruct (_ <? size); [discriminate|]. destruct (negb _); [discriminate|].
      destruct (0 <? buf_len w (pk_read o)); [destruct (pk_prepack pre w o); [|discriminate Ha]|]; destruct (10 <? S r); discriminate Ha.
    - destruct (nth w (pk_len o) []) as [|k rest]; [discriminate|exact (F _ _ _ Ha)].
  Qed.

  Section At.
    Variables (w : nat) (rs : rkey -> result (sample A)).
    Hypothesis Hw : w < nw.
    Notation okk := (fun a : sample A => rs (rk a) = Ok a).

    Definition pk_view (lr : list (sample A)) gl pi fi r (x : lst T) : Prop :=
      Forall okk lr /\ Forall okk (concat gl) /\
      ((snd x = PkLoop r /\ pk_is nw w lr gl pi fi (fst x)) \/
       (snd x = PkStart /\ r = 0 /\ pk_may nw w lr gl pi fi (fst x))).

    Definition pk_Inv (ne b : bool) (x : lst T) : Prop := exists lr gl pi fi r,
      pk_view lr gl pi fi r x \/
      (ne = false /\ b = true /\ Forall okk (concat gl) /\ snd x = PkDrain /\ pk_is nw w lr gl pi fi (fst x) /\ Forall okk lr).
    Definition pk_Sav (ne b : bool) (x : lst T) : Prop := exists lr gl pi fi,
      pk_view lr gl pi fi 0 x \/
      (ne = false /\ b = true /\ Forall okk (concat gl) /\ snd x = PkDrain /\ pk_is nw w lr gl pi fi (fst x) /\ Forall okk lr).

    Hypothesis Hsel : forall w i l gs, pre w i l = UOk gs -> incl (concat gs) l.

    Lemma made_ok i l gs : Forall okk l -> made pre w i l = Some gs -> Forall okk (concat gs).
    Proof.
      intros F M. unfold made in M. destruct (pre w i l) as [gs'| | |] eqn:E; injection M as <- || discriminate; [|constructor|constructor].
      rewrite Forall_forall in *. intros a Ha. apply F. exact (@Hsel w i l gs' E a Ha).
    Qed.

    Lemma pk_final_is lr g gl pi fi o nx : pk_is nw w lr (g :: gl) pi fi o -> exists o', pk_is nw w lr gl pi (S fi) o' /\
      pk_final f w o (length g) (map (@length _) gl) nx =
      match f w fi (map pl g) with
      | UOk b => Local o' nx (Yield (mkS b (pack_key fi (map rk g))))
      | USkip | UErr => Local o' nx Tau
      | UFatal => Local o' nx (Raise OtherError)
      end.
    Proof.
      intros H. destruct (pk_take_is Hw H) as (o' & E & H'). exists o'. split; [exact H'|]. unfold pk_final. rewrite E, (pk_fidx_is H). reflexivity.
    Qed.

    Lemma pk_key_ok fi g b : Forall okk g -> f w fi (map pl g) = UOk b ->
      t_restore_sample T rs w (pack_key fi (map rk g)) = Ok (mkS b (pack_key fi (map rk g))).
    Proof.
      intros F E. unfold pack_key, pack_name. cbn [pack_ds t_restore_sample]. change (String.eqb "PackingDataset" "PackingDataset") with true. cbn iota.
      rewrite (BatchProofs.restore_all_ok F). cbn [bind]. rewrite E. reflexivity.
    Qed.

    Lemma pk_local_ok rst ne : local_ok (T := T) rs w nw rst (Qof ne true rs) (fun y => t_restore_sample T rs w (rk y) = Ok y) (ne = false)
      (pk_Inv ne) (pk_Sav ne).
    Proof.
      assert (FIN : forall b lr g gl pi fi o nx o' g' e, pk_is nw w lr (g :: gl) pi fi o -> Forall okk lr -> Forall okk (concat (g :: gl)) ->
        (nx = PkLoop 0 \/ (nx = PkDrain /\ ne = false /\ b = true)) ->
        pk_final f w o (length g) (map (@length _) gl) nx = Local o' g' e ->
        post (T := T) (fun y => t_restore_sample T rs w (rk y) = Ok y) (ne = false) (pk_Inv ne) (pk_Sav ne) b (o', g', e)).
      { intros b lr g gl pi fi o nx o' g' e H F1 F2 Hn Ha. cbn [concat] in F2. apply Forall_app in F2. destruct F2 as [Fg F2].
        destruct (pk_final_is nx H) as (o2 & H2 & E). rewrite E in Ha.
        assert (S2 : pk_Sav ne b (o2, nx)).
        { exists lr, gl, pi, (S fi). destruct Hn as [->|(-> & Hd1 & Hd2)]; [left; split; [exact F1|]; split; [exact F2|]; left; auto|right; auto 10]. }
        destruct (f w fi (map pl g)) as [y| | |] eqn:Ef; injection Ha as <- <- <-; cbn [post]; try exact I.
        - split; [apply (pk_key_ok Fg Ef)|exact S2].
        - destruct S2 as (a1 & a2 & a3 & a4 & S2). exists a1, a2, a3, a4, 0. exact S2.
        - destruct S2 as (a1 & a2 & a3 & a4 & S2). exists a1, a2, a3, a4, 0. exact S2. }
      constructor.
      - exists [], [], 0, 0. left. split; [constructor|]. split; [constructor|]. right. split; [reflexivity|]. split; [reflexivity|]. apply pk_is_may, pk_init_is.
      - intros b x (lr & gl & pi & fi & H). exists lr, gl, pi, fi, 0. exact H.
      - intros b [o g] o' g' e (lr & gl & pi & fi & r & [(F1 & F2 & H)|(Hd1 & Hd2 & F2 & Hg & H & F1)]) Ha.
        + destruct H as [[Hg H]|(Hg & Hr & H)]; cbn [fst snd] in *; subst g; unfold act in Ha; cbn [pack_ds t_act fst snd] in Ha.
          * rewrite (pk_len_is H) in Ha. destruct gl as [|g gl]; cbn [map] in Ha.
            -- destruct (@pk_read_step_is A B nw size w Hw pre _ rs lr pi fi o r PkLoop PkDrain Hs H) as (a & E & X). rewrite E in Ha. clear E.
               destruct (length lr <? size); [destruct X as (k & -> & _); discriminate|].
               destruct (length lr =? size); [|rewrite X in Ha; injection Ha as <- <- <-; exact I].
               destruct (made pre w pi lr) as [gs|] eqn:M; [|rewrite X in Ha; injection Ha as <- <- <-; exact I].
               destruct X as (o2 & H2 & E). rewrite E in Ha. destruct (10 <? S r); injection Ha as <- <- <-; [exact I|].
               exists [], gs, (S pi), fi, (S r). left. split; [constructor|]. split; [exact (made_ok F1 M)|]. left. auto.
            -- eapply FIN; [exact H|exact F1|exact F2|left; reflexivity|exact Ha].
          * destruct (pk_start_is Hw F1 F2 H) as (o2 & E & H2). rewrite E in Ha. injection Ha as <- <- <-.
            exists lr, gl, pi, fi, 0. left. split; [exact F1|]. split; [exact F2|]. left. auto.
        + cbn [fst snd] in *; subst g; unfold act in Ha; cbn [pack_ds t_act fst snd] in Ha. rewrite (pk_len_is H) in Ha. destruct gl as [|g gl]; cbn [map] in Ha.
          * injection Ha as <- <- <-. cbn [post]. split; [exact Hd1|]. split; [auto|]. exists lr, [], pi, fi. left. split; [exact F1|]. split; [constructor|].
            right. split; [reflexivity|]. split; [reflexivity|]. apply pk_is_may. exact H.
          * eapply FIN; [exact H|exact F1|exact F2|right; auto|exact Ha].
      - intros b [o g] k x (lr & gl & pi & fi & r & [(F1 & F2 & H)|(Hd1 & Hd2 & F2 & Hg & H & F1)]) Ha HQ.
        + destruct H as [[Hg H]|(Hg & Hr & H)]; cbn [fst snd] in *; subst g; unfold act in Ha; cbn [pack_ds t_act fst snd] in Ha.
          * rewrite (pk_len_is H) in Ha. destruct gl as [|g gl]; cbn [map] in Ha.
            -- destruct (@pk_read_step_is A B nw size w Hw pre _ rs lr pi fi o r PkLoop PkDrain Hs H) as (a & E & X). rewrite E in Ha. clear E.
               destruct (length lr <? size).
               2:{ exfalso. destruct (length lr =? size); [|congruence]. destruct (made pre w pi lr); [|congruence]. destruct X as (o2 & _ & X). rewrite X in Ha. destruct (10 <? S r); discriminate. }
               destruct X as (k' & E & X1 & X2). rewrite E in Ha. injection Ha as <-. destruct x as [a'|].
               ++ destruct (X1 a') as (o2 & -> & H2). cbn [post]. exists (lr ++ [a']), [], pi, fi, r. left. split; [|split; [constructor|left; auto]].
                  apply Forall_app. split; [exact F1|]. repeat constructor. apply HQ. reflexivity.
               ++ cbn [Qof] in HQ. destruct lr as [|a0 lr].
                  ** rewrite X2. cbn [post is_none]. exists [], [], pi, fi, 0. right. auto 10.
                  ** destruct (made pre w pi (a0 :: lr)) as [gs|] eqn:M; [|rewrite X2; exact I]. destruct X2 as (o2 & -> & H2). cbn [post is_none].
                     exists [], gs, (S pi), fi, 0. right. repeat (split; [first [exact HQ|reflexivity|exact (made_ok F1 M)]|]). split; [exact H2|constructor].
            -- exfalso. destruct (pk_final_is (PkLoop 0) H) as (o2 & _ & E). rewrite E in Ha. destruct (f w fi (map pl g)); discriminate.
          * exfalso. destruct (pk_start rs w o); discriminate.
        + exfalso. cbn [fst snd] in *; subst g; unfold act in Ha; cbn [pack_ds t_act fst snd] in Ha. rewrite (pk_len_is H) in Ha. destruct gl as [|g gl]; cbn [map] in Ha; [discriminate|].
          destruct (pk_final_is PkDrain H) as (o2 & _ & E). rewrite E in Ha. destruct (f w fi (map pl g)); discriminate.
      - intros b [o g] o' g' _ Ha. exfalso. eapply pk_no_reset; exact Ha.
      - intros b [o g] sts (lr & gl & pi & fi & H) Hl HN. exists lr, gl, pi, fi. left.
        assert (M : pk_may nw w lr gl pi fi o /\ Forall okk lr /\ Forall okk (concat gl)).
        { destruct H as [(F1 & F2 & [[_ H]|(_ & _ & H)])|(_ & _ & F2 & _ & H & F1)]; auto using pk_is_may. }
        destruct M as (M & F1 & F2). split; [exact F1|]. split; [exact F2|]. right. split; [reflexivity|]. split; [reflexivity|].
        cbn [fst pack_ds t_restore t_merge]. eapply pk_restore_may; eauto.
      - intros b [o g] _ _. exists [], [], 0, 0. left. split; [constructor|]. split; [constructor|]. right. split; [reflexivity|]. split; [reflexivity|].
        apply pk_is_may, pk_init_is.
    Qed.

    Definition pk_sim (b : bool) (x y : lst T) : Prop := exists lr gl pi fi r, pk_view lr gl pi fi r x /\ pk_view lr gl pi fi r y.

    Lemma pk_settle lr gl pi fi r x : pk_view lr gl pi fi r x -> exists o, ltaus rs w x (o, PkLoop r) /\ pk_is nw w lr gl pi fi o.
    Proof.
      intros (F1 & F2 & H). destruct x as [o g]. cbn [fst snd] in H. destruct H as [[-> H]|(-> & -> & H)].
      - exists o. split; [constructor|exact H].
      - destruct (pk_start_is Hw F1 F2 H) as (o2 & E & H2). exists o2. split; [|exact H2]. eapply lt_step; [|constructor]. unfold act. cbn. rewrite E. reflexivity.
    Qed.

    Lemma pk_local_sim : local_sim rs w (Qof true true rs) pk_sim.
    Proof.
      intros b x y (lr & gl & pi & fi & r & Vx & Vy).
      destruct (pk_settle Vx) as (o1 & L1 & H1). destruct (pk_settle Vy) as (o2 & L2 & H2).
      exists (o1, PkLoop r), (o2, PkLoop r). split; [exact L1|]. split; [exact L2|]. destruct Vx as (F1 & F2 & _). clear Vy L1 L2.
      assert (V : forall lr gl pi fi r o1 o2, Forall okk lr -> Forall okk (concat gl) -> pk_is nw w lr gl pi fi o1 -> pk_is nw w lr gl pi fi o2 ->
        pk_sim false (o1, PkLoop r) (o2, PkLoop r)).
      { intros lr' gl' pi' fi' r' a1 a2 G1 G2 I1 I2. exists lr', gl', pi', fi', r'. split; (split; [exact G1|]; split; [exact G2|]; left; auto). }
      unfold act. cbn [pack_ds t_act fst snd]. rewrite (pk_len_is H1), (pk_len_is H2). destruct gl as [|g gl]; cbn [map].
      - destruct (@pk_read_step_is A B nw size w Hw pre _ rs lr pi fi o1 r PkLoop PkDrain Hs H1) as (a1 & E1 & X1). rewrite E1. clear E1.
        destruct (@pk_read_step_is A B nw size w Hw pre _ rs lr pi fi o2 r PkLoop PkDrain Hs H2) as (a2 & E2 & X2). rewrite E2. clear E2.
        destruct (length lr <? size).
        + destruct X1 as (k1 & -> & X1 & _). destruct X2 as (k2 & -> & X2 & _). cbn [amatch]. intros [a|] HQ; [|cbn in HQ; discriminate].
          destruct (X1 a) as (p1 & -> & P1). destruct (X2 a) as (p2 & -> & P2). cbn [ematch].
          apply (V (lr ++ [a]) [] pi fi r); auto. apply Forall_app. split; [exact F1|]. repeat constructor. apply HQ. reflexivity.
        + destruct (length lr =? size); [|subst a1 a2; cbn; reflexivity].
          destruct (made pre w pi lr) as [gs|] eqn:M; [|subst a1 a2; cbn; reflexivity].
          destruct X1 as (p1 & P1 & ->). destruct X2 as (p2 & P2 & ->). destruct (10 <? S r); cbn [amatch ematch]; [reflexivity|].
          apply (V [] gs (S pi) fi (S r)); auto. exact (made_ok F1 M).
      - destruct (pk_final_is (PkLoop 0) H1) as (p1 & P1 & ->). destruct (pk_final_is (PkLoop 0) H2) as (p2 & P2 & ->).
        cbn [concat] in F2. apply Forall_app in F2. destruct F2 as [_ F2].
        destruct (f w fi (map pl g)); cbn [amatch ematch]; try split; try reflexivity; apply (V lr gl pi (S fi) 0); auto.
    Qed.
  End At.

  Hypothesis Hsel : forall w i l gs, pre w i l = UOk gs -> incl (concat gs) l.

  Lemma pk_restores rst ne : local_yields T rst nw ne true (fun rs w y => t_restore_sample T rs w (rk y) = Ok y) (ne = false).
  Proof. intros w rs Hw. eexists _, _. apply pk_local_ok; auto. Qed.

  Lemma pk_local_resumable rst : local_resumable T rst nw true true.
  Proof.
    intros w rs Hw. exists (pk_Inv w rs true), (pk_Sav w rs true), (pk_sim w rs). split; [|split].
    - eapply local_ok_weaken; [| |apply pk_local_ok; auto]; auto.
    - apply pk_local_sim; auto.
    - intros b [o g] sts (lr & gl & pi & fi & H) _ Hl HN. destruct H as [H|(H & _)]; [|discriminate].
      exists lr, gl, pi, fi, 0. split; [exact H|]. destruct H as (F1 & F2 & H). split; [exact F1|]. split; [exact F2|]. right.
      split; [reflexivity|]. split; [reflexivity|]. cbn [fst pack_ds t_restore t_merge]. apply pk_restore_may with (o := o); [|exact Hl|exact HN].
      destruct H as [[_ H]|(_ & _ & H)]; [apply pk_is_may|]; exact H.
  Qed.
End Plain.
