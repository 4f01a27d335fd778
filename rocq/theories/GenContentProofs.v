(** Generator batchers and generator map functions: resumption of the contents. *)
From Coq Require Import String.
From Verif Require Import Base Dataset DatasetProofs Wrap WrapProofs WrapRun WrapTrace WrapSpec WrapLib
  Wrappers MapModel IdxProofs Buffer BufferProofs Batch BatchSpec BatchProofs GenBatchProofs MapGenProofs RelabelProofs.
Local Open Scope list_scope.
Local Open Scope nat_scope.

Section BatchGen.
  Context {A B : Type} (nw size : nat) (drop_last : bool) (f : nat -> nat -> list A -> list B * gend).
  Hypothesis Hend : forall w i l, snd (f w i l) = GEnd.
  Hypothesis Hidx : forall w i i' l, f w i l = f w i' l.
  Variables (w : nat) (rs : rkey -> result (sample A)).
  Hypothesis Hw : w < nw.
  Notation T := (relabel (batchgen_ds nw size drop_last f)).

  Definition ys_of (batch : list (sample A)) : list B := fst (f w 0 (map pl batch)).
  Lemma f_is i batch : f w i (map pl batch) = (ys_of batch, GEnd).
  Proof. rewrite (Hidx w i 0). unfold ys_of. rewrite <- (Hend w 0 (map pl batch)). apply surjective_pairing. Qed.

  Definition bgl (o : bg_obj) : Prop := length (bg_key o) = nw /\ length (bg_off o) = nw.
  (** interrupted at output [j] of [batch] *)
  Definition at_off (o : bg_obj) (batch : list (sample A)) (j : nat) : Prop :=
    exists keys, nth w (bg_key o) None = Some keys /\ sequence (map rs keys) = Ok batch /\ nth w (bg_off o) None = Some j /\ j <= length (ys_of batch).
  Definition idle (o : bg_obj) : Prop := nth w (bg_key o) None = None /\ nth w (bg_off o) None = None.

  Definition bInv (b : bool) (x : lst T) : Prop :=
    let o := fst x in bgl o /\
    match snd x with
    | BgStart => idle o \/ exists batch j, at_off o batch j
    | BgResume batch keys _ j t => nth w (bg_key o) None = Some keys /\ sequence (map rs keys) = Ok batch /\ t <= length (ys_of batch) /\ j <= length (ys_of batch) /\ (t <= j -> j = 0 \/ nth w (bg_off o) None = Some j \/ j = t)
    | BgLoop batch keys => idle o /\ sequence (map rs keys) = Ok batch
    | BgGen last batch keys _ j => last = false /\ nth w (bg_key o) None = Some keys /\ sequence (map rs keys) = Ok batch /\ nth w (bg_off o) None = Some j /\ j <= length (ys_of batch)
    | BgEnd => False
    end.
  Definition bSav (b : bool) (x : lst T) : Prop :=
    let o := fst x in bgl o /\
    match snd x with
    | BgStart => idle o \/ exists batch j, at_off o batch j
    | BgResume batch keys _ j t => nth w (bg_key o) None = Some keys /\ sequence (map rs keys) = Ok batch /\ t <= j /\ nth w (bg_off o) None = Some j /\ j <= length (ys_of batch)
    | BgGen last batch keys _ j => last = false /\ nth w (bg_key o) None = Some keys /\ sequence (map rs keys) = Ok batch /\ nth w (bg_off o) None = Some j /\ j <= length (ys_of batch)
    | _ => False
    end.

  Lemma set_off_off o j : bgl o -> nth w (bg_off (bg_set_off w j o)) None = Some j.
  Proof. intros [_ H]. cbn. apply nth_upd_same. lia. Qed.
  Lemma set_off_bgl o j : bgl o -> bgl (bg_set_off w j o).
  Proof. intros [H1 H2]. split; cbn; [exact H1|rewrite upd_length; exact H2]. Qed.
  Lemma clear_bgl o : bgl o -> bgl (bg_clear w o).
  Proof. intros [H1 H2]. split; cbn; rewrite upd_length; assumption. Qed.
  Lemma clear_idle o : bgl o -> idle (bg_clear w o).
  Proof. intros [H1 H2]. split; cbn; apply nth_upd_same; lia. Qed.

  Definition merged_obj (sts : list (option (nat * option (option (list rkey) * nat)))) : bg_obj :=
    mkBg (merge_nat (map (option_map fst) sts)) (map (fun s => match s with Some (_, Some (k, _)) => k | _ => None end) sts) (map (fun s => match s with Some (_, Some (_, j)) => Some j | _ => None end) sts).
  Lemma merged o sts : nth_error sts w = Some (Some (t_save T w o)) -> (idle o -> idle (merged_obj sts)) /\ (forall batch j, at_off o batch j -> at_off (merged_obj sts) batch j).
  Proof.
    intros Hs. cbn [relabel batchgen_ds t_save] in Hs.
    assert (N : forall Y (h : option (nat * option (option (list rkey) * nat)) -> Y) d, nth w (map h sts) d = h (Some (nth w (bg_idx o) 0, match nth w (bg_off o) None with None => None | Some j => Some (nth w (bg_key o) None, j) end))).
    { intros Y h d. apply nth_error_nth. apply map_nth_error. exact Hs. }
    split.
    - intros [K O]. split; cbn [merged_obj bg_key bg_off]; rewrite N, O; reflexivity.
    - intros batch j (keys & K & S & O & J). exists keys. cbn [merged_obj bg_key bg_off]. rewrite !N, O. auto.
  Qed.

  Variables (rst ne : bool).
  Hypothesis Hfin : ne = true \/ drop_last = true.

  Lemma bg_local_ok : local_ok (T := T) rs w nw rst (Qof ne true rs) (fun _ => True) True bInv bSav.
  Proof.
    constructor.
    - split; [split; apply repeat_length|]. left. split; apply nth_repeat.
    - intros b [o g] [L H]. split; [exact L|]. cbn [fst snd] in *. destruct g as [|batch keys i j t|batch keys|last batch keys i j|]; try contradiction; auto. intuition; try lia.
    - intros b [o g] o' g' e [L HI] Ha. unfold act in Ha. cbn [relabel batchgen_ds t_act fst snd] in *.
      destruct g as [|batch keys i j t|batch keys|last batch keys i j|].
      + destruct HI as [[K O]|(batch & j & keys & K & S & O & J)].
        * rewrite K in Ha. cbn in Ha. injection Ha as <- <- <-. split; [exact L|]. split; [split; assumption|reflexivity].
        * rewrite K, O, S in Ha. cbn [nokey_act nokey] in Ha. injection Ha as <- <- <-. split; [apply set_off_bgl; exact L|]. cbn [fst snd]. cbn [bg_set_off bg_key]. intuition; try lia.
      + rewrite f_is in Ha. destruct HI as (K & S & TL & JL & TO). destruct (nth_error (ys_of batch) j) as [y|] eqn:Ej.
        * assert (JJ : j < length (ys_of batch)) by (apply nth_error_Some; congruence).
          destruct (Nat.leb_spec t j); cbn [nokey_act nokey] in Ha; injection Ha as <- <- <-.
          -- cbn [post]. split; [exact I|]. split; [apply set_off_bgl; exact L|]. cbn [fst snd]. rewrite set_off_off by exact L. cbn [bg_set_off bg_key]. intuition; try lia.
          -- split; [exact L|]. cbn [fst snd]. intuition; try lia.
        * cbn [nokey_act nokey] in Ha. injection Ha as <- <- <-. split; [apply clear_bgl; exact L|]. split; [apply clear_idle; exact L|reflexivity].
      + discriminate.
      + rewrite f_is in Ha. destruct HI as (-> & K & S & O & J). destruct (nth_error (ys_of batch) j) as [y|] eqn:Ej.
        * assert (JJ : j < length (ys_of batch)) by (apply nth_error_Some; congruence). cbn [nokey_act nokey] in Ha. injection Ha as <- <- <-.
          cbn [post]. split; [exact I|]. split; [apply set_off_bgl; exact L|]. cbn [fst snd]. rewrite set_off_off by exact L. cbn [bg_set_off bg_key]. intuition; try lia.
        * cbn [nokey_act nokey bg_next] in Ha. injection Ha as <- <- <-. split; [apply clear_bgl; exact L|]. split; [apply clear_idle; exact L|reflexivity].
      + contradiction.
    - intros b [o g] k r [L HI] Ha HQ. unfold act in Ha. cbn [relabel batchgen_ds t_act fst snd] in *.
      destruct g as [|batch keys i j t|batch keys|last batch keys i j|].
      + exfalso. destruct (nth w (bg_key o) None); [|discriminate]. destruct (nth w (bg_off o) None); [|discriminate]. destruct (sequence _); discriminate.
      + exfalso. destruct (f w i _) as [ys e]. destruct (nth_error ys j); [destruct (t <=? j)|destruct e]; discriminate.
      + cbn [nokey_act] in Ha. injection Ha as <-. destruct HI as [HI S]. destruct r as [a|].
        * assert (E : sequence (map rs (keys ++ [rk a])) = Ok (batch ++ [a])).
          { rewrite map_app. cbn [map]. cbn in HQ. rewrite (HQ eq_refl). apply sequence_snoc. exact S. }
          destruct (length (batch ++ [a]) =? size); cbn [bg_flush nokey post is_none].
          -- destruct L as [L1 L2]. split; [split; cbn; rewrite upd_length; assumption|]. cbn [fst snd bg_key bg_off]. rewrite !nth_upd_same by lia. intuition; try lia.
          -- split; [exact L|]. split; [exact HI|exact E].
        * cbn in HQ. destruct Hfin as [-> | ->]; [discriminate|]. rewrite andb_false_r. cbn [nokey post is_none]. split; [exact I|]. split; [right; reflexivity|]. split; [exact L|]. left. exact HI.
      + exfalso. destruct (f w i _) as [ys e]. destruct (nth_error ys j); [|destruct e]; discriminate.
      + discriminate.
    - intros b [o g] o' g' _ Ha. exfalso. unfold act in Ha. cbn [relabel t_act fst snd] in Ha.
      destruct (t_act (batchgen_ds nw size drop_last f) rs w o g) as [? ? ?|?|o1 g1] eqn:E; try discriminate. exact (bg_no_reset E).
    - intros b [o g] sts [L HS] Hl Hs. cbn [relabel batchgen_ds t_restore t_merge t_save fst snd] in *. split.
      + split; cbn; rewrite map_length; exact Hl.
      + cbn [snd fst]. destruct (merged Hs) as [G1 G2].
        assert (G : idle o \/ (exists batch j, at_off o batch j) -> idle (merged_obj sts) \/ exists batch j, at_off (merged_obj sts) batch j) by (intros [H|(batch & j & H)]; [left; auto|right; eauto]).
        apply G. destruct g as [|batch keys i j t|batch keys|last batch keys i j|]; try contradiction; auto; right; exists batch, j, keys; intuition.
    - intros b [o g] _ _. split; [split; apply repeat_length|]. left. split; apply nth_repeat.
  Qed.

  (** producing output [j] of [batch] next *)
  Definition running (batch : list (sample A)) (j : nat) (g : bg_gen (A := A)) : Prop :=
    (exists keys i, g = BgGen false batch keys i j) \/ (exists keys i t, g = BgResume batch keys i j t /\ t <= j).
  Definition bL (b : bool) (x1 x2 : lst T) : Prop :=
    bgl (fst x1) /\ bgl (fst x2) /\
    ((idle (fst x1) /\ idle (fst x2) /\ snd x1 = BgStart /\ snd x2 = BgStart) \/
     (exists batch k1 k2, idle (fst x1) /\ idle (fst x2) /\ snd x1 = BgLoop batch k1 /\ snd x2 = BgLoop batch k2) \/
     (exists batch j, j <= length (ys_of batch) /\ running batch j (snd x1) /\ running batch j (snd x2)) \/
     (exists batch j, at_off (fst x2) batch j /\ snd x2 = BgStart /\ ((at_off (fst x1) batch j /\ snd x1 = BgStart) \/ running batch j (snd x1)))).

  Lemma act_running batch j (o : t_obj T) (g : t_gen T) : running batch j g ->
    (exists g', act (T := T) rs w (o, g) = match nth_error (ys_of batch) j with
      | Some y => Local (bg_set_off w (S j) o) g' (Yield (mkS y []))
      | None => Local (bg_clear w o) (BgLoop [] []) Tau end /\ running batch (S j) g').
  Proof.
    unfold act. cbn [relabel batchgen_ds t_act fst snd]. intros [(keys & i & ->)|(keys & i & t & -> & Ht)]; rewrite f_is; destruct (nth_error (ys_of batch) j) as [y|].
    - eexists. split; [reflexivity|]. left. eauto.
    - exists (BgGen false batch keys i (S j)). split; [reflexivity|]. left. eauto.
    - destruct (Nat.leb_spec t j); [|lia]. eexists. split; [reflexivity|]. right. exists keys, i, t. split; [reflexivity|lia].
    - exists (BgResume batch keys i (S j) t). split; [reflexivity|]. right. exists keys, i, t. split; [reflexivity|lia].
  Qed.

  (** a restored generator skips what was already yielded *)
  Lemma skips o batch keys i t : t <= length (ys_of batch) -> forall d, d <= t -> ltaus (T := T) rs w (o, BgResume batch keys i (t - d) t) (o, BgResume batch keys i t t).
  Proof.
    intros TL. induction d as [|d IH]; intros Hd; [rewrite Nat.sub_0_r; constructor|].
    assert (N : exists y, nth_error (ys_of batch) (t - S d) = Some y). { destruct (nth_error (ys_of batch) (t - S d)) eqn:E; [eauto|]. apply nth_error_None in E. lia. }
    destruct N as (y & N). eapply (lt_step (o := o)).
    - unfold act. cbn [relabel batchgen_ds t_act fst snd]. rewrite f_is, N. destruct (Nat.leb_spec t (t - S d)); [lia|]. reflexivity.
    - replace (S (t - S d)) with (t - d) by lia. apply IH. lia.
  Qed.
  Lemma ltaus_trans' l1 l2 l3 : ltaus (T := T) rs w l1 l2 -> ltaus rs w l2 l3 -> ltaus rs w l1 l3.
  Proof. induction 1; intros H3; [exact H3|]. econstructor; [eassumption|]. auto. Qed.
  Lemma resumes o batch j : bgl o -> at_off o batch j -> exists o' g', ltaus (T := T) rs w (o, BgStart) (o', g') /\ bgl o' /\ running batch j g'.
  Proof.
    intros L (keys & K & S & O & J). exists (bg_set_off w 0 o), (BgResume batch keys (nth w (bg_idx o) 0) j j). split.
    - eapply lt_step.
      + unfold act. cbn [relabel batchgen_ds t_act fst snd]. rewrite K, O, S. reflexivity.
      + assert (Q := @skips (bg_set_off w 0 o) batch keys (nth w (bg_idx o) 0) j J j (le_n _)). rewrite Nat.sub_diag in Q. exact Q.
    - split; [apply set_off_bgl; exact L|]. right. exists keys, (nth w (bg_idx o) 0), j. split; [reflexivity|lia].
  Qed.

  Lemma bg_sim : local_sim (T := T) rs w (Qof ne true rs) bL.
  Proof.
    intros b [o1 g1] [o2 g2] (L1 & L2 & H). cbn [fst snd] in *.
    assert (RUN : forall batch j (o1 : t_obj T) (g1 : t_gen T) (o2 : t_obj T) (g2 : t_gen T), bgl o1 -> bgl o2 -> j <= length (ys_of batch) -> running batch j g1 -> running batch j g2 -> amatch (T := T) (Qof ne true rs) bL b (act (T := T) rs w (o1, g1)) (act (T := T) rs w (o2, g2))).
    { clear H L1 L2 o1 g1 o2 g2. intros batch j o1 g1 o2 g2 L1 L2 J R1 R2. destruct (act_running o1 R1) as (g1' & -> & R1'). destruct (act_running o2 R2) as (g2' & -> & R2').
      destruct (nth_error (ys_of batch) j) as [y|] eqn:E; cbn [amatch ematch].
      - split; [reflexivity|]. split; [apply set_off_bgl; exact L1|]. split; [apply set_off_bgl; exact L2|]. right. right. left. exists batch, (S j). cbn [snd]. split; [|split; assumption]. apply nth_error_Some. congruence.
      - split; [apply clear_bgl; exact L1|]. split; [apply clear_bgl; exact L2|]. right. left. exists [], [], []. cbn [fst snd]. auto using clear_idle. }
    destruct H as [(I1 & I2 & -> & ->)|[(batch & k1 & k2 & I1 & I2 & -> & ->)|[(batch & j & J & R1 & R2)|(batch & j & A2 & -> & H)]]].
    - exists (o1, BgStart), (o2, BgStart). split; [constructor|]. split; [constructor|]. unfold act. cbn [relabel batchgen_ds t_act fst snd]. rewrite (proj1 I1), (proj1 I2). cbn [nokey_act nokey amatch ematch].
      split; [exact L1|]. split; [exact L2|]. right. left. exists [], [], []. auto.
    - exists (o1, BgLoop batch k1), (o2, BgLoop batch k2). split; [constructor|]. split; [constructor|]. unfold act. cbn [relabel batchgen_ds t_act fst snd nokey_act amatch]. intros r HQ. destruct r as [a|].
      + destruct (length (batch ++ [a]) =? size); cbn [bg_flush nokey ematch is_none].
        * destruct L1 as [L11 L12], L2 as [L21 L22]. split; [split; cbn; rewrite upd_length; assumption|]. split; [split; cbn; rewrite upd_length; assumption|]. right. right. left. exists (batch ++ [a]), 0. split; [lia|]. split; left; cbn; eauto.
        * split; [exact L1|]. split; [exact L2|]. right. left. exists (batch ++ [a]), (k1 ++ [rk a]), (k2 ++ [rk a]). auto.
      + cbn in HQ. destruct Hfin as [-> | ->]; [discriminate|]. rewrite andb_false_r. cbn [nokey ematch is_none]. split; [right; reflexivity|]. split; [exact L1|]. split; [exact L2|]. left. auto.
    - exists (o1, g1), (o2, g2). split; [constructor|]. split; [constructor|]. apply (RUN batch j); assumption.
    - destruct (resumes L2 A2) as (o2' & g2' & T2 & L2' & R2). assert (J : j <= length (ys_of batch)) by (destruct A2 as (? & ? & ? & ? & ?); assumption). destruct H as [[A1 ->]|R1].
      + destruct (resumes L1 A1) as (o1' & g1' & T1 & L1' & R1). exists (o1', g1'), (o2', g2'). split; [exact T1|]. split; [exact T2|]. apply (RUN batch j); assumption.
      + exists (o1, g1), (o2', g2'). split; [constructor|]. split; [exact T2|]. apply (RUN batch j); assumption.
  Qed.
End BatchGen.

Lemma bg_contents_local {A B} nw size drop (f : nat -> nat -> list A -> list B * gend) rst ne :
  (forall w i l, snd (f w i l) = GEnd) -> (forall w i i' l, f w i l = f w i' l) -> ne = true \/ drop = true ->
  local_resumable (relabel (batchgen_ds nw size drop f)) rst nw ne true.
Proof.
  intros Hend Hidx Hfin w rs Hw. eexists _, _, (@bL A B nw size drop f w rs).
  assert (LO := @bg_local_ok A B nw size drop f Hend Hidx w rs Hw rst ne Hfin).
  split; [exact LO|]. split; [apply bg_sim; auto|].
  intros b x sts HS _ Hl Hs. destruct x as [o g]. destruct (@merged A B nw size drop f w rs o sts Hs) as [G1 G2]. destruct HS as [L HS].
  split; [exact L|]. split; [split; cbn; rewrite map_length; exact Hl|]. cbn [fst snd relabel t_restore t_merge batchgen_ds t_iter] in *.
  assert (RUN : forall batch j, @at_off A B f w rs o batch j -> running batch j g -> exists batch j, @at_off A B f w rs (merged_obj sts) batch j /\ BgStart (A := A) = BgStart /\ (@at_off A B f w rs o batch j /\ g = BgStart \/ running batch j g)) by (intros batch j A0 R; exists batch, j; auto).
  destruct g as [|batch keys i j t|batch keys|last batch keys i j|]; try contradiction.
  - destruct HS as [HS|(batch & j & HS)]; [left; auto|]. right. right. right. exists batch, j. auto.
  - right. right. right. apply (RUN batch j); [exists keys; intuition|]. right. exists keys, i, t. intuition.
  - right. right. right. destruct HS as (-> & HS). apply (RUN batch j); [exists keys; intuition|]. left. eauto.
Qed.

Section MapGen.
  Context {A B : Type} (nw : nat) (f : nat -> nat -> A -> list B * gend).
  Hypothesis Hend : forall w i l, snd (f w i l) = GEnd.
  Hypothesis Hidx : forall w i i' l, f w i l = f w i' l.
  Variables (w : nat) (rs : rkey -> result (sample A)).
  Hypothesis Hw : w < nw.
  Notation T := (relabel (mapgen_ds nw f)).

  Definition mys (a : sample A) : list B := fst (f w 0 (pl a)).
  Lemma mf_is i a : f w i (pl a) = (mys a, GEnd).
  Proof. rewrite (Hidx w i 0). unfold mys. rewrite <- (Hend w 0 (pl a)). apply surjective_pairing. Qed.

  Definition mgl (o : mg_obj) : Prop := length (mg_key o) = nw /\ length (mg_off o) = nw.
  Definition mat_off (o : mg_obj) (a : sample A) (j : nat) : Prop :=
    exists key, nth w (mg_key o) None = Some key /\ rs key = Ok a /\ nth w (mg_off o) None = Some j /\ j <= length (mys a).
  Definition midle (o : mg_obj) : Prop := nth w (mg_key o) None = None /\ nth w (mg_off o) None = None.

  Definition mInv (b : bool) (x : lst T) : Prop :=
    let o := fst x in mgl o /\
    match snd x with
    | MgStart => midle o \/ exists a j, mat_off o a j
    | MgResume a _ j t => (exists key, nth w (mg_key o) None = Some key /\ rs key = Ok a) /\ t <= length (mys a) /\ j <= length (mys a)
    | MgLoop => midle o
    | MgGen a _ j => mat_off o a j
    end.
  Definition mSav (b : bool) (x : lst T) : Prop :=
    let o := fst x in mgl o /\
    match snd x with
    | MgStart => midle o \/ exists a j, mat_off o a j
    | MgResume a _ j t => t <= j /\ mat_off o a j
    | MgGen a _ j => mat_off o a j
    | _ => False
    end.

  Lemma mset_off_off o j : mgl o -> nth w (mg_off (mg_set_off w j o)) None = Some j.
  Proof. intros [_ H]. cbn. apply nth_upd_same. lia. Qed.
  Lemma mset_off_mgl o j : mgl o -> mgl (mg_set_off w j o).
  Proof. intros [H1 H2]. split; cbn; [exact H1|rewrite upd_length; exact H2]. Qed.
  Lemma mclear_mgl o : mgl o -> mgl (mg_clear w o).
  Proof. intros [H1 H2]. split; cbn; rewrite upd_length; assumption. Qed.
  Lemma mclear_idle o : mgl o -> midle (mg_clear w o).
  Proof. intros [H1 H2]. split; cbn; apply nth_upd_same; lia. Qed.

  Definition mmerged (sts : list (option (nat * option (option rkey * nat)))) : mg_obj :=
    mkMg (merge_nat (map (option_map fst) sts)) (map (fun s => match s with Some (_, Some (k, _)) => k | _ => None end) sts) (map (fun s => match s with Some (_, Some (_, j)) => Some j | _ => None end) sts).
  Lemma mmerged_ok o sts : nth_error sts w = Some (Some (t_save T w o)) -> (midle o -> midle (mmerged sts)) /\ (forall a j, mat_off o a j -> mat_off (mmerged sts) a j).
  Proof.
    intros Hs. cbn [relabel mapgen_ds t_save] in Hs.
    assert (N : forall Y (h : option (nat * option (option rkey * nat)) -> Y) d, nth w (map h sts) d = h (Some (nth w (mg_idx o) 0, match nth w (mg_off o) None with None => None | Some j => Some (nth w (mg_key o) None, j) end))).
    { intros Y h d. apply nth_error_nth. apply map_nth_error. exact Hs. }
    split.
    - intros [K O]. split; cbn [mmerged mg_key mg_off]; rewrite N, O; reflexivity.
    - intros a j (key & K & S & O & J). exists key. cbn [mmerged mg_key mg_off]. rewrite !N, O. auto.
  Qed.

  Variables (rst ne : bool).

  Lemma mg_local_ok' : local_ok (T := T) rs w nw rst (Qof ne true rs) (fun _ => True) True mInv mSav.
  Proof.
    constructor.
    - split; [split; apply repeat_length|]. left. split; apply nth_repeat.
    - intros b [o g] [L H]. split; [exact L|]. cbn [fst snd] in *. destruct g as [|a i j t| |a i j]; try contradiction; auto. destruct H as (TJ & key & K & S & O & J). split; [eauto|]. split; [lia|exact J].
    - intros b [o g] o' g' e [L HI] Ha. unfold act in Ha. cbn [relabel mapgen_ds t_act fst snd] in *.
      destruct g as [|a i j t| |a i j].
      + destruct HI as [[K O]|(a & j & key & K & S & O & J)].
        * rewrite K in Ha. cbn in Ha. injection Ha as <- <- <-. split; [exact L|]. split; assumption.
        * rewrite K, O, S in Ha. cbn [nokey_act nokey] in Ha. injection Ha as <- <- <-. split; [apply mset_off_mgl; exact L|]. cbn [fst snd]. cbn [mg_set_off mg_key]. split; [eauto|]. lia.
      + rewrite mf_is in Ha. destruct HI as ((key & K & S) & TL & JL). destruct (nth_error (mys a) j) as [y|] eqn:Ej.
        * assert (JJ : j < length (mys a)) by (apply nth_error_Some; congruence).
          destruct (Nat.leb_spec t j); cbn [nokey_act nokey] in Ha; injection Ha as <- <- <-.
          -- cbn [post]. split; [exact I|]. split; [apply mset_off_mgl; exact L|]. cbn [fst snd]. split; [lia|]. exists key. rewrite mset_off_off by exact L. auto.
          -- split; [exact L|]. cbn [fst snd]. split; [eauto|lia].
        * cbn [nokey_act nokey] in Ha. injection Ha as <- <- <-. split; [apply mclear_mgl; exact L|]. apply mclear_idle; exact L.
      + discriminate.
      + rewrite mf_is in Ha. destruct HI as (key & K & S & O & J). destruct (nth_error (mys a) j) as [y|] eqn:Ej.
        * assert (JJ : j < length (mys a)) by (apply nth_error_Some; congruence). cbn [nokey_act nokey] in Ha. injection Ha as <- <- <-.
          cbn [post]. split; [exact I|]. split; [apply mset_off_mgl; exact L|]. cbn [fst snd]. exists key. rewrite mset_off_off by exact L. auto.
        * cbn [nokey_act nokey] in Ha. injection Ha as <- <- <-. split; [apply mclear_mgl; exact L|]. apply mclear_idle; exact L.
    - intros b [o g] k r [L HI] Ha HQ. unfold act in Ha. cbn [relabel mapgen_ds t_act fst snd] in *.
      destruct g as [|a i j t| |a i j].
      + exfalso. destruct (nth w (mg_key o) None); [|discriminate]. destruct (nth w (mg_off o) None); [|discriminate]. destruct (rs _); discriminate.
      + exfalso. destruct (f w i _) as [ys e]. destruct (nth_error ys j); [destruct (t <=? j)|destruct e]; discriminate.
      + cbn [nokey_act] in Ha. injection Ha as <-. destruct r as [a|]; cbn [nokey post is_none].
        * destruct L as [L1 L2]. split; [split; cbn; rewrite upd_length; assumption|]. cbn [fst snd]. exists (rk a). cbn [mg_key mg_off]. rewrite !nth_upd_same by lia. cbn in HQ. rewrite (HQ eq_refl). split; [reflexivity|]. split; [reflexivity|]. split; [reflexivity|lia].
        * split; [exact I|]. split; [right; reflexivity|]. split; [exact L|]. left. exact HI.
      + exfalso. destruct (f w i _) as [ys e]. destruct (nth_error ys j); [|destruct e]; discriminate.
    - intros b [o g] o' g' _ Ha. exfalso. unfold act in Ha. cbn [relabel t_act fst snd] in Ha.
      destruct (t_act (mapgen_ds nw f) rs w o g) as [? ? ?|?|o1 g1] eqn:E; try discriminate. exact (mg_no_reset E).
    - intros b [o g] sts [L HS] Hl Hs. cbn [relabel mapgen_ds t_restore t_merge fst snd] in *. split.
      + split; cbn; rewrite map_length; exact Hl.
      + cbn [snd fst]. destruct (mmerged_ok Hs) as [G1 G2].
        assert (G : midle o \/ (exists a j, mat_off o a j) -> midle (mmerged sts) \/ exists a j, mat_off (mmerged sts) a j) by (intros [H|(a & j & H)]; [left; auto|right; eauto]).
        apply G. destruct g as [|a i j t| |a i j]; try contradiction; auto; right; exists a, j; intuition.
    - intros b [o g] _ _. split; [split; apply repeat_length|]. left. split; apply nth_repeat.
  Qed.

  Definition mrunning (a : sample A) (j : nat) (g : mg_gen (A := A)) : Prop :=
    (exists i, g = MgGen a i j) \/ (exists i t, g = MgResume a i j t /\ t <= j).
  Definition mL (b : bool) (x1 x2 : lst T) : Prop :=
    mgl (fst x1) /\ mgl (fst x2) /\
    ((midle (fst x1) /\ midle (fst x2) /\ snd x1 = snd x2 /\ (snd x1 = MgStart \/ snd x1 = MgLoop)) \/
     (exists a j, j <= length (mys a) /\ mrunning a j (snd x1) /\ mrunning a j (snd x2)) \/
     (exists a j, mat_off (fst x2) a j /\ snd x2 = MgStart /\ ((mat_off (fst x1) a j /\ snd x1 = MgStart) \/ mrunning a j (snd x1)))).

  Lemma act_mrunning a j (o : t_obj T) (g : t_gen T) : mrunning a j g ->
    (exists g', act (T := T) rs w (o, g) = match nth_error (mys a) j with
      | Some y => Local (mg_set_off w (S j) o) g' (Yield (mkS y []))
      | None => Local (mg_clear w o) MgLoop Tau end /\ mrunning a (S j) g').
  Proof.
    unfold act. cbn [relabel mapgen_ds t_act fst snd]. intros [(i & ->)|(i & t & -> & Ht)]; rewrite mf_is; destruct (nth_error (mys a) j) as [y|].
    - eexists. split; [reflexivity|]. left. eauto.
    - exists (MgGen a i (S j)). split; [reflexivity|]. left. eauto.
    - destruct (Nat.leb_spec t j); [|lia]. eexists. split; [reflexivity|]. right. exists i, t. split; [reflexivity|lia].
    - exists (MgResume a i (S j) t). split; [reflexivity|]. right. exists i, t. split; [reflexivity|lia].
  Qed.
  Lemma mskips o a i t : t <= length (mys a) -> forall d, d <= t -> ltaus (T := T) rs w (o, MgResume a i (t - d) t) (o, MgResume a i t t).
  Proof.
    intros TL. induction d as [|d IH]; intros Hd; [rewrite Nat.sub_0_r; constructor|].
    assert (N : exists y, nth_error (mys a) (t - S d) = Some y). { destruct (nth_error (mys a) (t - S d)) eqn:E; [eauto|]. apply nth_error_None in E. lia. }
    destruct N as (y & N). eapply (lt_step (o := o)).
    - unfold act. cbn [relabel mapgen_ds t_act fst snd]. rewrite mf_is, N. destruct (Nat.leb_spec t (t - S d)); [lia|]. reflexivity.
    - replace (S (t - S d)) with (t - d) by lia. apply IH. lia.
  Qed.
  Lemma mresumes o a j : mgl o -> mat_off o a j -> exists o' g', ltaus (T := T) rs w (o, MgStart) (o', g') /\ mgl o' /\ mrunning a j g'.
  Proof.
    intros L (key & K & S & O & J). exists (mg_set_off w 0 o), (MgResume a (nth w (mg_idx o) 0) j j). split.
    - eapply lt_step.
      + unfold act. cbn [relabel mapgen_ds t_act fst snd]. rewrite K, O, S. reflexivity.
      + assert (Q := @mskips (mg_set_off w 0 o) a (nth w (mg_idx o) 0) j J j (le_n _)). rewrite Nat.sub_diag in Q. exact Q.
    - split; [apply mset_off_mgl; exact L|]. right. exists (nth w (mg_idx o) 0), j. split; [reflexivity|lia].
  Qed.

  Lemma mg_sim' : local_sim (T := T) rs w (Qof ne true rs) mL.
  Proof.
    intros b [o1 g1] [o2 g2] (L1 & L2 & H). cbn [fst snd] in *.
    assert (RUN : forall a j (o1 : t_obj T) (g1 : t_gen T) (o2 : t_obj T) (g2 : t_gen T), mgl o1 -> mgl o2 -> j <= length (mys a) -> mrunning a j g1 -> mrunning a j g2 -> amatch (T := T) (Qof ne true rs) mL b (act (T := T) rs w (o1, g1)) (act (T := T) rs w (o2, g2))).
    { clear H L1 L2 o1 g1 o2 g2. intros a j o1 g1 o2 g2 L1 L2 J R1 R2. destruct (act_mrunning o1 R1) as (g1' & -> & R1'). destruct (act_mrunning o2 R2) as (g2' & -> & R2').
      destruct (nth_error (mys a) j) as [y|] eqn:E; cbn [amatch ematch].
      - split; [reflexivity|]. split; [apply mset_off_mgl; exact L1|]. split; [apply mset_off_mgl; exact L2|]. right. left. exists a, (S j). cbn [snd]. split; [|split; assumption]. apply nth_error_Some. congruence.
      - split; [apply mclear_mgl; exact L1|]. split; [apply mclear_mgl; exact L2|]. left. cbn [fst snd]. auto using mclear_idle. }
    destruct H as [(I1 & I2 & <- & [-> | ->])|[(a & j & J & R1 & R2)|(a & j & A2 & -> & H)]].
    - exists (o1, MgStart), (o2, MgStart). split; [constructor|]. split; [constructor|]. unfold act. cbn [relabel mapgen_ds t_act fst snd]. rewrite (proj1 I1), (proj1 I2). cbn [nokey_act nokey amatch ematch].
      split; [exact L1|]. split; [exact L2|]. left. auto.
    - exists (o1, MgLoop), (o2, MgLoop). split; [constructor|]. split; [constructor|]. unfold act. cbn [relabel mapgen_ds t_act fst snd nokey_act amatch]. intros r HQ. destruct r as [a|]; cbn [nokey ematch is_none].
      + destruct L1 as [L11 L12], L2 as [L21 L22]. split; [split; cbn; rewrite upd_length; assumption|]. split; [split; cbn; rewrite upd_length; assumption|]. right. left. exists a, 0. split; [lia|]. split; left; cbn; eauto.
      + split; [right; reflexivity|]. split; [exact L1|]. split; [exact L2|]. left. auto.
    - exists (o1, g1), (o2, g2). split; [constructor|]. split; [constructor|]. apply (RUN a j); assumption.
    - destruct (mresumes L2 A2) as (o2' & g2' & T2 & L2' & R2). assert (J : j <= length (mys a)) by (destruct A2 as (? & ? & ? & ? & ?); assumption). destruct H as [[A1 ->]|R1].
      + destruct (mresumes L1 A1) as (o1' & g1' & T1 & L1' & R1). exists (o1', g1'), (o2', g2'). split; [exact T1|]. split; [exact T2|]. apply (RUN a j); assumption.
      + exists (o1, g1), (o2', g2'). split; [constructor|]. split; [exact T2|]. apply (RUN a j); assumption.
  Qed.
End MapGen.

Lemma mg_contents_local {A B} nw (f : nat -> nat -> A -> list B * gend) rst ne :
  (forall w i l, snd (f w i l) = GEnd) -> (forall w i i' l, f w i l = f w i' l) ->
  local_resumable (relabel (mapgen_ds nw f)) rst nw ne true.
Proof.
  intros Hend Hidx w rs Hw. eexists _, _, (@mL A B nw f w rs).
  assert (LO := @mg_local_ok' A B nw f Hend Hidx w rs Hw rst ne).
  split; [exact LO|]. split; [apply mg_sim'; auto|].
  intros b x sts HS _ Hl Hs. destruct x as [o g]. destruct (@mmerged_ok A B nw f w rs o sts Hs) as [G1 G2]. destruct HS as [L HS].
  split; [exact L|]. split; [split; cbn; rewrite map_length; exact Hl|]. cbn [fst snd relabel t_restore t_merge mapgen_ds t_iter] in *.
  destruct g as [|a i j t| |a i j]; try contradiction.
  - destruct HS as [HS|(a & j & HS)]; [left; auto|]. right. right. exists a, j. auto.
  - right. right. destruct HS as [TJ HS]. exists a, j. split; [apply G2; exact HS|]. split; [reflexivity|]. right. right. eauto.
  - right. right. exists a, j. split; [apply G2; exact HS|]. split; [reflexivity|]. right. left. eauto.
Qed.
