From Verif Require Import Base Dataset DatasetProofs Wrap WrapProofs WrapRun WrapTrace WrapSpec WrapLib
  Wrappers IdxProofs.

Lemma samples_app {P} (l1 l2 : list (event (sample P))) : samples (l1 ++ l2) = samples l1 ++ samples l2.
Proof. induction l1 as [|[a| | |] l1 IH]; cbn; rewrite ?IH; reflexivity. Qed.
Lemma n_done_app {P} (l1 l2 : list (event (sample P))) : n_done (l1 ++ l2) = n_done l1 + n_done l2.
Proof. induction l1 as [|[a| | |] l1 IH]; cbn; rewrite ?IH; reflexivity. Qed.
Lemma samples_Yield {P} (l : list (sample P)) : samples (map Yield l) = l.
Proof. induction l as [|a l IH]; cbn; [reflexivity|]. rewrite IH. reflexivity. Qed.
Lemma n_done_Yield {P} (l : list (sample P)) : n_done (map Yield l) = 0.
Proof. induction l as [|a l IH]; cbn; auto. Qed.
Lemma samples_epoch {P} (l : list (sample P)) : samples (epoch l) = l.
Proof. unfold epoch. rewrite samples_app, samples_Yield. cbn. apply app_nil_r. Qed.
Lemma n_done_epoch {P} (l : list (sample P)) : n_done (epoch l) = 1.
Proof. unfold epoch. rewrite n_done_app, n_done_Yield. reflexivity. Qed.

Lemma clean_map_inp {P} (ins : list (option (sample P))) : clean (map inp ins).
Proof. apply Forall_forall. intros e He. apply in_map_iff in He as ([a|] & <- & _); exact I. Qed.

Section Infinite.
  Context {A : Type} (nw : nat) (has : nat -> bool).
  Notation T := (repeat_ds (A := A) nw None has).

  Lemma repeat_inf_ltaus rs w (x : lst T) : has w = true -> exists o k, ltaus rs w x (o, RpIn k).
  Proof.
    intros H. destruct x as [o g]. destruct g as [|k|k].
    - eexists _, _. eapply lt_step; [unfold act; cbn; rewrite H; reflexivity|].
      eapply lt_step; [reflexivity|]. constructor.
    - eexists _, _. eapply lt_step; [reflexivity|]. constructor.
    - eexists _, _. constructor.
  Qed.

  Lemma repeat_inf_ok rst ne w rs nr : has w = true ->
    local_ok (T := T) rs w nw rst (Qof ne nr rs) (fun y => nr = true -> rs (rk y) = Ok y) False (fun _ _ => True) (fun _ _ => True).
  Proof.
    intros H. constructor; auto.
    - intros b [o g] o' g' e _ Ha. unfold act in Ha. destruct g as [|k|k]; cbn in Ha.
      + rewrite H in Ha. injection Ha as <- <- <-. exact I.
      + injection Ha as <- <- <-. exact I.
      + discriminate.
    - intros b [o g] k r _ Ha HQ. unfold act in Ha. destruct g as [|j|j]; cbn in Ha; try discriminate.
      { destruct (has w); discriminate. }
      injection Ha as <-. destruct r as [a|]; cbn; auto.
  Qed.

  Lemma repeat_inf_resumable rst ne nr : (forall w, w < nw -> has w = true) -> local_resumable T rst nw ne nr.
  Proof.
    intros H w rs Hw. exists (fun _ _ => True), (fun _ _ => True), (fun _ _ _ => True).
    split; [|split; auto].
    - eapply local_ok_weaken; [| |apply repeat_inf_ok; auto]; auto.
    - intros b l1 l2 _.
      destruct (@repeat_inf_ltaus rs w l1 (H w Hw)) as (o1 & k1 & L1).
      destruct (@repeat_inf_ltaus rs w l2 (H w Hw)) as (o2 & k2 & L2).
      eexists _, _. split; [exact L1|]. split; [exact L2|]. cbn. intros [a|] _; cbn; auto.
  Qed.

  Lemma repeat_no_reset reps : no_reset (repeat_ds (A := A) nw reps has).
  Proof.
    intros rs w o g o' g'. destruct g as [|k|k]; cbn [repeat_ds t_act].
    - destruct reps; [discriminate|]. destruct (has w); discriminate.
    - destruct reps as [n|]; [destruct (k <? n)|]; discriminate.
    - discriminate.
  Qed.

  Section Trace.
    Variables (D : dataset A) (w : nat).
    Hypothesis Hhas : has w = true.

    Definition rpi_J (ins : list (option (sample A))) (outs : list (event (sample A))) (b : bool) (x : lst T) : Prop :=
      outs = map Yield (samples (map inp ins)).

    Lemma rpi_trace_ok : trace_ok D w rpi_J.
    Proof.
      intros ins outs b [o g] HJ. unfold rpi_J in *. subst outs. unfold act. destruct g as [|k|k]; cbn.
      - rewrite Hhas. intros _. split; [exact I|]. cbn. apply app_nil_r.
      - intros _. split; [exact I|]. apply app_nil_r.
      - intros [a|] _; (split; [exact I|]); cbn; rewrite map_inp_snoc, samples_app; cbn; rewrite ?map_app, ?app_nil_r; reflexivity.
    Qed.

    Theorem repeat_inf_trace outs : clean outs -> emits (D := wrap T D) w (fresh (wrap T D)) outs ->
      exists ins, clean ins /\ emits w (fresh D) ins /\ outs = map Yield (samples ins).
    Proof.
      intros HC E.
      destruct (@wrap_trace _ _ T D w rpi_J rpi_trace_ok outs (fresh (wrap T D)) true HC eq_refl
                  (@fresh_it_ok _ _ T D true) E) as (ins & b & l & E1 & J1).
      exists (map inp ins). split; [apply clean_map_inp|]. auto.
    Qed.

    Theorem repeat_inf_forward ins : clean ins -> emits w (fresh D) ins ->
      emits (D := wrap T D) w (fresh (wrap T D)) (map Yield (samples ins)).
    Proof.
      intros HC E. destruct (clean_inp HC) as (ins' & ->).
      assert (P : trace_progress D w rpi_J (fun x => match snd x with RpStart => 2 | RpHead _ => 1 | RpIn _ => 0 end)).
      { intros i o b [oo g] _. unfold act. destruct g as [|k|k]; cbn.
        - rewrite Hhas. cbn. split; [reflexivity|lia].
        - split; [reflexivity|lia].
        - intros [a|]; reflexivity. }
      destruct (@wrap_forward _ _ T D w rpi_J rpi_trace_ok _ P (fresh (wrap T D)) true ins' eq_refl
                  (@fresh_it_ok _ _ T D true) E) as (outs & b & l & E1 & J1 & _).
      unfold rpi_J in J1. subst outs. exact E1.
    Qed.
  End Trace.
End Infinite.

Section Finite.
  Context {A : Type} (nw n : nat) (has : nat -> bool).
  Notation T := (repeat_ds (A := A) nw (Some n) has).
  Variables (D : dataset A) (w : nat).
  Hypothesis Hw : w < nw.

  (** [outs]: the samples of the inner events [ins], and nothing but ends after [n] inner epochs *)
  Definition repeated (ins outs : list (event (sample A))) : Prop :=
    (n_done ins <= n /\ outs = map Yield (samples ins)) \/
    (n_done ins = n /\ exists m, outs = map Yield (samples ins) ++ repeat Done m).

  Definition rpf_J (ins : list (option (sample A))) (outs : list (event (sample A))) (b : bool) (x : lst T) : Prop :=
    let ev := map inp ins in
    length (fst x) = nw /\
    match snd x with
    | RpStart => (ins = [] /\ outs = [] /\ nth w (fst x) 0 = 0 /\ b = true) \/
                 (n_done ev = n /\ nth w (fst x) 0 = n /\ b = true /\ exists m, outs = map Yield (samples ev) ++ repeat Done m)
    | RpHead k => n_done ev = k /\ k <= n /\ nth w (fst x) 0 = k /\ b = true /\
                  (outs = map Yield (samples ev) \/ k = n /\ exists m, outs = map Yield (samples ev) ++ repeat Done m)
    | RpIn k => n_done ev = k /\ k < n /\ nth w (fst x) 0 = S k /\ outs = map Yield (samples ev)
    end.

  Lemma repeat_snoc {X} (x : X) m : repeat x m ++ [x] = repeat x (S m).
  Proof. induction m as [|m IH]; cbn; [reflexivity|]. rewrite IH. reflexivity. Qed.

  Lemma rpf_trace_ok : trace_ok D w rpf_J.
  Proof.
    intros ins outs b [o g] [HL HJ]. cbn [fst snd] in *. unfold act. destruct g as [|k|k]; cbn [repeat_ds t_act fst snd].
    - intros _. split; [exact I|]. cbn [obs after]. rewrite app_nil_r. split; [exact HL|]. cbn [snd fst].
      destruct HJ as [(-> & -> & H0 & Hb)|(H1 & H2 & Hb & m & ->)].
      + rewrite H0. cbn. repeat split; auto; lia.
      + rewrite H2. repeat split; auto. right. eauto.
    - destruct HJ as (H1 & H2 & H3 & Hb & HO). destruct (k <? n) eqn:E.
      + apply Nat.ltb_lt in E. intros _. split; [exact I|]. cbn [obs after]. rewrite app_nil_r.
        split; [cbn; rewrite upd_length; exact HL|]. cbn [snd fst]. rewrite nth_upd_same by lia.
        repeat split; auto. destruct HO as [->|[-> _]]; [reflexivity|lia].
      + apply Nat.ltb_ge in E. assert (k = n) by lia. subst k. intros _. split; [right; exact Hb|].
        cbn [obs after repeat_ds t_iter]. split; [exact HL|]. cbn [snd fst]. right.
        split; [lia|]. split; [lia|]. split; [exact Hb|].
        destruct HO as [->|[_ (m & ->)]]; [exists 1; reflexivity|exists (S m)].
        rewrite <- app_assoc, repeat_snoc. reflexivity.
    - destruct HJ as (H1 & H2 & H3 & ->). intros [a|] _; (split; [exact I|]); cbn [ev_of obs after]; (split; [exact HL|]);
        cbn [snd fst]; rewrite map_inp_snoc, n_done_app, samples_app; cbn [inp samples n_done].
      + rewrite map_app. repeat split; auto; lia.
      + rewrite !app_nil_r. repeat split; auto; lia.
  Qed.

  Lemma rpf_J_init : rpf_J [] [] true (t_init T, t_iter T).
  Proof.
    split; [apply repeat_length|]. left. repeat split; auto. cbn. clear. revert w. induction nw as [|k IH]; intros [|w]; cbn; auto.
  Qed.

  Theorem repeat_fin_trace outs : clean outs -> emits (D := wrap T D) w (fresh (wrap T D)) outs ->
    exists ins, clean ins /\ emits w (fresh D) ins /\ repeated ins outs.
  Proof.
    intros HC E.
    destruct (@wrap_trace _ _ T D w rpf_J rpf_trace_ok outs (fresh (wrap T D)) true HC rpf_J_init
                (@fresh_it_ok _ _ T D true) E) as (ins & b & [o g] & E1 & [HL J1]).
    exists (map inp ins). split; [apply clean_map_inp|]. split; [exact E1|]. unfold repeated. cbn [fst snd] in J1.
    destruct g as [|k|k].
    - destruct J1 as [(-> & -> & _ & _)|(H1 & _ & _ & m & ->)]; [left; split; [cbn; lia|reflexivity]|right; eauto].
    - destruct J1 as (H1 & H2 & _ & _ & [->|[H3 (m & ->)]]); [left; split; [lia|reflexivity]|right; split; [lia|eauto]].
    - destruct J1 as (H1 & H2 & _ & ->). left. split; [lia|reflexivity].
  Qed.

  Lemma rpf_yields rs (xs : list (sample A)) k o : forall b, exists b',
    lrun (T := T) rs w b (o, RpIn k) (map Some xs) (map Yield xs) b' (o, RpIn k).
  Proof.
    induction xs as [|a xs IH]; intros b; cbn [map].
    - exists b. constructor.
    - destruct (IH false) as (b' & L). exists b'. change (Yield a :: map Yield xs) with (obs (Yield a) ++ map Yield xs).
      eapply lr_pull with (k := fun r => match r with
                            | Some a => (o, RpIn k, Yield a)
                            | None => (o, RpHead (S k), Tau)
                            end) (r := Some a); try reflexivity. exact L.
  Qed.

  Lemma rpf_run rs (xss : list (list (sample A))) : forall k o, length xss + k = n -> length o = nw -> 
    exists o', length o' = nw /\ nth w o' 0 = (if length xss =? 0 then nth w o 0 else n) /\
    lrun (T := T) rs w true (o, RpHead k) (concat (map (fun xs => map Some xs ++ [None]) xss))
         (map Yield (concat xss) ++ [Done]) true (o', RpStart).
  Proof.
    induction xss as [|xs xss IH]; intros k o Hk Ho; cbn [map concat].
    - exists o. split; [exact Ho|]. split; [reflexivity|].
      change (([] : list (event (sample A))) ++ [Done]) with (obs (@Done (sample A)) ++ []).
      eapply lr_local with (o := o) (g := RpHead k); [unfold act; cbn [repeat_ds t_act fst snd]; cbn in Hk| | |constructor].
      + replace (k <? n) with false; [reflexivity|]. symmetry. apply Nat.ltb_ge. lia.
      + reflexivity.
      + right. reflexivity.
    - cbn [length] in Hk. destruct (IH (S k) (upd o w (S k)) ltac:(lia)) as (o' & H1 & H2 & L); [rewrite upd_length; exact Ho|].
      exists o'. split; [exact H1|]. split.
      { rewrite H2. cbn. destruct xss; cbn [length Nat.eqb]; [|reflexivity]. cbn in Hk. rewrite nth_upd_same by lia. lia. }
      rewrite <- app_assoc, map_app, <- app_assoc.
      change (map Yield xs ++ map Yield (concat xss) ++ [Done]) with (obs (@Tau (sample A)) ++ map Yield xs ++ map Yield (concat xss) ++ [Done]).
      eapply lr_local with (o := upd o w (S k)) (g := RpIn k); [unfold act; cbn [repeat_ds t_act fst snd]|reflexivity|exact I|].
      { replace (k <? n) with true; [reflexivity|]. symmetry. apply Nat.ltb_lt. lia. }
      cbn [after]. destruct (@rpf_yields rs xs k (upd o w (S k)) true) as (b1 & L1).
      eapply lrun_app; [exact L1|].
      change (map Yield (concat xss) ++ [Done]) with (obs (@Tau (sample A)) ++ map Yield (concat xss) ++ [Done]).
      eapply lr_pull with (r := None) (k := fun r => match r with
                            | Some a => (upd o w (S k), RpIn k, Yield a)
                            | None => (upd o w (S k), RpHead (S k), Tau)
                            end); [reflexivity|reflexivity|exact I|]. exact L.
  Qed.

  (** first iteration: [n] inner epochs in, one epoch with all their samples out *)
  Theorem repeat_fin_forward (xss : list (list (sample A))) : length xss = n ->
    emits w (fresh D) (concat (map epoch xss)) ->
    produces (D := wrap T D) w (fresh (wrap T D)) (concat xss).
  Proof.
    intros HL E.
    assert (EQ : concat (map epoch xss) = map inp (concat (map (fun xs => map Some xs ++ [None]) xss))).
    { clear. induction xss as [|xs xss IH]; cbn; [reflexivity|]. rewrite map_app, inp_epoch, IH. reflexivity. }
    rewrite EQ in E.
    destruct (@rpf_run (ds_restore_sample D w) xss 0 (repeat 0 nw)) as (o' & H1 & H2 & L); [lia|apply repeat_length|].
    assert (L' : lrun (T := T) (ds_restore_sample D w) w true (t_init T, t_iter T)
                   (concat (map (fun xs => map Some xs ++ [None]) xss)) (map Yield (concat xss) ++ [Done]) true (o', RpStart)).
    { change (map Yield (concat xss) ++ [Done]) with (obs (@Tau (sample A)) ++ map Yield (concat xss) ++ [Done]).
      assert (Z : nth w (repeat 0 nw) 0 = 0) by (clear; revert w; induction nw as [|k IH]; intros [|w]; cbn; auto).
      eapply lr_local with (o := repeat 0 nw) (g := RpHead 0); [unfold act; cbn; rewrite Z; reflexivity|reflexivity|exact I|exact L]. }
    rewrite <- (app_nil_r (map inp _)) in E.
    destruct (@emits_goes _ D w (fresh D) _ _ (@clean_map_inp _ _) E) as (si & G & _).
    destruct (wrap_run L' (s := fresh (wrap T D)) eq_refl (@fresh_it_ok _ _ T D true) G) as (s' & G' & _).
    eapply goes_emits0. exact G'.
  Qed.
End Finite.
