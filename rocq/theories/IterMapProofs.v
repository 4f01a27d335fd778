(** IterMapDataset: restore keys and resuming. *)
From Coq Require Import String.
From Verif Require Import Base Dataset DatasetProofs Wrap WrapProofs WrapRun WrapTrace WrapSpec WrapLib
  Wrappers MapModel IdxProofs RepeatProofs EpochizeProofs IterMap.
Local Open Scope list_scope.
Local Open Scope nat_scope.

(** after yielding, the function is back in its initial state *)
Definition memoryless {A B} (fn : iterfn A B) : Prop :=
  (forall w i s b s', if_act fn w i s = IYield b s' -> s' = if_start fn) /\
  (forall w i s, length (fst (if_end fn w i s)) <= 1).
(** the function asks for a sample first, and yields nothing for an empty input *)
Definition hungry {A B} (fn : iterfn A B) : Prop :=
  forall w i, (exists k, if_act fn w i (if_start fn) = IPull k) /\ fst (if_end fn w i (if_start fn)) = [].
(** the function does not return before its input ends *)
Definition greedy {A B} (fn : iterfn A B) : Prop := forall w i s, if_act fn w i s <> IEnd.
(** the function does not raise (except for system exceptions) *)
Definition never_fails {A B} (fn : iterfn A B) : Prop :=
  (forall w i s, if_act fn w i s <> IFail) /\
  (forall w i s, snd (if_end fn w i s) = GEnd \/ snd (if_end fn w i s) = GFatal).
(** the function yields nothing after its input ended *)
Definition no_tail {A B} (fn : iterfn A B) : Prop := forall w i s, fst (if_end fn w i s) = [].

Section IterMap.
  Context {A B : Type} (nw : nat) (fn : iterfn A B) (stateless : bool).
  Notation T := (itermap_ds nw fn stateless).

  Lemma im_no_reset : no_reset T.
  Proof.
    intros rs w o g o' g'. cbn [itermap_ds t_act]. destruct g as [r k keys|[ended s|[|b ys] e] i k keys]; cbn [im_act]; try discriminate.
    - destruct (if_act fn w i s); try discriminate. destruct ended; discriminate.
    - destruct e; discriminate.
  Qed.

  (** *** restore keys *)
  Section Restore.
    Variables (rs : rkey -> result (sample A)) (w : nat).
    Hypothesis Hw : w < nw.
    Hypothesis Hst : stateless = true.
    Hypothesis HM : memoryless fn.
    Hypothesis HH : hungry fn.
    Hypothesis HG : greedy fn.
    Hypothesis HF : never_fails fn.

    (** the function took the samples [xs] and is in state [s] *)
    Inductive taken (i : nat) : list (sample A) -> if_st fn -> Prop :=
    | tk_nil : taken i [] (if_start fn)
    | tk_snoc xs s k a : taken i xs s -> if_act fn w i s = IPull k -> taken i (xs ++ [a]) (k (pl a)).

    Lemma replay_taken i xs s : taken i xs s -> Forall (fun a => rs (rk a) = Ok a) xs -> forall fuel rest k,
      im_replay rs w (length xs + fuel) (if_start fn) (map ATup (map rk xs) ++ rest) i k = im_replay rs w fuel s rest i k.
    Proof.
      induction 1 as [|xs s g a _ IH E]; intros F fuel rest k; [reflexivity|].
      apply Forall_app in F as [F1 F2]. inversion F2 as [|? ? Ra _]; subst.
      rewrite app_length, !map_app, <- app_assoc. cbn [length map app]. rewrite <- Nat.add_assoc, IH by exact F1.
      cbn [Nat.add im_replay]. rewrite E, Ra. reflexivity.
    Qed.

    Definition im_ok (o : list nat) (r : running fn) (i k : nat) (keys : list rkey) : Prop :=
      match r with
      | Body ended s => ended = false /\ exists xs, keys = map rk xs /\ Forall (fun a => rs (rk a) = Ok a) xs /\ taken i xs s /\ (xs <> [] -> k = 0)
      | Tail ys e => exists xs s g, keys = map rk xs /\ Forall (fun a => rs (rk a) = Ok a) xs /\ taken i xs s /\ (xs <> [] -> k = 0) /\
          if_act fn w i s = IPull g /\ (ys <> [] -> ys = fst (if_end fn w i s)) /\ length ys <= 1
      end.

    Definition im_Inv (ne b : bool) (x : lst T) : Prop :=
      length (fst x) = nw /\
      match snd x with
      | ImNext (Body ended s) k keys => ended = false /\ s = if_start fn /\ keys = []
      | ImNext (Tail ys e) k keys => ne = false /\ b = true /\ ys = [] /\ (e = GEnd \/ e = GFatal)
      | ImIn (Tail [] e) i k keys => ne = false /\ b = true /\ (e = GEnd \/ e = GFatal)
      | ImIn (Tail ys e) i k keys => im_ok (fst x) (Tail ys e) i k keys /\ ne = false /\ b = true /\ (e = GEnd \/ e = GFatal)
      | ImIn r i k keys => im_ok (fst x) r i k keys
      end.

    Lemma taken_nil i xs s : taken i xs s -> xs = [] -> s = if_start fn.
    Proof. intros H E. destruct H; [reflexivity|]. apply app_eq_nil in E as [_ E]. discriminate E. Qed.

    Lemma body_restores i k keys xs s b s' : taken i xs s -> keys = map rk xs -> Forall (fun a => rs (rk a) = Ok a) xs -> (xs <> [] -> k = 0) ->
      if_act fn w i s = IYield b s' -> t_restore_sample T rs w (iter_key i k keys) = Ok (mkS b (iter_key i k keys)).
    Proof.
      intros HT -> F Hk E. assert (HX : xs <> []).
      { intros ->. apply taken_nil in HT; [|reflexivity]. subst s. destruct (HH w i) as [[g G] _]. congruence. }
      rewrite (Hk HX). cbn [itermap_ds t_restore_sample iter_key iter_name String.eqb Ascii.eqb Bool.eqb]. rewrite Hst, Nat.sub_0_r, Nat.add_0_r.
      rewrite !map_length. replace (S (length xs)) with (length xs + 1) by lia.
      rewrite <- (app_nil_r (map ATup (map rk xs))) at 1. rewrite (replay_taken HT F). cbn [im_replay]. rewrite E. reflexivity.
    Qed.

    Lemma tail_restores i k keys xs s g b ys : taken i xs s -> keys = map rk xs -> Forall (fun a => rs (rk a) = Ok a) xs -> (xs <> [] -> k = 0) ->
      if_act fn w i s = IPull g -> fst (if_end fn w i s) = b :: ys -> t_restore_sample T rs w (iter_key i k keys) = Ok (mkS b (iter_key i k keys)).
    Proof.
      intros HT -> F Hk E E2. assert (HX : xs <> []).
      { intros ->. apply taken_nil in HT; [|reflexivity]. subst s. destruct (HH w i) as [_ G]. congruence. }
      rewrite (Hk HX). cbn [itermap_ds t_restore_sample iter_key iter_name String.eqb Ascii.eqb Bool.eqb]. rewrite Hst, Nat.sub_0_r, Nat.add_0_r.
      rewrite !map_length. replace (S (length xs)) with (length xs + 1) by lia.
      rewrite <- (app_nil_r (map ATup (map rk xs))) at 1. rewrite (replay_taken HT F). cbn [im_replay]. rewrite E, E2. reflexivity.
    Qed.

    Lemma im_local_ok rst ne :
      local_ok (T := T) rs w nw rst (Qof ne true rs) (fun y => t_restore_sample T rs w (rk y) = Ok y) (ne = false) (im_Inv ne) (im_Inv ne).
    Proof.
      constructor.
      - split; [apply repeat_length|]. cbn. auto.
      - auto.
      - intros b [o g] o' g' e (HL & HP) Ha. unfold act in Ha. cbn [itermap_ds t_act fst snd] in *.
        destruct g as [[ended s|ys te] k keys|[ended s|[|y ys] te] i k keys]; cbn [im_act] in Ha.
        + injection Ha as <- <- <-. destruct HP as (-> & -> & ->). cbn [post]. split; [cbn [fst]; rewrite upd_length; exact HL|].
          cbn [snd]. split; [reflexivity|]. exists []. split; [reflexivity|]. split; [constructor|]. split; [constructor|congruence].
        + injection Ha as <- <- <-. destruct HP as (H1 & H2 & -> & H3). cbn [post]. split; [cbn [fst]; rewrite upd_length; exact HL|].
          cbn [snd]. auto.
        + destruct HP as (-> & xs & -> & F & HT & Hk). destruct (if_act fn w i s) as [g|y s'| | |] eqn:Ea; try discriminate; injection Ha as <- <- <-; cbn [post].
          * split; [cbn [rk]; eapply body_restores; eauto|]. split; [exact HL|]. cbn [snd]. destruct HM as [M1 _]. rewrite (M1 _ _ _ _ _ Ea). auto.
          * exfalso. exact (HG Ea).
          * exfalso. destruct HF as [F1 _]. exact (F1 _ _ _ Ea).
          * exact I.
        + destruct HP as (Hne & Hb & He). destruct te; injection Ha as <- <- <-; cbn [post].
          * split; [exact Hne|]. split; [right; exact Hb|]. split; [exact HL|]. cbn. auto.
          * destruct He; discriminate.
          * destruct He; discriminate.
          * exact I.
        + injection Ha as <- <- <-. destruct HP as ((xs & s & g & -> & F & HT & Hk & Ea & Ey & Hl) & Hne & Hb & He). cbn [post].
          specialize (Ey ltac:(discriminate)). split; [cbn [rk]; eapply tail_restores; eauto; symmetry; exact Ey|].
          split; [exact HL|]. cbn [snd]. destruct ys; [auto|cbn in Hl; lia].
      - intros b [o g] k0 r (HL & HP) Ha HQ. unfold act in Ha. cbn [itermap_ds t_act fst snd] in *.
        destruct g as [[ended s|ys te] k keys|[ended s|[|y ys] te] i k keys]; cbn [im_act] in Ha; try discriminate.
        2:{ destruct te; discriminate. }
        destruct HP as (-> & xs & -> & F & HT & Hk). destruct (if_act fn w i s) as [g|y s'| | |] eqn:Ea; try discriminate.
        injection Ha as <-. destruct r as [a|]; cbn [post is_none].
        + specialize (HQ eq_refl). split; [exact HL|]. cbn [snd]. split; [reflexivity|]. exists (xs ++ [a]). split; [rewrite map_app; reflexivity|].
          split; [apply Forall_app; split; [exact F|repeat constructor; exact HQ]|]. split; [econstructor; eauto|auto].
        + destruct HF as [_ F2]. destruct HM as [_ M2]. split; [exact HL|]. cbn [snd]. specialize (M2 w i s).
          destruct (fst (if_end fn w i s)) as [|y ys] eqn:Et; [split; [exact HQ|]; split; [reflexivity|apply F2]|].
          split; [|split; [exact HQ|]; split; [reflexivity|apply F2]].
          exists xs, s, g. split; [reflexivity|]. split; [exact F|]. split; [exact HT|]. split; [exact Hk|]. split; [exact Ea|]. split; [auto|exact M2].
      - intros b [o g] o' g' _ Ha. exfalso. exact (@im_no_reset rs _ _ _ _ _ Ha).
      - intros b [o g] sts _ Hl Hs. split; [cbn; rewrite merge_nat_length; exact Hl|]. cbn. auto.
      - intros b [o g] _ _. split; [exact (repeat_length 0 nw)|]. cbn. auto.
    Qed.
  End Restore.

  Lemma im_restores rst ne : stateless = true -> memoryless fn -> hungry fn -> greedy fn -> never_fails fn ->
    local_yields T rst nw ne true (fun rs w y => t_restore_sample T rs w (rk y) = Ok y) (ne = false).
  Proof. intros H1 H2 H3 H4 H5 w rs Hw. eexists _, _. apply im_local_ok; auto. Qed.

  (** *** resuming *)
  Section Resume.
    Variables (rs : rkey -> result (sample A)) (w : nat) (ne nr : bool).
    Hypothesis Hw : w < nw.
    Hypothesis HM : memoryless fn.
    Hypothesis HH : hungry fn.
    Hypothesis HG : greedy fn.
    Hypothesis HT : ne = true \/ no_tail fn.

    (** at most one sample is yielded after the end of the input, if the dataset may end *)
    Definition rr (b : bool) (r : running fn) : Prop :=
      match r with
      | Body ended s => ended = true -> b = true /\ s = if_start fn /\ ne = false
      | Tail ys e => b = true /\ ys = [] /\ ne = false
      end.

    Definition ir_Inv (b : bool) (x : lst T) : Prop :=
      length (fst x) = nw /\ match snd x with ImNext r _ _ | ImIn r _ _ _ => rr b r end.
    Definition ir_Sav (b : bool) (x : lst T) : Prop :=
      length (fst x) = nw /\ exists k, snd x = ImNext (Body false (if_start fn)) k [].

    Lemma ir_local_ok rst : local_ok (T := T) rs w nw rst (Qof ne nr rs) (fun _ => True) (ne = false) ir_Inv ir_Sav.
    Proof.
      constructor.
      - split; [apply repeat_length|]. exists 0. reflexivity.
      - intros b [o g] (HL & k & E). cbn [fst snd] in *. subst g. split; [exact HL|]. cbn. discriminate.
      - intros b [o g] o' g' e (HL & HP) Ha. unfold act in Ha. cbn [itermap_ds t_act fst snd] in *.
        destruct g as [r k keys|[ended s|[|y ys] te] i k keys]; cbn [im_act] in Ha.
        + injection Ha as <- <- <-. split; [cbn [fst]; rewrite upd_length; exact HL|]. exact HP.
        + destruct (if_act fn w i s) as [g|y s'| | |] eqn:Ea.
          * destruct ended; [|discriminate]. injection Ha as <- <- <-. destruct (HP eq_refl) as (Hb & -> & Hne). split; [exact HL|]. cbn [snd rr].
            destruct (HH w i) as [_ ->]. auto.
          * injection Ha as <- <- <-. cbn [post]. split; [exact I|]. split; [exact HL|]. cbn [snd]. destruct HM as [M1 _]. rewrite (M1 _ _ _ _ _ Ea).
            exists (S k). destruct ended; [|reflexivity]. destruct (HP eq_refl) as (_ & -> & _). destruct (HH w i) as [[g G] _]. congruence.
          * exfalso. exact (HG Ea).
          * injection Ha as <- <- <-. split; [exact HL|]. cbn [snd rr]. intros ->. destruct (HP eq_refl) as (Hb & _ & Hne). auto.
          * injection Ha as <- <- <-. exact I.
        + destruct HP as (Hb & _ & Hne). destruct te; injection Ha as <- <- <-; cbn [post].
          * split; [exact Hne|]. split; [right; exact Hb|]. split; [exact HL|]. exists 0. reflexivity.
          * split; [exact HL|]. cbn. auto.
          * split; [exact HL|]. cbn. auto.
          * exact I.
        + destruct HP as (_ & E & _). discriminate E.
      - intros b [o g] k0 r (HL & HP) Ha HQ. unfold act in Ha. cbn [itermap_ds t_act fst snd] in *.
        destruct g as [r0 k keys|[ended s|[|y ys] te] i k keys]; cbn [im_act] in Ha; try discriminate.
        2:{ destruct te; discriminate. }
        destruct (if_act fn w i s) as [g|y s'| | |] eqn:Ea; try discriminate. destruct ended; [discriminate|]. injection Ha as <-.
        destruct r as [a|]; cbn [post is_none]; (split; [exact HL|]); cbn; [discriminate|].
        destruct HT as [H|H]; [cbn in HQ; congruence|]. rewrite (H w i s). auto.
      - intros b [o g] o' g' _ Ha. exfalso. exact (@im_no_reset rs _ _ _ _ _ Ha).
      - intros b [o g] sts _ Hl Hs. split; [cbn; rewrite merge_nat_length; exact Hl|]. exists 0. reflexivity.
      - intros b [o g] _ _. split; [exact (repeat_length 0 nw)|]. exists 0. reflexivity.
    Qed.

    Definition unused (r : running fn) : Prop := match r with Body _ s => s = if_start fn | Tail ys _ => ys = [] end.
    Definition ir_gens (b : bool) (g1 g2 : im_gen fn) : Prop :=
      match g1, g2 with
      | ImNext r1 k1 l1, ImNext r2 k2 l2 => r1 = r2 /\ l1 = l2 /\ (k1 = k2 \/ unused r1) /\ rr b r1
      | ImIn r1 i1 k1 l1, ImIn r2 i2 k2 l2 => r1 = r2 /\ i1 = i2 /\ l1 = l2 /\ (k1 = k2 \/ unused r1) /\ rr b r1
      | _, _ => False
      end.
    Definition ir_L (b : bool) (x y : lst T) : Prop :=
      length (fst x) = nw /\ length (fst y) = nw /\ nth w (fst x) 0 = nth w (fst y) 0 /\ ir_gens b (snd x) (snd y).

    Lemma ir_sim : local_sim (T := T) rs w (Qof ne nr rs) ir_L.
    Proof.
      intros b [o1 g1] [o2 g2] (L1 & L2 & E & HG2). cbn [fst snd] in *.
      exists (o1, g1), (o2, g2). split; [constructor|]. split; [constructor|]. unfold act. cbn [itermap_ds t_act fst snd].
      destruct g1 as [r1 k1 l1|r1 i1 k1 l1], g2 as [r2 k2 l2|r2 i2 k2 l2]; try contradiction; cbn [ir_gens] in HG2.
      - destruct HG2 as (<- & <- & Hk & HR). cbn [im_act amatch ematch]. unfold ir_L. cbn [fst snd ir_gens].
        rewrite !upd_length, !nth_upd_same by lia. rewrite E. auto 10.
      - destruct HG2 as (<- & <- & <- & Hk & HR). destruct r1 as [ended s|[|y ys] e]; cbn [im_act].
        + destruct (if_act fn w i1 s) as [g|y s'| | |] eqn:Ea.
          * destruct ended; cbn [amatch ematch].
            -- destruct (HR eq_refl) as (Hb & -> & Hne). unfold ir_L. cbn [fst snd ir_gens rr unused]. destruct (HH w i1) as [_ ->]. auto 12.
            -- intros [a|] HQ; cbn [is_none ematch]; unfold ir_L; cbn [fst snd ir_gens rr unused].
               ++ assert (false = true -> false = true /\ g (pl a) = if_start fn /\ ne = false) by discriminate. auto 12.
               ++ destruct HT as [H|H]; [cbn in HQ; congruence|]. rewrite (H w i1 s). auto 12.
          * destruct Hk as [<-|Hk]; [|cbn [unused] in Hk; subst s; destruct (HH w i1) as [[g G] _]; congruence].
            cbn [amatch ematch]. split; [reflexivity|]. unfold ir_L. cbn [fst snd ir_gens]. repeat (split; [auto; fail|]). cbn [rr].
            intros ->. destruct (HR eq_refl) as (_ & -> & _). destruct (HH w i1) as [[g G] _]; congruence.
          * exfalso. exact (HG Ea).
          * cbn [amatch ematch]. unfold ir_L. cbn [fst snd ir_gens rr]. repeat (split; [auto; fail|]). intros ->. destruct (HR eq_refl) as (Hb & _ & Hne). auto.
          * reflexivity.
        + destruct HR as (Hb & _ & Hne). destruct e; cbn [amatch ematch]; unfold ir_L; cbn [fst snd ir_gens rr itermap_ds t_iter]; auto 12.
        + destruct HR as (_ & C & _). discriminate C.
    Qed.
  End Resume.

  Lemma im_local_resumable rst ne nr : memoryless fn -> hungry fn -> greedy fn -> ne = true \/ no_tail fn ->
    local_resumable T rst nw ne nr.
  Proof.
    intros HM HH HG HT w rs Hw. exists (ir_Inv ne), ir_Sav, (ir_L w ne).
    split; [|split; [apply ir_sim; auto|]].
    - eapply local_ok_weaken; [| |apply ir_local_ok; auto]; auto.
    - intros b [o g] sts (HL & k & E) _ Hl Hs. cbn [fst snd] in *. subst g.
      unfold ir_L. cbn [fst snd itermap_ds t_restore t_merge t_iter restore_nat ir_gens].
      split; [exact HL|]. split; [rewrite merge_nat_length; exact Hl|].
      split; [symmetry; apply merge_nat_nth; exact Hs|]. split; [reflexivity|]. split; [reflexivity|]. split; [right; reflexivity|]. cbn. discriminate.
  Qed.
End IterMap.

(** *** what comes out of a function that treats every sample by itself *)
Definition content {B} (e : event (sample B)) : event B :=
  match e with Yield y => Yield (pl y) | Tau => Tau | Done => Done | Raise x => Raise x end.
Definition expand {A B} (f : A -> list B * gend) (e : event (sample A)) : list (event B) :=
  match e with Yield a => map Yield (fst (f (pl a))) | Done => [Done] | _ => [] end.

Section PerSample.
  Context {A B : Type} (nw : nat) (f : nat -> A -> list B * gend) (stateless : bool).
  Notation T := (itermap_ds nw (per_sample f) stateless).
  Variables (D : dataset A) (w : nat).
  Hypothesis Hw : w < nw.

  Definition ps_run (ins : list (option (sample A))) (outs : list (event (sample B))) (b : bool) (r : running (per_sample f)) : Prop :=
    match r with
    | Body ended s => ended = false /\ map content outs ++ map Yield (fst s) = flat_map (expand (f w)) (map inp ins)
    | Tail ys e => ys = [] /\ e = GEnd /\ b = true /\ map content outs ++ [Done] = flat_map (expand (f w)) (map inp ins)
    end.
  Definition ps_J (ins : list (option (sample A))) (outs : list (event (sample B))) (b : bool) (x : lst T) : Prop :=
    length (fst x) = nw /\ match snd x with ImNext r _ _ | ImIn r _ _ _ => ps_run ins outs b r end.

  Lemma ps_trace_ok : trace_ok D w ps_J.
  Proof.
    intros ins outs b [o g] (HL & HP). cbn [fst snd] in *. unfold act. cbn [itermap_ds t_act fst snd].
    destruct g as [r k keys|[ended [ys e]|ys e] i k keys]; cbn [im_act].
    - intros _. split; [exact I|]. cbn [obs after]. rewrite app_nil_r. split; [cbn [fst]; rewrite upd_length; exact HL|]. exact HP.
    - destruct HP as [-> HP]. cbn [fst] in HP. destruct ys as [|y ys]; cbn [per_sample if_act].
      + rewrite app_nil_r in HP. destruct e; cbn [if_act per_sample].
        * intros [a|] _; (split; [exact I|]); cbn [ev_of obs after]; rewrite ?app_nil_r; (split; [exact HL|]); cbn [snd ps_run].
          -- split; [reflexivity|]. rewrite map_app, flat_map_app, HP. cbn. rewrite app_nil_r. reflexivity.
          -- split; [reflexivity|]. split; [reflexivity|]. split; [reflexivity|]. rewrite map_app, flat_map_app, HP. reflexivity.
        * intros _. split; [exact I|]. cbn [obs after]. rewrite app_nil_r. split; [exact HL|]. cbn [snd ps_run]. split; [reflexivity|]. cbn. rewrite app_nil_r. exact HP.
        * intros _. split; [exact I|]. cbn [obs after]. rewrite app_nil_r. split; [exact HL|]. cbn [snd ps_run]. split; [reflexivity|]. cbn. rewrite app_nil_r. exact HP.
        * discriminate.
      + intros _. split; [exact I|]. cbn [obs after]. split; [exact HL|]. cbn [snd ps_run]. split; [reflexivity|]. cbn [fst]. rewrite map_app, <- app_assoc. exact HP.
    - destruct HP as (-> & -> & Hb & HP). intros _. cbn [obs after itermap_ds t_iter]. split; [right; exact Hb|]. split; [exact HL|]. cbn [snd ps_run]. split; [reflexivity|].
      cbn [per_sample if_start fst map]. rewrite app_nil_r, map_app. exact HP.
  Qed.

  Lemma ps_J_init : ps_J [] [] true (t_init T, t_iter T).
  Proof. split; [apply repeat_length|]. cbn. auto. Qed.

  Theorem ps_trace outs : clean outs -> emits w (fresh (wrap T D)) outs ->
    exists ins more, clean ins /\ emits w (fresh D) ins /\ flat_map (expand (f w)) ins = map content outs ++ more.
  Proof.
    intros HC E.
    destruct (@wrap_trace _ _ T D w ps_J ps_trace_ok outs (fresh (wrap T D)) true HC ps_J_init (@fresh_it_ok _ _ T D true) E)
      as (ins & b & [o g] & E1 & (_ & HP)).
    exists (map inp ins). cbn [fst snd] in HP.
    enough (exists more, flat_map (expand (f w)) (map inp ins) = map content outs ++ more) as (more & EM).
    { exists more. split; [|split; [exact E1|exact EM]]. apply Forall_forall. intros e He. apply in_map_iff in He as ([a|] & <- & _); exact I. }
    destruct g as [[ended s|ys e] k keys|[ended s|ys e] i k keys]; cbn [ps_run] in HP.
    - destruct HP as [_ <-]. eauto.
    - destruct HP as (_ & _ & _ & <-). eauto.
    - destruct HP as [_ <-]. eauto.
    - destruct HP as (_ & _ & _ & <-). eauto.
  Qed.

  Definition ps_left (s : list B * gend) : nat := 2 * length (fst s) + match snd s with GSkip | GErr => 2 | _ => 0 end.
  Definition ps_mu (x : lst T) : nat :=
    match snd x with
    | ImNext (Body _ s) _ _ => S (ps_left s)
    | ImIn (Body _ s) _ _ _ => ps_left s
    | ImNext (Tail _ _) _ _ => 3
    | ImIn (Tail _ _) _ _ _ => 2
    end.

  (** no system exceptions *)
  Hypothesis NF : forall a, snd (f w a) <> GFatal.

  Definition ps_J' ins outs b (x : lst T) : Prop :=
    ps_J ins outs b x /\ match snd x with ImNext (Body _ s) _ _ | ImIn (Body _ s) _ _ _ => snd s <> GFatal | _ => True end.

  Lemma ps_trace_ok' : trace_ok D w ps_J'.
  Proof.
    intros ins outs b [o g] (HJ & HN). pose proof (ps_trace_ok HJ) as HT. destruct HJ as (HL & HP). unfold act in *. cbn [itermap_ds t_act fst snd] in *.
    destruct g as [r k keys|[ended [ys e]|ys e] i k keys]; cbn [im_act] in *.
    - intros He. destruct (HT He) as [H1 H2]. split; [exact H1|]. split; [exact H2|]. cbn [after snd]. destruct r; exact HN.
    - destruct HP as [-> HP]. cbn [snd] in HN. destruct ys as [|y ys]; cbn [per_sample if_act] in *.
      + destruct e; cbn [if_act per_sample] in *.
        * intros r He. destruct (HT r He) as [H1 H2]. split; [exact H1|]. split; [exact H2|]. destruct r; cbn [after snd]; [apply NF|exact I].
        * intros He. destruct (HT He) as [H1 H2]. split; [exact H1|]. split; [exact H2|]. cbn. discriminate.
        * intros He. destruct (HT He) as [H1 H2]. split; [exact H1|]. split; [exact H2|]. cbn. discriminate.
        * discriminate.
      + intros He. destruct (HT He) as [H1 H2]. split; [exact H1|]. split; [exact H2|]. exact HN.
    - destruct HP as (-> & -> & HP). intros He. destruct (HT He) as [H1 H2]. split; [exact H1|]. split; [exact H2|]. cbn. discriminate.
  Qed.

  Lemma ps_J_init' : ps_J' [] [] true (t_init T, t_iter T).
  Proof. split; [exact ps_J_init|]. cbn. discriminate. Qed.

  Lemma ps_progress : trace_progress D w ps_J' ps_mu.
  Proof.
    intros ins outs b [o g] ((HL & HP) & HN). unfold act in *. cbn [itermap_ds t_act fst snd] in *.
    destruct g as [r k keys|[ended [ys e]|ys e] i k keys]; cbn [im_act] in *.
    - split; [reflexivity|]. cbn [after ps_mu snd]. destruct r; lia.
    - destruct HP as [-> HP]. cbn [snd] in HN. destruct ys as [|y ys]; cbn [per_sample if_act] in *.
      + destruct e; cbn [if_act per_sample] in *; [| | |congruence].
        * intros [a|]; reflexivity.
        * split; [reflexivity|]. cbn. lia.
        * split; [reflexivity|]. cbn. lia.
      + split; [reflexivity|]. cbn [after ps_mu snd]. unfold ps_left. cbn [fst snd length]. lia.
    - destruct HP as (-> & -> & HP). split; [reflexivity|]. cbn. lia.
  Qed.

  Theorem ps_forward ins : clean ins -> emits w (fresh D) ins ->
    exists outs, emits w (fresh (wrap T D)) outs /\ map content outs = flat_map (expand (f w)) ins.
  Proof.
    intros HC E. destruct (clean_inp HC) as (ins' & ->).
    destruct (@wrap_forward _ _ T D w ps_J' ps_trace_ok' _ ps_progress (fresh (wrap T D)) true ins' ps_J_init'
                (@fresh_it_ok _ _ T D true) E) as (outs & b & [o g] & E1 & ((HL & HP) & _) & Pu).
    exists outs. split; [exact E1|]. unfold pulls, act in Pu. cbn [fst snd itermap_ds t_act] in *.
    destruct g as [r k keys|[ended [ys e]|ys e] i k keys]; cbn [im_act] in Pu; [contradiction| |].
    - destruct HP as [-> HP]. destruct ys as [|y ys]; cbn [per_sample if_act] in Pu; [|contradiction]. cbn in HP. rewrite app_nil_r in HP. exact HP.
    - destruct HP as (-> & -> & _). contradiction.
  Qed.
End PerSample.
