(** A packer that is a generator function yields what a packer returning all its outputs at once would give. *)
From Coq Require Import String.
From Verif Require Import Base Dataset DatasetProofs Wrap WrapProofs WrapSpec WrapLib
  Wrappers MapModel Buffer Batch BatchSpec GenBatchTrace Packing PackingSpec.
Local Open Scope list_scope.
Local Open Scope nat_scope.

Section Sim.
  Context {A B : Type} (nw size : nat).
  Variable pre : nat -> nat -> list (sample A) -> ures (list (list (sample A))).
  Variable f : nat -> nat -> list A -> list B * gend.
  Variables (D : dataset A) (w : nat).
  Hypothesis Hend : forall i l, snd (f w i l) <> GFatal.
  Notation T1 := (pack_ds nw size pre (all_at_once f)).
  Notation T2 := (packgen_ds nw size pre f).
  Notation W1 := (wrap T1 D).
  Notation W2 := (wrap T2 D).

  Definition pg_of (g : pk_gen) : pg_gen (A := A) := match g with PkStart => PgStart | PkLoop r => PgLoop r | PkDrain => PgDrain end.
  Definition obj2 (x : wobj T1 D) : wobj T2 D := @mkW _ _ T2 D (w_loc x) (w_in x) (w_it x).
  Definition other (s : st W1) : st W2 := (obj2 (fst s), pg_of (snd s)).
  Definition pk_outs (i : nat) (pack : list (sample A)) : list (sample B) :=
    expand1 (mkS (fst (f w i (map pl pack))) (pack_key i (map rk pack))).

  (** inside the generator: the pack, its index and the outputs still to come; then on with [g] *)
  Definition inside (s : st W1) (pack : list (sample A)) (i j : nat) : st W2 :=
    (obj2 (fst s), PgGen pack i j (match snd s with PkDrain => true | _ => false end)).

  Lemma pk_outs_nth i pack j : nth_error (pk_outs i pack) j =
    option_map (fun y => mkS y (packgen_key i j (map rk pack))) (nth_error (fst (f w i (map pl pack))) j).
  Proof.
    unfold pk_outs, expand1. cbn [pl rk]. rewrite nth_error_map. generalize (fst (f w i (map pl pack))). intros ys.
    assert (G : forall ys k j, nth_error (combine (seq k (length ys)) ys) j = option_map (fun y : B => (k + j, y)) (nth_error ys j)).
    { clear. induction ys as [|y ys IH]; intros k [|j]; cbn; auto; [rewrite Nat.add_0_r; reflexivity|].
      rewrite IH. destruct (nth_error ys j); cbn; [|reflexivity]. do 2 f_equal. lia. }
    rewrite G. destruct (nth_error ys j); reflexivity.
  Qed.
  Lemma pk_outs_len i pack : length (pk_outs i pack) = length (fst (f w i (map pl pack))).
  Proof. unfold pk_outs, expand1. rewrite map_length, combine_length, seq_length. cbn [pl]. lia. Qed.

  (** one step of the one against one step of the other *)
  Inductive step_match (s : st W1) : wobj T1 D * pk_gen * event (sample (list B)) -> wobj T2 D * pg_gen * event (sample B) -> Prop :=
  | sm_tau o g : step_match s (o, g, Tau) (obj2 o, pg_of g, Tau)
  | sm_done o g : step_match s (o, g, Done) (obj2 o, pg_of g, Done)
  | sm_raise o g e : step_match s (o, g, Raise e) (obj2 o, pg_of g, Raise e)
  | sm_yield (o : wobj T1 D) (g : pk_gen) pack i a : (g = PkLoop 0 \/ g = PkDrain) -> a = mkS (fst (f w i (map pl pack))) (pack_key i (map rk pack)) ->
      step_match s (o, g, Yield a) (fst (inside (o, g) pack i 0), snd (inside (o, g) pack i 0), Tau).

  Lemma step_sim (s : st W1) : step_match s (ds_step W1 w (fst s) (snd s)) (ds_step W2 w (fst (other s)) (snd (other s))).
  Proof.
    destruct s as [x g]. unfold other. cbn [fst snd]. cbn [ds_step wrap]. unfold wrap_step. cbn [t_act pack_ds packgen_ds obj2 w_loc w_in w_it].
    assert (RS : forall r, step_match (x, g)
      (match pk_read_step size pre (ds_restore_sample D w) w (w_loc x) r PkLoop PkDrain with
       | Local o g' e => (@mkW _ _ T1 D o (w_in x) (drop_it T1 e (w_it x)), g', e)
       | Reset o g' => (@mkW _ _ T1 D o (ds_restore D None (w_in x)) None, g', Tau)
       | Pull k => match ds_step D w (w_in x) (cur_it (w_it x)) with
                   | (io, ig, Yield a) => let '(o, g', e) := k (Some a) in (@mkW _ _ T1 D o io (drop_it T1 e (Some ig)), g', e)
                   | (io, ig, Tau) => (@mkW _ _ T1 D (w_loc x) io (Some ig), PkLoop r, Tau)
                   | (io, ig, Done) => let '(o, g', e) := k None in (@mkW _ _ T1 D o io (drop_it T1 e None), g', e)
                   | (io, ig, Raise e) => (@mkW _ _ T1 D (w_loc x) io None, PkLoop r, Raise e)
                   end
       end)
      (match pk_read_step size pre (ds_restore_sample D w) w (w_loc x) r (PgLoop (A := A)) (PgDrain (A := A)) with
       | Local o g' e => (@mkW _ _ T2 D o (w_in x) (drop_it T2 e (w_it x)), g', e)
       | Reset o g' => (@mkW _ _ T2 D o (ds_restore D None (w_in x)) None, g', Tau)
       | Pull k => match ds_step D w (w_in x) (cur_it (w_it x)) with
                   | (io, ig, Yield a) => let '(o, g', e) := k (Some a) in (@mkW _ _ T2 D o io (drop_it T2 e (Some ig)), g', e)
                   | (io, ig, Tau) => (@mkW _ _ T2 D (w_loc x) io (Some ig), PgLoop r, Tau)
                   | (io, ig, Done) => let '(o, g', e) := k None in (@mkW _ _ T2 D o io (drop_it T2 e None), g', e)
                   | (io, ig, Raise e) => (@mkW _ _ T2 D (w_loc x) io None, PgLoop r, Raise e)
                   end
       end)).
    { intros r. unfold pk_read_step. destruct (_ <? _).
      - destruct (ds_step D w (w_in x) (cur_it (w_it x))) as [[io ig] [a| | |e]].
        + apply (@sm_tau (x, g) (@mkW _ _ T1 D _ io (Some ig)) (PkLoop r)).
        + apply (@sm_tau (x, g) (@mkW _ _ T1 D _ io (Some ig)) (PkLoop r)).
        + destruct (0 <? _).
          * destruct (_ =? 0).
            -- destruct (pk_prepack pre w (w_loc x)); [apply (@sm_tau (x, g) (@mkW _ _ T1 D _ io None) PkDrain)|apply (@sm_raise (x, g) (@mkW _ _ T1 D _ io None) PkDrain)].
            -- apply (@sm_raise (x, g) (@mkW _ _ T1 D _ io None) PkDrain).
          * apply (@sm_tau (x, g) (@mkW _ _ T1 D _ io None) PkDrain).
        + apply (@sm_raise (x, g) (@mkW _ _ T1 D _ io None) (PkLoop r)).
      - destruct (negb _); [apply (@sm_raise (x, g) (@mkW _ _ T1 D _ (w_in x) None) PkDrain)|].
        destruct (if 0 <? _ then _ else _) as [o'|]; [|apply (@sm_raise (x, g) (@mkW _ _ T1 D _ (w_in x) None) PkDrain)].
        destruct (10 <? S r); [apply (@sm_raise (x, g) (@mkW _ _ T1 D _ (w_in x) None) PkDrain)|apply (@sm_tau (x, g) (@mkW _ _ T1 D _ (w_in x) (w_it x)) (PkLoop (S r)))]. }
    assert (FN : forall k rest (next : pk_gen), (next = PkLoop 0 \/ next = PkDrain) -> step_match (x, g)
      (match pk_final (all_at_once f) w (w_loc x) k rest next with
       | Local o g' e => (@mkW _ _ T1 D o (w_in x) (drop_it T1 e (w_it x)), g', e)
       | Reset o g' => (@mkW _ _ T1 D o (ds_restore D None (w_in x)) None, g', Tau)
       | Pull k => match ds_step D w (w_in x) (cur_it (w_it x)) with
                   | (io, ig, Yield a) => let '(o, g', e) := k (Some a) in (@mkW _ _ T1 D o io (drop_it T1 e (Some ig)), g', e)
                   | (io, ig, Tau) => (@mkW _ _ T1 D (w_loc x) io (Some ig), g, Tau)
                   | (io, ig, Done) => let '(o, g', e) := k None in (@mkW _ _ T1 D o io (drop_it T1 e None), g', e)
                   | (io, ig, Raise e) => (@mkW _ _ T1 D (w_loc x) io None, g, Raise e)
                   end
       end)
      (@mkW _ _ T2 D (snd (pk_take w (w_loc x) k rest)) (w_in x) (w_it x),
       PgGen (fst (pk_take w (w_loc x) k rest)) (nth w (pk_fidx (w_loc x)) 0) 0 (match next with PkDrain => true | _ => false end), Tau)).
    { intros k rest next Hn. unfold pk_final. destruct (pk_take w (w_loc x) k rest) as [pack o']. cbn [fst snd]. unfold all_at_once at 1.
      apply (@sm_yield (x, g) (@mkW _ _ T1 D o' (w_in x) (w_it x)) next pack (nth w (pk_fidx (w_loc x)) 0) _ Hn eq_refl). }
    destruct g as [|r|]; cbn [pg_of].
    - destruct (pk_start _ w (w_loc x)) as [o'|e].
      + apply (@sm_tau (x, PkStart) (@mkW _ _ T1 D o' (w_in x) (w_it x)) (PkLoop 0)).
      + apply (@sm_raise (x, PkStart) (@mkW _ _ T1 D (w_loc x) (w_in x) None) PkStart).
    - destruct (nth w (pk_len (w_loc x)) []) as [|k rest] eqn:EL; [apply RS|]. exact (FN k rest (PkLoop 0) (or_introl eq_refl)).
    - destruct (nth w (pk_len (w_loc x)) []) as [|k rest] eqn:EL.
      + apply (@sm_done (x, PkDrain) (@mkW _ _ T1 D (w_loc x) (w_in x) None) PkDrain).
      + exact (FN k rest PkDrain (or_intror eq_refl)).
  Qed.

  Lemma step_gen (s : st W1) pack i j : (snd s = PkLoop 0 \/ snd s = PkDrain) ->
    ds_step W2 w (fst (inside s pack i j)) (snd (inside s pack i j)) =
    match nth_error (pk_outs i pack) j with
    | Some y => (fst (inside s pack i (S j)), snd (inside s pack i (S j)), Yield y)
    | None => (fst (other s), snd (other s), Tau)
    end.
  Proof.
    intros Hs. rewrite pk_outs_nth. pose proof (@Hend i (map pl pack)) as HE. destruct s as [x g]. unfold inside. cbn [fst snd] in *. cbn [ds_step wrap]. unfold wrap_step. cbn [t_act packgen_ds obj2 w_loc w_in w_it].
    destruct (f w i (map pl pack)) as [ys e]. cbn [fst snd] in *. destruct (nth_error ys j) as [y|]; cbn [option_map]; [reflexivity|].
    destruct e; try congruence; destruct Hs as [-> | ->]; reflexivity.
  Qed.

  Lemma emits_silent {P} (E : dataset P) (s s' : st E) l : ds_step E w (fst s) (snd s) = (fst s', snd s', Tau) -> emits w s' l -> emits w s l.
  Proof. intros H. destruct s' as [o g]. apply (same_stream_tau H). Qed.
  Lemma emits_now {P} (E : dataset P) (s s' : st E) a l : ds_step E w (fst s) (snd s) = (fst s', snd s', Yield a) -> emits w s' l -> emits w s (Yield a :: l).
  Proof. intros H HL. destruct s' as [o g]. econstructor; [apply next_now; [exact H|discriminate]|exact HL]. Qed.

  Lemma inside_emits s pack i n : (snd s = PkLoop 0 \/ snd s = PkDrain) -> forall j l, length (pk_outs i pack) - j = n -> emits w (other s) l ->
    emits w (inside s pack i j) (map Yield (skipn j (pk_outs i pack)) ++ l).
  Proof.
    intros Hs. induction n as [|n IH]; intros j l HL HE; pose proof (@step_gen s pack i j Hs) as ST; destruct (nth_error (pk_outs i pack) j) as [y|] eqn:EN.
    - assert (j < length (pk_outs i pack)) by (apply nth_error_Some; congruence). lia.
    - apply nth_error_None in EN. rewrite skipn_all2 by exact EN. eapply emits_silent; [exact ST|exact HE].
    - rewrite (skipn_nth EN). cbn [map app]. eapply emits_now; [exact ST|]. apply IH; [|exact HE]. lia.
    - apply nth_error_None in EN. lia.
  Qed.

  Lemma next_sim n : forall (s s' : st W1) e l, nextn w n s = Some (e, s') ->
    match e with
    | Yield a => emits w (other s') l -> emits w (other s) (map Yield (expand1 a) ++ l)
    | Done => emits w (other (fst s', ds_iter W1)) l -> emits w (other s) (Done :: l)
    | Raise x => emits w (other s) [Raise x]
    | Tau => True
    end.
  Proof.
    induction n as [|n IH]; intros s s' e l H; cbn [nextn] in H; [discriminate|]. pose proof (step_sim s) as M.
    destruct (ds_step W2 w (fst (other s)) (snd (other s))) as [[o2 g2] e2] eqn:E2.
    destruct (ds_step W1 w (fst s) (snd s)) as [[o1 g1] e1]. inversion M as [o g Eo1 Eo2|o g Eo1 Eo2|o g x Eo1 Eo2|o g pack i a Hg Ha Eo1 Eo2]; subst.
    - specialize (IH (o1, g1) s' e l H). assert (ST : forall l, emits w (other (o1, g1)) l -> emits w (other s) l) by (intros l'; apply emits_silent; exact E2).
      destruct e; auto.
    - injection H as <- <-. intros HE. eapply em_done; [apply next_now; [exact E2|discriminate]|exact HE].
    - injection H as <- <-. eapply em_raise. apply next_now; [exact E2|discriminate].
    - injection H as <- <-. intros HE. apply (@emits_silent _ W2 (other s) (inside (o1, g1) pack i 0)); [exact E2|].
      assert (G := @inside_emits (o1, g1) pack i _ Hg 0 l eq_refl HE). exact G.
  Qed.

  Theorem packgen_forward s l : emits w s l -> emits w (other s) (flat_map expand l).
  Proof.
    induction 1 as [s|s a s' l [n H] _ IH|s s' l [n H] _ IH|s x s' [n H]]; [constructor| | |].
    - cbn [flat_map expand]. exact (@next_sim n _ _ _ _ H IH).
    - cbn [flat_map expand app]. exact (@next_sim n _ _ _ _ H IH).
    - cbn [flat_map expand app]. exact (@next_sim n _ _ _ [] H).
  Qed.

  (** conversely *)
  Definition pending (s : st W1) (pend : list (sample B)) (s2 : st W2) : Prop :=
    (pend = [] /\ s2 = other s) \/
    exists pack i j, (snd s = PkLoop 0 \/ snd s = PkDrain) /\ s2 = inside s pack i j /\ pend = skipn j (pk_outs i pack).

  (** what one call of next() of the generator version corresponds to *)
  Definition answers (s : st W1) (pend : list (sample B)) (e : event (sample B)) (s2' : st W2) : Prop :=
    match e with
    | Yield a => exists l1 s' pend', (forall l, emits w s' l -> emits w s (l1 ++ l)) /\ map Yield pend ++ flat_map expand l1 = Yield a :: map Yield pend' /\ pending s' pend' s2'
    | Done => exists l1 o', (forall l, emits w (o', ds_iter W1) l -> emits w s (l1 ++ Done :: l)) /\ flat_map expand l1 = [] /\ pend = [] /\ fst s2' = obj2 o'
    | Raise x => exists l1, emits w s (l1 ++ [Raise x]) /\ flat_map expand l1 = [] /\ pend = []
    | Tau => True
    end.

  Lemma next_back n : forall (s : st W1) pend s2 e s2', pending s pend s2 -> nextn w n s2 = Some (e, s2') -> answers s pend e s2'.
  Proof.
    induction n as [|n IH]; intros s pend s2 e s2' HP H; cbn [nextn] in H; [discriminate|]. destruct HP as [[-> ->]|(pack & i & j & Hs & -> & ->)].
    - pose proof (step_sim s) as M. destruct (ds_step W2 w (fst (other s)) (snd (other s))) as [[o2 g2] e2].
      destruct (ds_step W1 w (fst s) (snd s)) as [[o1 g1] e1] eqn:E1. inversion M as [o g Eo1 Eo2|o g Eo1 Eo2|o g x Eo1 Eo2|o g pack i a Hg Ha Eo1 Eo2]; subst.
      + assert (A1 : answers (o1, g1) [] e s2') by (eapply IH; [left; split; reflexivity|exact H]).
        assert (ST : forall l, emits w (o1, g1) l -> emits w s l) by (intros l; apply emits_silent; exact E1).
        destruct e as [a| | |x]; cbn [answers] in *.
        * destruct A1 as (l1 & s' & pend' & HE & EQ & HPd). exists l1, s', pend'. auto.
        * exact I.
        * destruct A1 as (l1 & o' & HE & EQ & HPd). exists l1, o'. auto.
        * destruct A1 as (l1 & HE & EQ). exists l1. auto.
      + injection H as <- <-. cbn [answers]. exists [], o1. split; [|auto]. intros l HL. cbn [app]. eapply em_done; [apply next_now; [exact E1|discriminate]|exact HL].
      + injection H as <- <-. cbn [answers]. exists []. split; [|auto]. cbn [app]. eapply em_raise. apply next_now; [exact E1|discriminate].
      + set (a := mkS (fst (f w i (map pl pack))) (pack_key i (map rk pack))) in *.
        assert (A1 : answers (o1, g1) (pk_outs i pack) e s2').
        { eapply IH; [right; exists pack, i, 0; split; [exact Hg|]; split; reflexivity|exact H]. }
        assert (ST : forall l, emits w (o1, g1) l -> emits w s (Yield a :: l)) by (intros l HL; eapply em_yield; [apply next_now; [exact E1|discriminate]|exact HL]).
        assert (EX : expand (Yield a) = map Yield (pk_outs i pack)) by reflexivity.
        destruct e as [b| | |x]; cbn [answers] in *.
        * destruct A1 as (l1 & s' & pend' & HE & EQ & HPd). exists (Yield a :: l1), s', pend'. split; [intros l HL; apply ST, HE, HL|].
          split; [|exact HPd]. cbn [flat_map map app]. rewrite EX. exact EQ.
        * exact I.
        * destruct A1 as (l1 & o' & HE & EQ & HN & HPd). exists (Yield a :: l1), o'. split; [intros l HL; apply ST, HE, HL|]. cbn [flat_map]. rewrite EX, HN, EQ. auto.
        * destruct A1 as (l1 & HE & EQ & HN). exists (Yield a :: l1). split; [apply ST, HE|]. cbn [flat_map]. rewrite EX, HN, EQ. auto.
    - pose proof (@step_gen s pack i j Hs) as ST. destruct (nth_error (pk_outs i pack) j) as [y|] eqn:EN.
      + rewrite ST in H. injection H as <- <-. cbn [answers]. exists [], s, (skipn (S j) (pk_outs i pack)). split; [auto|].
        split; [rewrite (skipn_nth EN); cbn [map flat_map]; rewrite app_nil_r; reflexivity|]. right. exists pack, i, (S j). auto.
      + rewrite ST in H. apply nth_error_None in EN. rewrite skipn_all2 by exact EN. eapply IH; [left; split; reflexivity|exact H].
  Qed.

  Theorem packgen_back l : forall s pend s2, clean l -> pending s pend s2 -> emits w s2 l ->
    exists l1 more, clean l1 /\ emits w s l1 /\ map Yield pend ++ flat_map expand l1 = l ++ more.
  Proof.
    assert (CL : forall l1 (s : st W1) x, emits w s (l1 ++ [x]) -> clean l1).
    { induction l1 as [|e l1 IHl]; intros s x HE; [constructor|]. destruct e as [a| | |e0].
      - apply emits_yield_inv in HE. destruct HE as (s' & _ & HE). constructor; [exact I|eapply IHl; exact HE].
      - inversion HE.
      - apply emits_done_inv in HE. destruct HE as (s' & _ & HE). constructor; [exact I|eapply IHl; exact HE].
      - apply emits_raise_inv in HE. destruct HE as (s' & _ & HE). destruct l1; discriminate. }
    assert (CY : forall l1 (s : st W1), emits w s l1 -> (forall e, In e (flat_map expand l1) -> match e with Raise _ => False | _ => True end) -> clean l1).
    { induction l1 as [|e l1 IHl]; intros s HE HN; [constructor|]. cbn [flat_map] in HN. destruct e as [a| | |e0].
      - apply emits_yield_inv in HE. destruct HE as (s' & _ & HE). constructor; [exact I|]. eapply IHl; [exact HE|]. intros e Ie. apply HN, in_or_app. right. exact Ie.
      - inversion HE.
      - apply emits_done_inv in HE. destruct HE as (s' & _ & HE). constructor; [exact I|]. eapply IHl; [exact HE|]. intros e Ie. apply HN, in_or_app. right. exact Ie.
      - exfalso. apply (HN (Raise e0)). left. reflexivity. }
    induction l as [|e l IH]; intros s pend s2 HC HP HE.
    - exists [], (map Yield pend). split; [constructor|]. split; [constructor|]. cbn. rewrite app_nil_r. reflexivity.
    - inversion HC as [|? ? Ce HC']; subst. destruct e as [a| | |x]; try contradiction.
      + apply emits_yield_inv in HE. destruct HE as (s2' & [n HN] & HE). destruct (next_back HP HN) as (l1 & s' & pend' & HB & EQ & HP').
        destruct (IH _ _ _ HC' HP' HE) as (l2 & more & C2 & E2 & EQ2). exists (l1 ++ l2), more.
        assert (C1 : clean l1).
        { assert (E1 : emits w s l1) by (eapply emits_prefix; apply HB; exact E2).
          apply (CY l1 s E1). intros e Ie.
          assert (Ie2 : In e (map Yield pend ++ flat_map expand l1)) by (apply in_or_app; right; exact Ie). rewrite EQ in Ie2.
          destruct Ie2 as [<-|Ie2]; [exact I|]. apply in_map_iff in Ie2. destruct Ie2 as (y & <- & _). exact I. }
        split; [apply Forall_app; auto|]. split; [apply HB; exact E2|]. rewrite flat_map_app, app_assoc, EQ. cbn [app]. f_equal. exact EQ2.
      + apply emits_done_inv in HE. destruct HE as (s2' & [n HN] & HE). destruct (next_back HP HN) as (l1 & o' & HB & EQ & HPn & HO).
        assert (P0 : pending (o', ds_iter W1) [] (fst s2', ds_iter W2)) by (left; split; [reflexivity|]; unfold other; cbn [fst snd]; rewrite HO; reflexivity).
        destruct (IH _ _ _ HC' P0 HE) as (l2 & more & C2 & E2 & EQ2). exists (l1 ++ Done :: l2), more.
        assert (E1 : emits w s (l1 ++ [Done])) by (apply HB; constructor).
        split; [apply Forall_app; split; [eapply CL; exact E1|constructor; [exact I|exact C2]]|]. split; [apply HB; exact E2|].
        rewrite HPn, flat_map_app, EQ. cbn [map app flat_map expand]. f_equal. exact EQ2.
  Qed.
End Sim.
