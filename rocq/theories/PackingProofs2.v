(** PackingDataset: what comes out. *)
From Coq Require Import String.
From Verif Require Import Base Dataset DatasetProofs Wrap WrapProofs WrapRun WrapTrace WrapSpec WrapLib
  Wrappers MapModel IdxProofs Buffer BufferProofs Batch BatchSpec BatchProofs Packing PackingSpec PackingProofs.
Local Open Scope list_scope.
Local Open Scope nat_scope.

Lemma packs_app {A B} (f : nat -> list A -> ures B) g1 : forall g2 j, packs f j (g1 ++ g2) = packs f j g1 ++ packs f (j + length g1) g2.
Proof.
  induction g1 as [|g g1 IH]; intros g2 j; cbn [app packs length]; [rewrite Nat.add_0_r; reflexivity|].
  rewrite IH, <- app_assoc. do 3 f_equal. lia.
Qed.

Lemma chosen_all_app {A} (pre : nat -> list (sample A) -> ures (list (list (sample A)))) c1 : forall c2 i,
  chosen_all pre i (c1 ++ c2) = chosen_all pre i c1 ++ chosen_all pre (i + length c1) c2.
Proof.
  induction c1 as [|c c1 IH]; intros c2 i; cbn [app chosen_all length]; [rewrite Nat.add_0_r; reflexivity|].
  rewrite IH, <- app_assoc. do 3 f_equal. lia.
Qed.

Section Trace.
  Context {A B : Type} (nw size : nat).
  Variable pre : nat -> nat -> list (sample A) -> ures (list (list (sample A))).
  Variable f : nat -> nat -> list A -> ures B.
  Notation T := (pack_ds nw size pre f).
  Hypothesis Hs : 0 < size.
  Variables (D : dataset A) (w : nat).
  Hypothesis Hw : w < nw.

  Fixpoint pk_events (pi fi : nat) (buf : list (sample A)) (l : list (event (sample A))) : list (event (sample B)) :=
    match l with
    | [] => []
    | Yield a :: l' =>
        if length (buf ++ [a]) =? size then
          map Yield (packs (f w) fi (chosen (pre w) pi (buf ++ [a]))) ++ pk_events (S pi) (fi + length (chosen (pre w) pi (buf ++ [a]))) [] l'
        else pk_events pi fi (buf ++ [a]) l'
    | Done :: l' =>
        match buf with
        | [] => Done :: pk_events pi fi [] l'
        | _ => map Yield (packs (f w) fi (chosen (pre w) pi buf)) ++ Done :: pk_events (S pi) (fi + length (chosen (pre w) pi buf)) [] l'
        end
    | _ :: l' => pk_events pi fi buf l'
    end.

  (** the same for the number of fruitless rounds; the last component: it was never 10 when another
      buffer became full *)
  Definition dry_state : Type := (nat * list (sample A) * nat * bool)%type.
  Definition dry_full (pi : nat) (c : list (sample A)) (r : nat) (ok : bool) : dry_state :=
    (S pi, [], match chosen (pre w) pi c with [] => S r | _ => 0 end, ok && (r <? 10)).
  Definition dry_step (s : dry_state) (e : event (sample A)) : dry_state :=
    match s with (pi, buf, r, ok) =>
      match e with
      | Yield a => if length (buf ++ [a]) =? size then dry_full pi (buf ++ [a]) r ok else (pi, buf ++ [a], r, ok)
      | Done => (match buf with [] => pi | _ => S pi end, [], 0, ok)
      | _ => s
      end
    end.
  Definition dry_fold (l : list (event (sample A))) (s : dry_state) : dry_state := fold_left dry_step l s.
  Definition dry0 : dry_state := (0, [], 0, true).

  Definition pk_out (lr : list (sample A)) (gl : list (list (sample A))) (pi fi : nat) (drain : bool) (rest : list (event (sample A))) :
      list (event (sample B)) :=
    map Yield (packs (f w) fi gl) ++
    if drain then Done :: pk_events pi (fi + length gl) [] rest
    else if length lr =? size then
      map Yield (packs (f w) (fi + length gl) (chosen (pre w) pi lr)) ++ pk_events (S pi) (fi + length gl + length (chosen (pre w) pi lr)) [] rest
    else pk_events pi (fi + length gl) lr rest.

  Definition pk_drain (g : pk_gen) : bool := match g with PkDrain => true | _ => false end.
  Definition pk_round (g : pk_gen) (gl : list (list (sample A))) : nat :=
    match gl, g with [], PkLoop r => r | _, _ => 0 end.

  Definition pk_J (ins : list (option (sample A))) (outs : list (event (sample B))) (b : bool) (x : lst T) : Prop :=
    exists lr gl pi fi ok, pk_is nw w lr gl pi fi (fst x) /\ length lr <= size /\ (gl <> [] -> lr = []) /\
      (snd x = PkStart -> lr = [] /\ gl = []) /\ (snd x = PkDrain -> lr = [] /\ b = true) /\
      (forall rest, pk_events 0 0 [] (map inp ins ++ rest) = outs ++ pk_out lr gl pi fi (pk_drain (snd x)) rest) /\
      dry_fold (map inp ins) dry0 =
        (if length lr =? size then dry_full pi lr (pk_round (snd x) gl) ok else (pi, lr, pk_round (snd x) gl, ok)).

  Lemma made_chosen pi lr gs : made pre w pi lr = Some gs -> chosen (pre w) pi lr = gs.
  Proof. unfold made, chosen. destruct (pre w pi lr); congruence. Qed.

  Lemma size_nil : (length (@nil (sample A)) =? size) = false.
  Proof. apply Nat.eqb_neq. cbn. lia. Qed.

  Lemma pk_out_final lr g gl pi fi drain rest :
    pk_out lr (g :: gl) pi fi drain rest =
    match f w fi (map pl g) with UOk y => [Yield (mkS y (pack_key fi (map rk g)))] | _ => [] end ++ pk_out lr gl pi (S fi) drain rest.
  Proof.
    unfold pk_out. cbn [packs length]. rewrite map_app, <- app_assoc. replace (fi + S (length gl)) with (S fi + length gl) by lia.
    destruct (f w fi (map pl g)); cbn [map app]; try reflexivity. unfold pack_key. rewrite map_map. reflexivity.
  Qed.

  Lemma dry_fold_snoc ins r s : dry_fold (map inp (ins ++ [r])) s = dry_step (dry_fold (map inp ins) s) (inp r).
  Proof. unfold dry_fold. rewrite map_inp_snoc, fold_left_app. reflexivity. Qed.

  Lemma pk_trace_ok : trace_ok D w pk_J.
  Proof.
    intros ins outs b [o g] (lr & gl & pi & fi & ok & H & HL & HG & HS & HD & HE & HF). cbn [fst snd] in *.
    assert (FIN : forall g1 gl1 nx, gl = g1 :: gl1 -> (nx = PkLoop 0 /\ (exists r, g = PkLoop r)) \/ (nx = PkDrain /\ g = PkDrain) ->
      match pk_final f w o (length g1) (map (@length _) gl1) nx with
      | Local o1 g2 e => is_raise e = false -> done_ok T b e /\ pk_J ins (outs ++ obs e) b (after (T := T) (o1, g2, e))
      | _ => False
      end).
    { intros g1 gl1 nx -> Hn. destruct (@pk_final_is A B nw f w Hw _ _ _ _ _ _ nx H) as (o2 & H2 & E). rewrite E. clear E.
      assert (lr = []) as -> by (apply HG; discriminate). rewrite size_nil in HF.
      assert (R : forall outs', (forall rest, pk_events 0 0 [] (map inp ins ++ rest) = outs' ++ pk_out [] gl1 pi (S fi) (pk_drain nx) rest) ->
        pk_J ins outs' b (o2, nx)).
      { intros outs' HE'. exists [], gl1, pi, (S fi), ok. cbn [fst snd]. split; [exact H2|]. split; [cbn; lia|]. split; [reflexivity|].
        split; [destruct Hn as [(-> & _)|(-> & _)]; discriminate|].
        split; [intros ->; destruct Hn as [(? & _)|(_ & ->)]; [discriminate|]; split; [reflexivity|apply HD; reflexivity]|].
        split; [exact HE'|]. rewrite size_nil, HF. unfold pk_round. destruct Hn as [(-> & r & ->)|(-> & ->)]; destruct gl1; reflexivity. }
      assert (DR : pk_drain nx = pk_drain g) by (destruct Hn as [(-> & r & ->)|(-> & ->)]; reflexivity).
      destruct (f w fi (map pl g1)) as [y| | |] eqn:Ef; cbn [is_raise obs after done_ok]; intros Hr; try discriminate; (split; [exact I|]);
        apply R; intros rest; rewrite HE, pk_out_final, Ef, DR, ?app_nil_r, <- ?app_assoc; reflexivity. }
    unfold act. cbn [pack_ds t_act fst snd]. destruct g as [|r|].
    - destruct (pk_start_any (ds_restore_sample D w) H) as (o2 & E & H2). rewrite E. intros _. split; [exact I|]. cbn [obs after]. rewrite app_nil_r.
      destruct (HS eq_refl) as [-> ->]. exists [], [], pi, fi, ok. cbn [fst snd]. rewrite size_nil in *.
      split; [exact H2|]. split; [exact HL|]. split; [auto|]. split; [discriminate|]. split; [discriminate|]. split; [exact HE|exact HF].
    - rewrite (pk_len_is H). destruct gl as [|g1 gl1]; cbn [map].
      + destruct (@pk_read_step_is A B nw size w Hw pre _ (ds_restore_sample D w) lr pi fi o r PkLoop PkDrain Hs H) as (a & E & X). rewrite E. clear E.
        destruct (length lr <? size) eqn:LT.
        * apply Nat.ltb_lt in LT. assert (NE : (length lr =? size) = false) by (apply Nat.eqb_neq; lia). rewrite NE in HF. cbn [pk_round] in HF.
          assert (HE' : forall r0 rest, pk_events 0 0 [] (map inp (ins ++ [r0]) ++ rest) = outs ++ pk_events pi fi lr (inp r0 :: rest)).
          { intros r0 rest. rewrite map_inp_snoc, <- app_assoc. cbn [app]. rewrite HE. unfold pk_out. rewrite NE. cbn [packs map app length pk_drain]. rewrite Nat.add_0_r. reflexivity. }
          destruct X as (k & -> & X1 & X2). intros [a'|] Hr.
          -- destruct (X1 a') as (o2 & E & H2). rewrite E in *. cbn [ev_of snd done_ok obs after is_none]. split; [exact I|]. rewrite app_nil_r.
             exists (lr ++ [a']), [], pi, fi, ok. cbn [fst snd]. split; [exact H2|]. split; [rewrite app_length; cbn; lia|]. split; [congruence|].
             split; [discriminate|]. split; [discriminate|]. split.
             ++ intros rest. rewrite HE'. cbn [inp pk_events]. unfold pk_out. cbn [packs map app length pk_drain]. rewrite Nat.add_0_r. reflexivity.
             ++ rewrite dry_fold_snoc, HF. cbn [inp dry_step pk_round]. reflexivity.
          -- assert (DONE : forall o2 gs pi2, k None = (o2, PkDrain, Tau) -> pk_is nw w [] gs pi2 fi o2 ->
               (lr = [] /\ gs = [] /\ pi2 = pi \/ lr <> [] /\ chosen (pre w) pi lr = gs /\ pi2 = S pi) ->
               done_ok T (is_none (@None (sample A))) (ev_of (T := T) (k None)) /\ pk_J (ins ++ [None]) (outs ++ obs (ev_of (T := T) (k None))) true (after (T := T) (k None))).
             { intros o2 gs pi2 E H2 HC. rewrite E. cbn [ev_of snd done_ok obs after is_none]. split; [exact I|]. rewrite app_nil_r.
               exists [], gs, pi2, fi, ok. cbn [fst snd]. split; [exact H2|]. split; [cbn; lia|]. split; [reflexivity|].
               split; [discriminate|]. split; [auto|]. split.
               - intros rest. rewrite HE'. cbn [inp pk_events]. unfold pk_out. cbn [pk_drain].
                 destruct HC as [(-> & -> & ->)|(HN & <- & ->)]; [cbn [packs map app length]; rewrite Nat.add_0_r; reflexivity|].
                 destruct lr; [congruence|reflexivity].
               - rewrite size_nil, dry_fold_snoc, HF. cbn [inp dry_step]. unfold pk_round.
                 destruct HC as [(-> & -> & ->)|(HN & <- & ->)]; [reflexivity|]. destruct lr; [congruence|]. destruct (chosen _ _ _); reflexivity. }
             destruct lr as [|a0 lr].
             ++ apply (DONE o [] pi X2 H). auto.
             ++ destruct (made pre w pi (a0 :: lr)) as [gs|] eqn:M.
                ** destruct X2 as (o2 & E & H2). apply (DONE o2 gs (S pi) E H2). right. split; [discriminate|]. split; [exact (made_chosen M)|reflexivity].
                ** rewrite X2 in Hr. discriminate.
        * apply Nat.ltb_ge in LT. assert (EQ : length lr = size) by lia. rewrite (proj2 (Nat.eqb_eq _ _) EQ) in HF, X.
          destruct (made pre w pi lr) as [gs|] eqn:M; [|rewrite X; discriminate].
          pose proof (made_chosen M) as MC. destruct X as (o2 & H2 & ->). destruct (10 <? S r) eqn:Hr; [discriminate|]. intros _. split; [exact I|].
          cbn [obs after]. rewrite app_nil_r. exists [], gs, (S pi), fi, (ok && (r <? 10)). cbn [fst snd]. split; [exact H2|]. split; [cbn; lia|]. split; [reflexivity|].
          split; [discriminate|]. split; [discriminate|]. split.
          -- intros rest. rewrite HE. unfold pk_out. rewrite (proj2 (Nat.eqb_eq _ _) EQ), size_nil. cbn [packs map app length pk_drain]. rewrite MC, Nat.add_0_r. reflexivity.
          -- rewrite size_nil, HF. unfold dry_full. cbn [pk_round]. rewrite MC. destruct gs; reflexivity.
      + assert (X := FIN g1 gl1 (PkLoop 0) eq_refl (or_introl (conj eq_refl (ex_intro _ r eq_refl)))). exact X || (destruct (pk_final f w o _ _ (PkLoop 0)); [exact X|destruct X|destruct X]).
    - rewrite (pk_len_is H). destruct gl as [|g1 gl1]; cbn [map].
      + intros _. destruct (HD eq_refl) as [-> ->]. split; [right; reflexivity|]. cbn [obs after pack_ds t_iter].
        exists [], [], pi, fi, ok. cbn [fst snd]. split; [exact H|]. split; [cbn; lia|]. split; [auto|]. split; [auto|]. split; [discriminate|]. split.
        * intros rest. rewrite HE, <- app_assoc. unfold pk_out. rewrite size_nil. cbn [packs map app length pk_drain]. rewrite Nat.add_0_r. reflexivity.
        * exact HF.
      + assert (X := FIN g1 gl1 PkDrain eq_refl (or_intror (conj eq_refl eq_refl))). exact X || (destruct (pk_final f w o _ _ PkDrain); [exact X|destruct X|destruct X]).
  Qed.

  Lemma pk_J_init : pk_J [] [] true (t_init T, t_iter T).
  Proof.
    exists [], [], 0, 0, true. cbn [fst snd pack_ds t_init t_iter]. split; [apply pk_init_is|]. split; [cbn; lia|]. split; [auto|]. split; [auto|]. split; [discriminate|]. split.
    - intros rest. unfold pk_out. rewrite size_nil. reflexivity.
    - rewrite size_nil. reflexivity.
  Qed.

  (** progress: no system exceptions, no drought *)
  Definition pk_good (ins : list (option (sample A))) : Prop := snd (dry_fold (map inp ins) dry0) = true.

  Lemma dry_ok_mono l : forall s, snd (dry_fold l s) = true -> snd s = true.
  Proof.
    induction l as [|e l IH]; intros s H; [exact H|]. cbn [dry_fold fold_left] in H. apply IH in H. destruct s as [[[pi buf] r] ok]. cbn [dry_step snd] in *.
    destruct e; try exact H. destruct (_ =? size); [|exact H]. unfold dry_full in H. cbn [snd] in H. apply andb_prop in H. apply H.
  Qed.

  Lemma pk_good_mono i1 i2 : pk_good (i1 ++ i2) -> pk_good i1.
  Proof. unfold pk_good. rewrite map_app. unfold dry_fold. rewrite fold_left_app. apply dry_ok_mono. Qed.

  Definition pk_core (o : pk_obj (A := A)) : nat :=
    match nth w (pk_len o) [] with
    | [] => if length (buf_at w (pk_read o)) <? size then 0 else 1 + length (chosen (pre w) (nth w (pk_pidx o) 0) (buf_at w (pk_read o)))
    | l => length l
    end.
  Definition pk_mu (x : lst T) : nat :=
    match snd x with PkStart => 1 + pk_core (fst x) | PkLoop _ => pk_core (fst x) | PkDrain => 2 + length (nth w (pk_len (fst x)) []) end.

  Lemma pk_core_is lr gl pi fi o : pk_is nw w lr gl pi fi o ->
    pk_core o = match gl with [] => if length lr <? size then 0 else 1 + length (chosen (pre w) pi lr) | _ => length gl end.
  Proof.
    intros ((_ & _ & _ & H1 & _) & _ & _ & H2 & _ & H3 & _). unfold pk_core. rewrite H1, H2, H3. destruct gl; cbn [map]; [reflexivity|].
    cbn [length]. rewrite map_length. reflexivity.
  Qed.

  Lemma pk_progress : (forall i l, pre w i l <> UFatal) -> (forall i l, f w i l <> UFatal) ->
    trace_progress_on (T := T) D w pk_J pk_good pk_mu.
  Proof.
    intros NF1 NF2 ins outs b [o g] (lr & gl & pi & fi & ok & H & HL & HG & HS & HD & HE & HF) GOOD. cbn [fst snd] in *.
    assert (NM : forall i l, made pre w i l <> None) by (intros i l; unfold made; specialize (NF1 i l); destruct (pre w i l); congruence).
    assert (FIN : forall g1 gl1 nx, gl = g1 :: gl1 -> nx = PkLoop 0 /\ (exists r, g = PkLoop r) \/ nx = PkDrain /\ g = PkDrain ->
      match pk_final f w o (length g1) (map (@length _) gl1) nx with
      | Local o1 g2 e => is_raise e = false /\ pk_mu (after (T := T) (o1, g2, e)) < pk_mu (o, g)
      | _ => False
      end).
    { intros g1 gl1 nx -> Hn. destruct (@pk_final_is A B nw f w Hw _ _ _ _ _ _ nx H) as (o2 & H2 & E). rewrite E. clear E.
      assert (lr = []) as -> by (apply HG; discriminate).
      assert (MU : pk_mu (o2, nx) < pk_mu (o, g)).
      { destruct Hn as [(-> & r & ->)|(-> & ->)]; unfold pk_mu; cbn [fst snd].
        - rewrite (pk_core_is H), (pk_core_is H2). destruct gl1; cbn [length]; [|lia]. destruct (0 <? size) eqn:Z; [lia|]. apply Nat.ltb_ge in Z. lia.
        - rewrite (pk_len_is H), (pk_len_is H2). cbn [map length]. rewrite !map_length. lia. }
      specialize (NF2 fi (map pl g1)). destruct (f w fi (map pl g1)) as [y| | |]; cbn [is_raise after]; try (split; [reflexivity|exact MU]). congruence. }
    unfold act. cbn [pack_ds t_act fst snd]. destruct g as [|r|].
    - destruct (pk_start_any (ds_restore_sample D w) H) as (o2 & E & H2). rewrite E. cbn [after is_raise]. split; [reflexivity|].
      unfold pk_mu. cbn [fst snd]. rewrite (pk_core_is H), (pk_core_is H2). lia.
    - rewrite (pk_len_is H). destruct gl as [|g1 gl1]; cbn [map].
      + destruct (@pk_read_step_is A B nw size w Hw pre _ (ds_restore_sample D w) lr pi fi o r PkLoop PkDrain Hs H) as (a & E & X). rewrite E. clear E.
        destruct (length lr <? size) eqn:LT.
        * destruct X as (k & -> & X1 & X2). intros [a'|] _; [destruct (X1 a') as (o2 & -> & _); reflexivity|]. destruct lr as [|a0 lr]; [rewrite X2; reflexivity|].
          specialize (NM pi (a0 :: lr)). destruct (made pre w pi (a0 :: lr)) as [gs|]; [|congruence]. destruct X2 as (o2 & -> & _). reflexivity.
        * apply Nat.ltb_ge in LT. assert (EQ : length lr = size) by lia. rewrite (proj2 (Nat.eqb_eq _ _) EQ) in HF, X.
          specialize (NM pi lr). destruct (made pre w pi lr) as [gs|] eqn:M; [|congruence]. destruct X as (o2 & H2 & ->).
          unfold pk_good in GOOD. rewrite HF in GOOD. unfold dry_full in GOOD. cbn [snd pk_round] in GOOD. apply andb_prop in GOOD. destruct GOOD as [_ GOOD].
          apply Nat.ltb_lt in GOOD. destruct (10 <? S r) eqn:Hr; [apply Nat.ltb_lt in Hr; lia|]. cbn [is_raise after]. split; [reflexivity|].
          unfold pk_mu. cbn [fst snd]. rewrite (pk_core_is H), (pk_core_is H2), (made_chosen M). apply Nat.ltb_ge in LT. rewrite LT.
          destruct gs; [|lia]. cbn [length]. destruct (0 <? size) eqn:Z; [lia|]. apply Nat.ltb_ge in Z. lia.
      + assert (X := FIN g1 gl1 (PkLoop 0) eq_refl (or_introl (conj eq_refl (ex_intro _ r eq_refl)))). exact X || (destruct (pk_final f w o _ _ (PkLoop 0)); [exact X|destruct X|destruct X]).
    - rewrite (pk_len_is H). destruct gl as [|g1 gl1]; cbn [map].
      + destruct (HD eq_refl) as [-> ->]. cbn [is_raise after]. split; [reflexivity|]. unfold pk_mu. cbn [fst snd pack_ds t_iter].
        rewrite (pk_core_is H), (pk_len_is H). cbn [map length]. destruct (0 <? size) eqn:Z; [lia|]. apply Nat.ltb_ge in Z. lia.
      + assert (X := FIN g1 gl1 PkDrain eq_refl (or_intror (conj eq_refl eq_refl))). exact X || (destruct (pk_final f w o _ _ PkDrain); [exact X|destruct X|destruct X]).
  Qed.

  Theorem pk_forward ins : (forall i l, pre w i l <> UFatal) -> (forall i l, f w i l <> UFatal) ->
    clean ins -> snd (dry_fold ins dry0) = true -> emits w (fresh D) ins ->
    emits w (fresh (wrap T D)) (pk_events 0 0 [] ins).
  Proof.
    intros NF1 NF2 HC HG E. destruct (clean_inp HC) as (ins' & ->).
    destruct (@wrap_forward_on _ _ T D w pk_J pk_trace_ok pk_good pk_good_mono pk_mu (pk_progress NF1 NF2) (fresh (wrap T D)) true ins' pk_J_init (@fresh_it_ok _ _ T D true) HG E)
      as (outs & b & [o g] & s' & si & E1 & (lr & gl & pi & fi & ok & H & HL & HGl & HS & HD & HE & HF) & Pl & _).
    cbn [fst snd] in *. specialize (HE []). rewrite app_nil_r in HE. rewrite HE. unfold pulls, act in Pl. cbn [pack_ds t_act fst snd] in Pl.
    destruct g as [|r|].
    - destruct (pk_start (ds_restore_sample D w) w o); destruct Pl.
    - rewrite (pk_len_is H) in Pl. destruct gl as [|g1 gl1]; cbn [map] in Pl.
      + destruct (@pk_read_step_is A B nw size w Hw pre _ (ds_restore_sample D w) lr pi fi o r PkLoop PkDrain Hs H) as (a & Ea & X). rewrite Ea in Pl. clear Ea.
        destruct (length lr <? size) eqn:LT.
        * apply Nat.ltb_lt in LT. unfold pk_out. replace (length lr =? size) with false by (symmetry; apply Nat.eqb_neq; lia). cbn [packs map app pk_events pk_drain].
          rewrite app_nil_r. exact E1.
        * exfalso. destruct (length lr =? size); [|subst a; exact Pl]. destruct (made pre w pi lr); [|subst a; exact Pl]. destruct X as (o2 & _ & ->). destruct (10 <? S r); exact Pl.
      + exfalso. destruct (@pk_final_is A B nw f w Hw _ _ _ _ _ _ (PkLoop 0) H) as (o2 & _ & Ef). rewrite Ef in Pl. destruct (f w fi (map pl g1)); exact Pl.
    - rewrite (pk_len_is H) in Pl. destruct gl as [|g1 gl1]; cbn [map] in Pl; [destruct Pl|].
      exfalso. destruct (@pk_final_is A B nw f w Hw _ _ _ _ _ _ PkDrain H) as (o2 & _ & Ef). rewrite Ef in Pl. destruct (f w fi (map pl g1)); exact Pl.
  Qed.

  (** everything that comes out is part of that *)
  Theorem pk_trace outs : clean outs -> emits w (fresh (wrap T D)) outs ->
    exists ins more, clean ins /\ emits w (fresh D) ins /\ pk_events 0 0 [] ins = outs ++ more.
  Proof.
    intros HC E.
    destruct (@wrap_trace _ _ T D w pk_J pk_trace_ok outs (fresh (wrap T D)) true HC pk_J_init (@fresh_it_ok _ _ T D true) E)
      as (ins & b & l & E1 & (lr & gl & pi & fi & ok & _ & _ & _ & _ & _ & HE & _)).
    exists (map inp ins). specialize (HE []). rewrite app_nil_r in HE. eexists. split; [|split; [exact E1|exact HE]].
    apply Forall_forall. intros e He. apply in_map_iff in He as ([a|] & <- & _); exact I.
  Qed.
End Trace.
