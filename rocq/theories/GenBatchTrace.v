(** What comes out of BatchDataset with a generator batcher. *)
From Coq Require Import String.
From Verif Require Import Base Dataset DatasetProofs Wrap WrapProofs WrapRun WrapTrace WrapSpec WrapLib
  Wrappers MapModel IdxProofs Buffer BufferProofs Batch BatchSpec BatchProofs GenBatchProofs MapGenProofs P_Batch.
Local Open Scope list_scope.
Local Open Scope nat_scope.

Section Trace.
  Context {A B : Type} (nw size : nat) (drop_last : bool) (f : nat -> nat -> list A -> list B * gend).
  Hypothesis Hend : forall w i l, snd (f w i l) = GEnd.
  Variables (D : dataset A) (w : nat).
  Hypothesis Hw : w < nw.
  Notation T := (batchgen_ds nw size drop_last f).

  (** the plain batcher that gives all outputs at once *)
  Definition all_at_once (w i : nat) (l : list A) : ures (list B) := UOk (fst (f w i l)).
  Definition expand_key (j : nat) (k : rkey) : rkey := match k with n :: i :: ks => n :: i :: AInt j :: ks | _ => k end.
  Definition expand1 (a : sample (list B)) : list (sample B) := map (fun jy => mkS (snd jy) (expand_key (fst jy) (rk a))) (combine (seq 0 (length (pl a))) (pl a)).
  Definition expand (e : event (sample (list B))) : list (event (sample B)) :=
    match e with Yield a => map Yield (expand1 a) | Tau => [Tau] | Done => [Done] | Raise x => [Raise x] end.
  Definition gev (i : nat) (buf : list (sample A)) (keys : list rkey) (l : list (event (sample A))) : list (event (sample B)) :=
    flat_map expand (bt_events size drop_last all_at_once w i buf keys l).
  Definition outs_at (i : nat) (batch : list (sample A)) (keys : list rkey) : list (sample B) := expand1 (mkS (fst (f w i (map pl batch))) (batch_key i keys)).

  Lemma outs_nth i batch keys j : nth_error (outs_at i batch keys) j = option_map (fun y => mkS y (batchgen_key i j keys)) (nth_error (fst (f w i (map pl batch))) j).
  Proof.
    unfold outs_at, expand1. cbn [pl rk]. rewrite nth_error_map. generalize (fst (f w i (map pl batch))). intros ys.
    assert (G : forall ys k j, nth_error (combine (seq k (length ys)) ys) j = option_map (fun y : B => (k + j, y)) (nth_error ys j)).
    { clear. induction ys as [|y ys IH]; intros k [|j]; cbn; auto; [rewrite Nat.add_0_r; reflexivity|].
      rewrite IH. destruct (nth_error ys j); cbn; [|reflexivity]. do 2 f_equal. lia. }
    rewrite G. destruct (nth_error ys j); reflexivity.
  Qed.
  Lemma outs_len i batch keys : length (outs_at i batch keys) = length (fst (f w i (map pl batch))).
  Proof. unfold outs_at, expand1. rewrite map_length, combine_length, seq_length. cbn [pl]. lia. Qed.
  Lemma skipn_nth {X} (l : list X) j x : nth_error l j = Some x -> skipn j l = x :: skipn (S j) l.
  Proof. revert j; induction l as [|y l IH]; intros [|j] H; cbn in *; try discriminate; [congruence|]. apply IH. exact H. Qed.

  Definition bgl3 (o : bg_obj) : Prop := length (bg_idx o) = nw /\ length (bg_key o) = nw /\ length (bg_off o) = nw.
  Definition grest (x : lst T) (rest : list (event (sample A))) : list (event (sample B)) :=
    let i := nth w (bg_idx (fst x)) 0 in
    match snd x with
    | BgStart => gev i [] [] rest
    | BgLoop batch keys => gev i batch keys rest
    | BgGen last batch keys k j => map Yield (skipn j (outs_at k batch keys)) ++ (if last then [Done] else []) ++ gev i [] [] rest
    | BgEnd => Done :: gev i [] [] rest
    | BgResume _ _ _ _ _ => []
    end.
  Definition gJ (ins : list (option (sample A))) (outs : list (event (sample B))) (b : bool) (x : lst T) : Prop :=
    bgl3 (fst x) /\ (match snd x with BgEnd => b = true /\ nth w (bg_key (fst x)) None = None | BgGen true _ _ _ _ => b = true | BgResume _ _ _ _ _ => False | BgStart | BgLoop _ _ => nth w (bg_key (fst x)) None = None | _ => True end) /\
    forall rest, gev 0 [] [] (map inp ins ++ rest) = outs ++ grest x rest.

  Lemma gJ_trace_ok : trace_ok D w gJ.
  Proof.
    intros ins outs b [o g] (HL & HB & HE). cbn [fst snd] in *. unfold act. destruct g as [|batch keys i j t|batch keys|last batch keys i j|]; cbn [batchgen_ds t_act fst snd].
    - rewrite HB. intros _. split; [exact I|]. cbn [obs after]. rewrite app_nil_r. split; [exact HL|]. split; [exact HB|]. exact HE.
    - contradiction.
    - intros r Hr.
      assert (HE' : forall rest, gev 0 [] [] (map inp (ins ++ [r]) ++ rest) = outs ++ gev (nth w (bg_idx o) 0) batch keys (inp r :: rest)).
      { intros rest. rewrite map_inp_snoc, <- app_assoc. cbn [app]. rewrite HE. reflexivity. }
      assert (FL : forall bt k last rest, grest (fst (fst (bg_flush (B := B) w o last bt k)), snd (fst (bg_flush (B := B) w o last bt k))) rest =
        expand (Yield (mkS (fst (f w (nth w (bg_idx o) 0) (map pl bt))) (batch_key (nth w (bg_idx o) 0) k))) ++ (if last then [Done] else []) ++ gev (S (nth w (bg_idx o) 0)) [] [] rest).
      { intros bt k last rest. destruct HL as (L1 & L2 & L3). unfold bg_flush, grest. cbn [fst snd bg_idx]. rewrite nth_upd_same by lia. reflexivity. }
      assert (LL : forall (bt : list (sample A)) (k : list rkey) (last : bool), bgl3 (fst (fst (bg_flush (B := B) w o last bt k)))).
      { intros. destruct HL as (L1 & L2 & L3). unfold bg_flush, bgl3. cbn [fst bg_idx bg_key bg_off]. rewrite !upd_length. auto. }
      destruct r as [a|]; cbn [is_none inp] in *.
      + destruct (length (batch ++ [a]) =? size) eqn:EL.
        * split; [exact I|]. split; [apply LL|]. split; [exact I|]. intros rest. rewrite HE'. cbn [bg_flush obs]. rewrite app_nil_r. f_equal.
          etransitivity; [|symmetry; exact (FL (batch ++ [a]) (keys ++ [rk a]) false rest)]. unfold gev. cbn [bt_events]. rewrite EL. unfold all_at_once. cbn [flat_map app]. reflexivity.
        * split; [exact I|]. cbn [obs after]. rewrite app_nil_r. split; [exact HL|]. split; [exact HB|]. intros rest. rewrite HE'. f_equal. unfold gev, grest. cbn [bt_events fst snd]. rewrite EL. reflexivity.
      + destruct ((0 <? length batch) && negb drop_last) eqn:EL.
        * split; [exact I|]. split; [apply LL|]. split; [reflexivity|]. intros rest. rewrite HE'. cbn [bg_flush obs]. rewrite app_nil_r. f_equal.
          etransitivity; [|symmetry; exact (FL batch keys true rest)]. unfold gev. cbn [bt_events]. rewrite EL. unfold all_at_once. cbn [flat_map app]. reflexivity.
        * split; [right; reflexivity|]. cbn [obs after]. split; [exact HL|]. split; [exact HB|]. intros rest. rewrite HE'. rewrite <- app_assoc. f_equal. unfold gev, grest. cbn [bt_events fst snd batchgen_ds t_iter]. rewrite EL. reflexivity.
    - assert (HF := Hend w i (map pl batch)). pose proof (outs_nth i batch keys j) as ON. pose proof (outs_len i batch keys) as OL.
      destruct (f w i (map pl batch)) as [ys e] eqn:Ef. cbn [fst snd] in *. subst e.
      destruct (nth_error ys j) as [y|] eqn:Ey.
      + intros _. split; [exact I|]. cbn [obs after]. destruct HL as (L1 & L2 & L3). split; [unfold bgl3; cbn; rewrite upd_length; auto|]. split; [exact HB|].
        intros rest. rewrite HE. unfold grest. cbn [fst snd bg_set_off bg_idx]. rewrite (skipn_nth ON). cbn [map app]. rewrite <- app_assoc. reflexivity.
      + intros _. split; [exact I|]. cbn [obs after]. destruct HL as (L1 & L2 & L3). split; [unfold bgl3; cbn; rewrite !upd_length; auto|].
        split; [destruct last; cbn [bg_next snd fst bg_clear bg_key]; [split; [exact HB|]|]; apply nth_upd_same; lia|].
        intros rest. rewrite HE, app_nil_r. f_equal. unfold grest. cbn [fst snd]. apply nth_error_None in Ey. rewrite skipn_all2 by lia. destruct last; reflexivity.
    - intros _. destruct HB as [HB HK]. split; [right; exact HB|]. split; [exact HL|]. split; [exact HK|].
      intros rest. rewrite HE, <- app_assoc. reflexivity.
  Qed.

  Lemma gJ_init : gJ [] [] true (t_init T, t_iter T).
  Proof.
    split; [unfold bgl3; cbn; rewrite !repeat_length; auto|]. split; [cbn; apply nth_repeat|].
    intros rest. cbn [map app]. unfold grest. cbn [fst snd batchgen_ds t_init t_iter bg_idx]. rewrite nth_repeat. reflexivity.
  Qed.

  Definition g_measure (x : lst T) : nat :=
    match snd x with
    | BgStart => 1
    | BgGen _ batch _ i j => 3 + (length (fst (f w i (map pl batch))) - j)
    | BgEnd => 2
    | _ => 0
    end.

  Theorem gen_forward ins : clean ins -> emits w (fresh D) ins -> emits w (fresh (wrap T D)) (gev 0 [] [] ins).
  Proof.
    intros HC E. destruct (clean_inp HC) as (ins' & ->).
    assert (P : trace_progress D w gJ g_measure).
    { intros i o b [oo gg] (_ & HB & _). unfold act. destruct gg as [|batch keys k j t|batch keys|last batch keys k j|]; cbn [batchgen_ds t_act fst snd] in *.
      - rewrite HB. split; [reflexivity|]. cbn. lia.
      - contradiction.
      - intros [a|]; cbn [ev_of snd].
        + destruct (length (batch ++ [a]) =? size); reflexivity.
        + destruct (_ && _); reflexivity.
      - assert (HF := Hend w k (map pl batch)). unfold g_measure. cbn [snd]. destruct (f w k (map pl batch)) as [ys e] eqn:Ef. cbn [fst snd] in *. subst e.
        destruct (nth_error ys j) as [y|] eqn:Ey.
        + split; [reflexivity|]. cbn [snd after]. rewrite Ef. cbn [fst]. assert (j < length ys) by (apply nth_error_Some; congruence). lia.
        + split; [reflexivity|]. destruct last; cbn; lia.
      - split; [reflexivity|]. cbn. lia. }
    destruct (@wrap_forward _ _ T D w gJ gJ_trace_ok _ P (fresh (wrap T D)) true ins' gJ_init (@fresh_it_ok _ _ T D true) E)
      as (outs & b & l & E1 & (_ & HB & J1) & Pl).
    specialize (J1 []). rewrite app_nil_r in J1. rewrite J1. destruct l as [o [|batch keys k j t|batch keys|last batch keys k j|]]; try (destruct HB; fail).
    all: unfold pulls, act in Pl; cbn [batchgen_ds t_act fst snd] in *.
    - rewrite HB in Pl. destruct Pl.
    - cbn [grest snd gev bt_events]. unfold grest, gev. cbn [snd bt_events flat_map]. rewrite app_nil_r. exact E1.
    - destruct (f w k (map pl batch)) as [ys e]. destruct (nth_error ys j); [|destruct e]; destruct Pl.
    - destruct Pl.
  Qed.

  Theorem gen_trace outs : clean outs -> emits w (fresh (wrap T D)) outs ->
    exists ins more, clean ins /\ emits w (fresh D) ins /\ gev 0 [] [] ins = outs ++ more.
  Proof.
    intros HC E.
    destruct (@wrap_trace _ _ T D w gJ gJ_trace_ok outs (fresh (wrap T D)) true HC gJ_init (@fresh_it_ok _ _ T D true) E)
      as (ins & b & l & E1 & (_ & _ & J1)).
    exists (map inp ins). specialize (J1 []). rewrite app_nil_r in J1. exists (grest l []). split; [|split; [exact E1|exact J1]].
    apply Forall_forall. intros e He. apply in_map_iff in He as ([a|] & <- & _); exact I.
  Qed.
End Trace.

Lemma expand_batches {A B} (h : nat -> list A -> list B) gs : forall i,
  flat_map expand (map Yield (batches h i gs)) = map Yield (gen_batches h i gs).
Proof.
  induction gs as [|g gs IH]; intros i; [reflexivity|]. cbn [batches map flat_map gen_batches]. rewrite IH, map_app. reflexivity.
Qed.
Lemma expand_epochs {A B} (h : nat -> list A -> list B) gss : forall i,
  flat_map expand (batched_epochs h i gss) = gen_epochs h i gss.
Proof.
  induction gss as [|gs gss IH]; intros i; [reflexivity|]. cbn [batched_epochs gen_epochs]. unfold epoch.
  rewrite !flat_map_app, expand_batches, IH. reflexivity.
Qed.
