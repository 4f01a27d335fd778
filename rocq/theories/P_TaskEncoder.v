(** C48: the dataset that TaskEncoder.build_val_datasets / build_train_datasets builds;  C49: cookers. *)
From Coq Require Import String QArith.
From Verif Require Import Base Dataset DatasetProofs Wrap WrapProofs WrapSpec WrapLib SourceProofs Rng RngProofs Sharder SampleLoader SampleLoaderSpec Tar Joined JoinedSpec Wrappers MapModel Batch BatchSpec
  GroupBatch Packing ShuffleBuffer Blend BlendSpec Concat ConcatProofs TaskEncoder TaskEncoderSpec TaskEncoderProofs ResetProofs LogProofs Pipeline P_Wrappers P_Batch P_Blend P_GroupBatch P_Pipeline P_SampleLoader.
Local Close Scope Q_scope.
Local Close Scope Z_scope.
Local Open Scope string_scope.
Local Open Scope list_scope.
Local Open Scope nat_scope.

(** ** C49 cookers *)
Section Cook.
  Context {V K : Type}.
  Variable crude : V -> option (string * list (string * string)).

  Lemma dict_get_entry k d : dict_get k d = entry k d.
  Proof.
    unfold entry. induction d as [|[k' v] d IH]; cbn [dict_get find fst option_map snd]; [reflexivity|].
    rewrite String.eqb_sym. destruct (String.eqb k' k); [reflexivity|exact IH].
  Qed.
  Lemma has_all_spec want have : has_all want have = true <-> forall k v, In (k, v) want -> entry k have = Some v.
  Proof.
    induction want as [|[k v] want IH]; cbn [has_all]; [split; [intros _ k v []|reflexivity]|].
    rewrite dict_get_entry. split.
    - destruct (entry k have) as [v'|] eqn:E; [|discriminate]. destruct (String.eqb_spec v' v); [|discriminate]. subst v'.
      intros H k0 v0 [I|I]; [congruence|]. apply IH; auto.
    - intros H. rewrite (H k v) by (left; reflexivity). rewrite String.eqb_refl. apply IH. intros; apply H; right; auto.
  Qed.
  Lemma is_match_spec (c : @cooker V) x sub subs : is_match c x sub subs = true <-> applies c x sub subs.
  Proof.
    unfold is_match, applies. destruct (ck_is_subflavor c) as [s|], (ck_has_subflavors c) as [want|], (ck_condition c) as [p|];
      repeat match goal with
        | |- context [String.eqb ?a ?b] => destruct (String.eqb_spec a b); cbn [negb]
        | |- context [has_all ?a ?b] => let E := fresh in pose proof (has_all_spec a b) as E; destruct (has_all a b); cbn [negb]
        | |- context [?p x] => let E := fresh in destruct (p x) eqn:E; cbn [negb]
      end; split; intros H1; try discriminate; try reflexivity.
    all: try (split; [|split]; intros; try congruence;
           repeat match goal with H : Some _ = Some _ |- _ => injection H as -> end;
           try (eapply (proj1 H); auto); congruence).
    all: try (destruct H1 as (Q1 & Q2 & Q3);
           first [ specialize (Q1 _ eq_refl); congruence
                 | specialize (Q3 _ eq_refl); congruence
                 | enough (false = true) by discriminate; apply H; intros; eapply Q2; eauto ]).
  Qed.

  (** A crude sample is cooked by the first cooker all of whose given conditions hold for it; a sample that is not
      crude is passed on unchanged; a crude sample that no cooker applies to fails (the error is logged and the
      sample is skipped, see C49_unmatched). *)
  Theorem C49_first_match (cs : list (@cooker V)) w i x :
    match crude x with
    | None => cook_crude_sample crude cs w i x = UOk x
    | Some (sub, subs) =>
        (exists before c after, cs = before ++ c :: after /\ applies c x sub subs /\
           Forall (fun c' => ~ applies c' x sub subs) before /\ cook_crude_sample crude cs w i x = ck_cook c w i x) \/
        (Forall (fun c => ~ applies c x sub subs) cs /\ cook_crude_sample crude cs w i x = UErr)
    end.
  Proof.
    unfold cook_crude_sample. destruct (crude x) as [[sub subs]|]; [|reflexivity].
    induction cs as [|c cs IH]; cbn [cook_with]; [right; auto|].
    pose proof (is_match_spec c x sub subs) as M. destruct (is_match c x sub subs).
    - left. exists [], c, cs. split; [reflexivity|]. split; [apply M; reflexivity|]. auto.
    - assert (N : ~ applies c x sub subs) by (intros H; apply M in H; discriminate).
      destruct IH as [(b & c0 & a & -> & H1 & H2 & H3)|[H1 H2]].
      + left. exists (c :: b), c0, a. split; [reflexivity|]. auto.
      + right. auto.
  Qed.

  (** samples that no cooker applies to disappear without an error; all others come out in order *)
  Theorem C49_unmatched (cs : list (@cooker V)) nw (D : dataset V) w ins :
    w < nw -> (forall c w i x, In c cs -> ck_cook c w i x <> UFatal) -> clean ins -> emits w (fresh D) ins ->
    emits w (fresh (wrap (map_ds nw (cook_crude_sample crude cs)) D)) (mapped (cook_crude_sample crude cs) w 0 ins).
  Proof.
    intros Hw HF HC E. apply C34_map_in_order; auto. intros w0 i x.
    pose proof (C49_first_match cs w0 i x) as M. destruct (crude x) as [[sub subs]|]; [|congruence].
    destruct M as [(b & c & a & -> & _ & _ & ->)|[_ ->]]; [|discriminate]. apply HF. apply in_or_app. right. left. reflexivity.
  Qed.
End Cook.
Print Assumptions C49_first_match.
Print Assumptions C49_unmatched.

(** crude samples: (subflavor, subflavors, value) *)
Definition crude_view (x : (string * list (string * string)) * nat + nat) : option (string * list (string * string)) :=
  match x with inl (m, _) => Some m | inr _ => None end.
Definition cook_to (k : nat) (_ _ : nat) (x : (string * list (string * string)) * nat + nat) : ures ((string * list (string * string)) * nat + nat) :=
  match x with inl (_, n) => UOk (inr (k + n)) | inr _ => UErr end.
Definition ex_cookers : list (@cooker ((string * list (string * string)) * nat + nat)) :=
  [mkCooker (cook_to 100) (Some "a") None None;
   mkCooker (cook_to 200) None (Some [("lang", "en"); ("src", "x")]) None;
   mkCooker (cook_to 300) None (Some [("lang", "en")]) (Some (fun x => match x with inl (_, n) => 4 <? n | _ => false end))].
Example C49_nonvacuous :
  mapped (cook_crude_sample crude_view ex_cookers) 0 0
    (map Yield [mkS (inl ("b", [("src", "x"); ("lang", "en")], 1)) [AInt 0]; mkS (inl ("b", [("lang", "en")], 2)) [AInt 1];
                mkS (inl ("b", [("lang", "en")], 5)) [AInt 2]; mkS (inl ("a", [("src", "x"); ("lang", "en")], 6)) [AInt 3]; mkS (inr 7) [AInt 4]]) =
  [Yield (mkS (inr 201) [AStr "MapDataset"; AInt 0; AInt 0]); Yield (mkS (inr 305) [AStr "MapDataset"; AInt 2; AInt 2]);
   Yield (mkS (inr 106) [AStr "MapDataset"; AInt 3; AInt 3]); Yield (mkS (inr 7) [AStr "MapDataset"; AInt 4; AInt 4])].
Proof. reflexivity. Qed.

(** ** C48 the validation dataset *)
Section Build.
  Context {V K : Type} (keq : K -> K -> bool) (crude : V -> option (string * list (string * string))) (nw : nat).

  Lemma runs_map_of (f : ufn V V) st (b : @built V) w eps : w < nw -> no_failure f -> runs w (b_ds b) eps ->
    runs w (b_ds (map_of nw f st b)) (each_epoch (outputs f w) 0 eps).
  Proof. intros Hw HF H. destruct f; cbn [map_of b_ds]; [apply runs_map|apply runs_mapgen]; auto. Qed.

  Lemma cook_no_failure (e : @encoder V K) : enc_ok e -> no_failure (Fn (cook_crude_sample crude (te_cookers e))).
  Proof.
    intros (HC & _) w i x. pose proof (C49_first_match crude (te_cookers e) w i x) as M. destruct (crude x) as [[sub subs]|]; [|congruence].
    destruct M as [(b & c & a & E & _ & _ & ->)|[_ ->]]; [|discriminate]. apply HC. rewrite E. apply in_or_app. right. left. reflexivity.
  Qed.

  (** the stages up to batching *)
  Lemma runs_stages (e : @encoder V K) bsize drop b b' w eps :
    w < nw -> enc_ok e -> te_group e = None -> (forall n, bsize = Some n -> 0 < n) ->
    build_batch keq nw e bsize drop None (build_encode nw e (build_cook crude nw e b)) = Ok b' ->
    runs w (b_ds b) eps ->
    exists outs, val_epochs crude e bsize drop w eps outs /\ runs w (b_ds b') outs /\ length outs = length eps.
  Proof.
    intros Hw HE HG HB HBB HR.
    set (cooked := match te_cookers e with [] => eps | cs => each_epoch (outputs (Fn (cook_crude_sample crude cs)) w) 0 eps end).
    assert (R1 : runs w (b_ds (build_cook crude nw e b)) cooked /\ length cooked = length eps).
    { subst cooked. pose proof (cook_no_failure HE) as HN. unfold build_cook. destruct (te_cookers e) as [|c cs]; [auto|].
      split; [apply runs_map_of; auto|apply each_epoch_length]. }
    destruct R1 as [R1 L1].
    set (encoded := if m_base (te_encode e) then cooked else each_epoch (outputs (m_fn (te_encode e)) w) 0 cooked).
    assert (R2 : runs w (b_ds (build_encode nw e (build_cook crude nw e b))) encoded /\ length encoded = length eps).
    { subst encoded. unfold build_encode. destruct (m_base (te_encode e)); [auto|]. rewrite each_epoch_length. split; [|auto]. apply runs_map_of; auto. apply HE. }
    destruct R2 as [R2 L2]. destruct HE as (HC & HEn & HEb & f & Ef & Hf).
    unfold build_batch, build_packing, bind, build_batching in HBB. rewrite HG in HBB.
    unfold val_epochs. fold cooked. fold encoded. destruct bsize as [size|].
    - rewrite Ef in HBB. destruct (@runs_batch V V nw size drop f _ w encoded Hw (HB _ eq_refl) Hf R2) as (gss & G & R3).
      assert (LG : length gss = length encoded) by (clear - G; induction G; cbn; congruence).
      destruct (m_base (te_encode_batch e)) eqn:EB; injection HBB as <-.
      + eexists. split; [exists gss; split; [exact G|]; cbn zeta; reflexivity|]. rewrite Ef. cbn [b_ds]. rewrite each_epoch_length. split; [exact R3|lia].
      + eexists. split; [exists gss; split; [exact G|]; cbn zeta; reflexivity|]. rewrite Ef. rewrite !each_epoch_length. split; [|lia].
        apply runs_map_of; auto.
    - destruct (_ && _); [|discriminate]. injection HBB as <-. exists encoded. auto.
  Qed.

  (** val_epochs determines the output epochs *)
  Lemma val_epochs_det (e : @encoder V K) bsize drop w ins o1 o2 : (forall n, bsize = Some n -> 0 < n) ->
    val_epochs crude e bsize drop w ins o1 -> val_epochs crude e bsize drop w ins o2 -> o1 = o2.
  Proof.
    intros HB. unfold val_epochs. destruct bsize as [size|]; [|congruence]. cbn zeta.
    intros (g1 & G1 & ->) (g2 & G2 & ->). rewrite (@groups_unique2 _ size drop _ (HB _ eq_refl) _ _ G1 G2). reflexivity.
  Qed.

  Lemma build_val_inv e srcs bsize drop packing limit log b :
    build_val keq crude nw e srcs bsize drop packing limit log = Ok b ->
    exists b0 b1,
      (match srcs with
       | [] => False
       | [s] => b0 = s_build s 0%Z
       | _ => b0 = mkBuilt (concat_ds (length srcs) (nth_built (map (fun s => s_build s 0%Z) srcs))) (forallb b_can (map (fun s => s_build s 0%Z) srcs))
       end) /\
      build_batch keq nw e bsize drop packing (build_encode nw e (build_cook crude nw e b0)) = Ok b1 /\
      b = add_log nw log (match limit with Some n => if 0 <? n then mkBuilt (wrap (limit_ds nw n) (b_ds b1)) (b_can b1) else b1 | None => b1 end).
  Proof.
    unfold build_val. destruct (negb _); [discriminate|]. intros H.
    destruct srcs as [|s [|s2 srcs]]; [discriminate| |]; cbn [bind] in H; rewrite ?map_length in H.
    - exists (s_build s 0%Z). destruct (build_batch _ _ _ _ _ _ _) as [b1|]; [|discriminate]. injection H as <-. exists b1. auto.
    - eexists. destruct (build_batch _ _ _ _ _ _ _) as [b1|] eqn:E in H; [|discriminate]. injection H as <-. exists b1. split; [reflexivity|]. split; [exact E|]. reflexivity.
  Qed.

  Lemma runs_sources (srcs : list (@source V)) b0 w m eps :
    (match srcs with
     | [] => False
     | [s] => b0 = s_build s 0%Z
     | _ => b0 = mkBuilt (concat_ds (length srcs) (nth_built (map (fun s => s_build s 0%Z) srcs))) (forallb b_can (map (fun s => s_build s 0%Z) srcs))
     end) ->
    Forall2 (fun s ep => runs w (b_ds (s_build s 0%Z)) ep /\ length ep = m) srcs eps ->
    runs w (b_ds b0) (joined_epochs m eps).
  Proof.
    intros H F. destruct srcs as [|s [|s2 srcs]]; [contradiction| |].
    - inversion F as [|? ep ? ? [R L] F']; subst. inversion F'; subst. rewrite joined_single. exact R.
    - subst b0. cbn [b_ds]. rewrite <- (map_length (fun s => s_build s 0%Z)). apply runs_concat.
      remember (s :: s2 :: srcs) as l. clear Heql. induction F; cbn [map]; constructor; auto.
  Qed.

  Lemma runs_add_log log (b : @built V) w eps : w < nw -> (runs w (b_ds (add_log nw log b)) eps <-> runs w (b_ds b) eps).
  Proof. intros Hw. unfold add_log. destruct log; [apply runs_log; exact Hw|reflexivity]. Qed.

  (** In every worker, the epochs of the validation dataset (any number [m] of them) are exactly those of the data of
      its datasets, one after the other, cooked, encoded, batched and batch-encoded, in order: nothing else comes
      out, nothing is lost or repeated.  (Without a limit, grouping or packing.) *)
  Theorem C48_val_epochs_partial (e : @encoder V K) srcs bsize drop limit log b w m eps outs :
    w < nw -> enc_ok e -> te_group e = None -> (forall n, bsize = Some n -> 0 < n) -> (limit = None \/ limit = Some 0) ->
    build_val keq crude nw e srcs bsize drop None limit log = Ok b ->
    Forall2 (fun s ep => runs w (b_ds (s_build s 0%Z)) ep /\ length ep = m) srcs eps -> length outs = m ->
    (runs w (b_ds b) outs <-> val_epochs crude e bsize drop w (joined_epochs m eps) outs).
  Proof.
    intros Hw HE HG HB HLim HV F HL. destruct (build_val_inv HV) as (b0 & b1 & H0 & H1 & ->).
    pose proof (runs_sources H0 F) as R0.
    destruct (runs_stages Hw HE HG HB H1 R0) as (o & VO & RO & LO).
    assert (LJ : length (joined_epochs m eps) = m) by (unfold joined_epochs; rewrite map_length, seq_length; reflexivity).
    rewrite runs_add_log by exact Hw. replace (match limit with Some n => _ | None => _ end) with b1 by (destruct HLim as [-> | ->]; reflexivity).
    split; intros H.
    - rewrite (runs_det H RO) by lia. exact VO.
    - rewrite (val_epochs_det HB H VO). exact RO.
  Qed.

  (** resetting *)
  Lemma map_of_resettable (f : ufn V V) st (b : @built V) : resettable (b_ds b) true nw -> resettable (b_ds (map_of nw f st b)) true nw.
  Proof. intros H. destruct f; cbn [map_of b_ds]; [apply map_resettable|apply mapgen_resettable]; exact H. Qed.

  Lemma stages_resettable (e : @encoder V K) bsize drop packing b b' : te_group e = None ->
    build_batch keq nw e bsize drop packing (build_encode nw e (build_cook crude nw e b)) = Ok b' ->
    resettable (b_ds b) true nw -> resettable (b_ds b') true nw.
  Proof.
    intros HG HBB HR.
    assert (R1 : resettable (b_ds (build_encode nw e (build_cook crude nw e b))) true nw).
    { unfold build_encode, build_cook. destruct (te_cookers e); destruct (m_base (te_encode e)); auto using map_of_resettable. }
    unfold build_batch in HBB. destruct (build_packing nw e packing _) as [b1|] eqn:EP; [|discriminate].
    assert (R2 : resettable (b_ds b1) true nw).
    { unfold build_packing in EP. destruct packing as [size|]; [|injection EP as <-; exact R1]. destruct (te_select e) as [pre|]; [|discriminate].
      destruct (te_pack e) as [[[f|f] st]|]; [| |discriminate]; injection EP as <-; cbn [b_ds]; [apply pack_resettable|apply packgen_resettable]; exact R1. }
    cbn [bind] in HBB. unfold build_batching in HBB. rewrite HG in HBB. destruct bsize as [size|].
    - assert (R3 : resettable (match m_fn (te_batch e) with
                       | Fn f => wrap (batch_ds nw size drop f) (b_ds b1)
                       | GenFn f => wrap (batchgen_ds nw size drop f) (b_ds b1)
                       end) true nw) by (destruct (m_fn (te_batch e)); [apply batch_resettable|apply batchgen_resettable]; exact R2).
      destruct (m_base (te_encode_batch e)); injection HBB as <-; [exact R3|apply map_of_resettable; exact R3].
    - destruct (_ && _); [|discriminate]. injection HBB as <-. exact R2.
  Qed.

  (** With a limit, every epoch is the same: the first batches of an epoch without the limit, as many as the worker's
      share of the limit. *)
  Theorem C48_val_limit_partial (e : @encoder V K) srcs bsize drop n log b w eps m :
    w < nw -> enc_ok e -> te_group e = None -> (forall n, bsize = Some n -> 0 < n) -> 0 < n ->
    build_val keq crude nw e srcs bsize drop None (Some n) log = Ok b ->
    Forall2 (fun s ep => runs w (b_ds (s_build s 0%Z)) [ep]) srcs eps ->
    Forall (fun s => resettable (b_ds (s_build s 0%Z)) true nw) srcs ->
    exists batches, val_epochs crude e bsize drop w [concat eps] [batches] /\
      runs w (b_ds b) (repeat (firstn (local_share nw n w) batches) m).
  Proof.
    intros Hw HE HG HB Hn HV F FR. destruct (build_val_inv HV) as (b0 & b1 & H0 & H1 & ->).
    assert (F' : Forall2 (fun s ep => runs w (b_ds (s_build s 0%Z)) ep /\ length ep = 1) srcs (map (fun x => [x]) eps)).
    { clear - F. induction F; cbn [map]; constructor; auto. }
    pose proof (runs_sources H0 F') as R0.
    assert (J : joined_epochs 1 (map (fun x => [x]) eps) = [concat eps]).
    { unfold joined_epochs. cbn [seq map]. f_equal. clear. induction eps; cbn [map flat_map concat nth]; congruence. }
    rewrite J in R0. destruct (runs_stages Hw HE HG HB H1 R0) as (o & VO & RO & LO).
    destruct o as [|bt [|]]; try discriminate. exists bt. split; [exact VO|].
    assert (RS : resettable (b_ds b0) true nw).
    { destruct srcs as [|s [|s2 srcs]]; [contradiction| |].
      - subst b0. inversion FR; assumption.
      - subst b0. cbn [b_ds]. apply concat_resettable. intros i Hi. remember (s :: s2 :: srcs) as l. clear - FR Hi. unfold nth_built.
        revert i Hi. induction FR as [|s l H FR IH]; intros i Hi; cbn in Hi; [lia|]. destruct i; cbn [map nth]; [exact H|]. apply IH. lia. }
    apply runs_add_log; [exact Hw|]. replace (0 <? n) with true by (symmetry; apply Nat.ltb_lt; exact Hn). cbn [b_ds].
    apply runs_limit; auto. eapply stages_resettable; eauto.
  Qed.
End Build.
Print Assumptions C48_val_epochs_partial.
Print Assumptions C48_val_limit_partial.

(** The datasets that validation pipelines start from (base_webdataset.py: no shuffling, no looping, one shard at a
    time) satisfy the premises of the two theorems: any number of epochs, each being all the worker's samples in order, and
    restore_state(None) brings them back to the beginning. *)
Lemma loader_epochs {X} R shards (content : shseq -> list (sample X)) rs w :
  rng_ok R -> proper_shards shards -> w < length shards ->
  forall m, emits w (fresh (loader_ds R shards content 1 NoShuffle false rs)) (concat (map epoch (repeat (flat_map content (nth w shards [])) m))).
Proof.
  intros OK HP W m. set (D := loader_ds R shards content 1 NoShuffle false rs).
  assert (DE : nth w shards [] = [] \/ nth w shards [] <> []) by (destruct (nth w shards []); [auto|right; discriminate]).
  destruct DE as [NE|NE].
  - rewrite NE. cbn [flat_map]. replace (concat (map epoch (repeat [] m))) with (repeat (@Done (sample X)) m)
      by (clear; induction m; cbn; [reflexivity|congruence]).
    apply C12_no_shards. exact NE.
  - assert (G : forall m (s : st D), @reach X D w true (length shards) s -> exists es, length es = m /\ emits w s (concat (map epoch es))).
    { clear m. induction m as [|m IH]; intros s Rs; [exists []; split; [reflexivity|constructor]|].
      destruct (@C12_epochs_complete X R shards content 1 NoShuffle rs true w s OK HP (le_n 1) W NE ltac:(discriminate) ltac:(reflexivity) Rs) as [xs E].
      assert (Q : exists s' : st D, @reach X D w true (length shards) s' /\ forall l, @emits X D w s' l -> @emits X D w s (epoch xs ++ l)).
      { clear IH. revert s Rs E. induction xs as [|x xs IHx]; intros s Rs E; cbn [map app] in E.
        - apply emits_done_inv in E. destruct E as (s' & N & _). exists (fst s', ds_iter D). split; [eapply r_done; eauto|].
          intros l El. cbn. eapply em_done; eauto.
        - apply emits_yield_inv in E. destruct E as (s' & N & E). destruct (IHx s' (r_yield Rs N) E) as (s2 & R2 & C).
          exists s2. split; [exact R2|]. intros l El. cbn. eapply em_yield; eauto. }
      destruct Q as (s' & R' & C). destruct (IH s' R') as (es & HL & Ee). exists (xs :: es). split; [cbn; auto|]. cbn [map concat]. apply C. exact Ee. }
    destruct (G m (fresh D) (r_init _ _ _ _)) as (es & HL & E).
    assert (HH : exists s', @history X D w (length shards) ([] ++ concat (map epoch es)) s').
    { eapply EndToEndProofs.emits_history; [apply h_init| |exact E].
      intros e C. apply in_concat in C. destruct C as (l & Il & C). apply in_map_iff in Il. destruct Il as (xs & <- & _).
      apply in_app_or in C. destruct C as [C|[C|[]]]; [|discriminate]. apply in_map_iff in C. destruct C as (? & ? & _). discriminate. }
    destruct HH as [s' H].
    cbn [app] in H. destruct (C12_in_order HP W NE H) as (es2 & part & xs & A & B & C). unfold epochs_seen in A. cbn iota in A.
    assert (es = es2 /\ part = []) as [-> ->].
    { clear - A. revert es2 A. induction es as [|x es IH]; intros es2 A.
      - destruct es2 as [|y es2]; [destruct part; [auto|discriminate]|]. cbn in A. destruct y; discriminate.
      - destruct es2 as [|y es2].
        + exfalso. cbn in A. clear IH. revert part A. unfold epoch. rewrite <- app_assoc. induction x as [|a x IHx]; intros [|p part] A; try discriminate.
          cbn in A. injection A as _ A. eapply IHx; eauto.
        + cbn [map concat] in A. unfold epoch in A at 1 3. rewrite <- !app_assoc in A. cbn [app] in A.
          assert (x = y /\ concat (map epoch es) = concat (map epoch es2) ++ map Yield part) as [-> A2].
          { clear IH. revert y A. induction x as [|a x IHx]; intros [|b y] A; cbn [map app] in A; try discriminate.
            - injection A as A. auto.
            - injection A as -> A. destruct (IHx _ A) as [-> ?]. auto. }
          destruct (IH _ A2) as [-> ->]. auto. }
    replace (repeat (flat_map content (nth w shards [])) m) with es2; [exact E|].
    clear - B HL. subst m. induction B as [|x l Hx B IH]; cbn; congruence.
Qed.

Theorem C48_val_web_source {X V} R shards (content : shseq -> list (sample X)) rs (load : nat -> nat -> X -> ures V) w m :
  rng_ok R -> proper_shards shards -> w < length shards -> (forall w i x, load w i x <> UFatal) ->
  let D := wrap (map_ds (length shards) load) (loader_ds R shards content 1 NoShuffle false rs) in
  runs w D (each_epoch (outputs (Fn load) w) 0 (repeat (map pl (flat_map content (nth w shards []))) m)) /\
  resettable D true (length shards).
Proof.
  intros OK HP W HF D. split.
  - apply runs_map; auto. exists (repeat (flat_map content (nth w shards [])) m). split; [apply loader_epochs; auto|].
    clear. induction m; cbn; congruence.
  - apply map_resettable. apply loader_resettable.
Qed.
Print Assumptions C48_val_web_source.

(** ** C48 saving and restoring the built datasets *)
Section Resume.
  Context {V K : Type} (keq : K -> K -> bool) (crude : V -> option (string * list (string * string))) (nw : nat).

  Lemma map_of_training (f : ufn V V) st (b : @built V) : steady f -> training nw (b_ds b) -> training nw (b_ds (map_of nw f st b)).
  Proof. intros HS H. destruct f; cbn [map_of b_ds]; [apply tr_map; exact H|apply tr_mapgen; [exact HS|exact H]]. Qed.

  Lemma stages_training (e : @encoder V K) bsize drop packing b b' : te_group e = None -> enc_steady e -> (forall n, packing = Some n -> 0 < n) ->
    build_batch keq nw e bsize drop packing (build_encode nw e (build_cook crude nw e b)) = Ok b' ->
    training nw (b_ds b) -> training nw (b_ds b').
  Proof.
    intros HG (S1 & S2 & (f & Ef & Hf) & Sp & Sk) HP HBB HR.
    assert (R1 : training nw (b_ds (build_encode nw e (build_cook crude nw e b)))).
    { unfold build_encode, build_cook. destruct (te_cookers e); destruct (m_base (te_encode e)); auto; repeat apply map_of_training; auto; exact I. }
    unfold build_batch in HBB. destruct (build_packing nw e packing _) as [b1|] eqn:EP; [|discriminate].
    assert (R2 : training nw (b_ds b1)).
    { unfold build_packing in EP. destruct packing as [size|]; [|injection EP as <-; exact R1]. destruct (te_select e) as [pre|]; [|discriminate].
      destruct (te_pack e) as [[p st]|]; [|discriminate]. destruct (Sk _ _ eq_refl) as [pf ->]. injection EP as <-. cbn [b_ds].
      apply tr_pack; auto. intros; eapply Sp; eauto. }
    cbn [bind] in HBB. unfold build_batching in HBB. rewrite HG, Ef in HBB. destruct bsize as [size|].
    - assert (R3 : training nw (wrap (batch_ds nw size drop f) (b_ds b1))) by (apply tr_batch; [exact Hf|exact R2]).
      destruct (m_base (te_encode_batch e)); injection HBB as <-; [exact R3|apply map_of_training; [exact S2|exact R3]].
    - destruct (_ && _); [|discriminate]. injection HBB as <-. exact R2.
  Qed.

  Lemma build_train_inv e RB RS world (srcs : list (@source V)) bsize drop packing vel shuffle log b :
    build_train keq crude nw e RB RS world srcs bsize drop packing vel shuffle log = Ok b ->
    exists b0 b1,
      (match srcs with
       | [] => False
       | [s] => b0 = s_build s 0%Z
       | _ => let offsets := worker_offsets 0 (map s_len srcs) (Z.of_nat (nw * world)) in
              let bs := map (fun so => s_build (fst so) (snd so)) (combine srcs offsets) in
              b0 = mkBuilt (blend_ds RB (length bs) (nth_built bs)
                                (fun i => nth i (map s_weight srcs) 0%Q)
                                (fun i w => match nth_error srcs i with Some s => s_has s w | None => false end))
                             (forallb b_can bs)
       end) /\
      build_batch keq nw e bsize drop packing (build_encode nw e (build_cook crude nw e
        (match shuffle with
             | Some n => if 1 <? n then mkBuilt (wrap (shuffle_buffer RS nw n) (b_ds b0)) (b_can b0) else b0
             | None => b0
             end))) = Ok b1 /\
      b = add_log nw log (if 0 <? vel then mkBuilt (wrap (epochize_ds nw vel) (b_ds b1)) (b_can b1) else b1).
  Proof.
    unfold build_train. destruct (negb _); [discriminate|]. intros H.
    destruct srcs as [|s [|s2 srcs]]; [discriminate| |]; cbn [bind] in H.
    - exists (s_build s 0%Z). destruct (build_batch _ _ _ _ _ _ _) as [b1|]; [|discriminate]. injection H as <-. exists b1. auto.
    - eexists. destruct (build_batch _ _ _ _ _ _ _) as [b1|] eqn:E in H; [|discriminate]. injection H as <-. exists b1. split; [reflexivity|]. split; [exact E|]. reflexivity.
  Qed.

  Lemma worker_offsets_length cum lens G : length (worker_offsets cum lens G) = length lens.
  Proof. revert cum. induction lens as [|n lens IH]; intros cum; cbn [worker_offsets length]; auto. Qed.

  (** The training dataset of any encoder whose functions are steady, on endless datasets that have samples for every
      worker, with any blending weights, shuffle buffer, packing and batch size: restoring the saved state in all
      workers continues exactly with the samples that would have come.  With virtual epochs the same holds, except that
      the end of an epoch that has just been completed is not reported again. *)
  Theorem C48_train_resumes_partial (e : @encoder V K) RB RS world srcs bsize drop packing vel shuffle log b :
    te_group e = None -> enc_steady e -> rng_ok RS -> (forall n, packing = Some n -> 0 < n) ->
    Forall (fun s => (forall off, training nw (b_ds (s_build s off))) /\ (forall w, w < nw -> s_has s w = true)) srcs ->
    build_train keq crude nw e RB RS world srcs bsize drop packing vel shuffle log = Ok b ->
    (vel = 0 -> resumable (b_ds b) true nw /\ endless (b_ds b) true nw) /\
    (0 < vel -> resumes_modulo_end (b_ds b) false nw).
  Proof.
    intros HG HE OK HP HS HB. destruct (build_train_inv HB) as (b0 & b1 & H0 & H1 & ->).
    assert (T0 : training nw (b_ds b0)).
    { destruct srcs as [|s [|s2 srcs]]; [contradiction| |].
      - subst b0. inversion HS as [|? ? [T _] _]; subst. apply T.
      - remember (s :: s2 :: srcs) as l eqn:El. cbn zeta in H0. clear El. subst b0. cbn [b_ds].
        set (offs := worker_offsets 0 (map s_len l) (Z.of_nat (nw * world))).
        assert (LO : length (combine l offs) = length l) by (rewrite combine_length; subst offs; rewrite worker_offsets_length, map_length; lia).
        assert (LM : length (map (fun so : source * Z => s_build (fst so) (snd so)) (combine l offs)) = length l) by (rewrite map_length; exact LO).
        rewrite Forall_forall in HS. apply tr_blend.
        + intros i w Hi Hw. rewrite LM in Hi. destruct (nth_error l i) as [si|] eqn:E; [|apply nth_error_None in E; lia].
          apply (HS si); [apply nth_error_In in E; exact E|exact Hw].
        + intros i Hi. rewrite LM in Hi. unfold nth_built.
          destruct (nth_error (combine l offs) i) as [[si off]|] eqn:E; [|apply nth_error_None in E; lia].
          pose proof (map_nth_error (fun so : source * Z => s_build (fst so) (snd so)) i _ E) as E2. rewrite (nth_error_nth _ _ _ E2). cbn [fst snd].
          apply (HS si). apply nth_error_In in E. apply in_combine_l in E. exact E. }
    assert (T1 : training nw (b_ds (match shuffle with
             | Some n => if 1 <? n then mkBuilt (wrap (shuffle_buffer RS nw n) (b_ds b0)) (b_can b0) else b0
             | None => b0
             end))).
    { destruct shuffle as [n|]; [|exact T0]. destruct (1 <? n); [|exact T0]. cbn [b_ds]. apply tr_shuffle; auto. }
    pose proof (stages_training HG HE HP H1 T1) as T2.
    split; intros Hv.
    - subst vel. cbn [Nat.ltb Nat.leb]. assert (T3 : training nw (b_ds (add_log nw log b1))).
      { unfold add_log. destruct log; [cbn [b_ds]; apply tr_log|]; exact T2. }
      split; apply C45_pipeline_resumes; exact T3.
    - replace (0 <? vel) with true by (symmetry; apply Nat.ltb_lt; exact Hv).
      assert (Q : resumes_modulo_end (wrap (epochize_ds nw vel) (b_ds b1)) false nw).
      { apply (@C26_epochize_resumes V nw vel (b_ds b1) true). apply C45_pipeline_resumes. exact T2. }
      unfold add_log. destruct log; cbn [b_ds]; [apply log_resumes_modulo_end|]; exact Q.
  Qed.

  (** restoring single samples *)
  Lemma restoring_restorable rst (D : dataset V) : restoring nw rst D -> restorable D rst nw.
  Proof. intros H w s s' a. apply (C15_pipeline_restores H). Qed.
  Lemma map_of_restoring rst (f : ufn V V) st (b : @built V) : restoring nw rst (b_ds b) -> restoring nw rst (b_ds (map_of nw f st b)).
  Proof. intros H. destruct f; cbn [map_of b_ds]; [apply re_map; exact H|apply re_mapgen; exact H]. Qed.

  Lemma stages_restoring rst (e : @encoder V K) bsize drop packing b b' : enc_steady e -> (forall n, packing = Some n -> 0 < n) ->
    build_batch keq nw e bsize drop packing (build_encode nw e (build_cook crude nw e b)) = Ok b' ->
    restoring nw rst (b_ds b) -> restoring nw rst (b_ds b').
  Proof.
    intros (S1 & S2 & (f & Ef & Hf) & Sp & Sk) HP HBB HR.
    assert (R1 : restoring nw rst (b_ds (build_encode nw e (build_cook crude nw e b)))).
    { unfold build_encode, build_cook. destruct (te_cookers e); destruct (m_base (te_encode e)); auto; repeat apply map_of_restoring; auto. }
    unfold build_batch in HBB. destruct (build_packing nw e packing _) as [b1|] eqn:EP; [|discriminate].
    assert (R2 : restoring nw rst (b_ds b1)).
    { unfold build_packing in EP. destruct packing as [size|]; [|injection EP as <-; exact R1]. destruct (te_select e) as [pre|]; [|discriminate].
      destruct (te_pack e) as [[p st]|]; [|discriminate]. destruct (Sk _ _ eq_refl) as [pf ->]. injection EP as <-. cbn [b_ds].
      apply re_pack; auto. intros; eapply Sp; eauto. }
    cbn [bind] in HBB. unfold build_batching in HBB. rewrite Ef in HBB. destruct (te_group e) as [kf|].
    - injection HBB as <-. cbn [b_ds]. apply re_group. exact R2.
    - destruct bsize as [size|].
      + assert (R3 : restoring nw rst (wrap (batch_ds nw size drop f) (b_ds b1))) by (apply re_batch; [exact Hf|exact R2]).
        destruct (m_base (te_encode_batch e)); injection HBB as <-; [exact R3|apply map_of_restoring; exact R3].
      + destruct (_ && _); [|discriminate]. injection HBB as <-. exact R2.
  Qed.

  Lemma sources_restoring rst (srcs : list (@source V)) b0 :
    (match srcs with
     | [] => False
     | [s] => b0 = s_build s 0%Z
     | _ => b0 = mkBuilt (concat_ds (length srcs) (nth_built (map (fun s => s_build s 0%Z) srcs))) (forallb b_can (map (fun s => s_build s 0%Z) srcs))
     end) -> Forall (fun s => restoring nw rst (b_ds (s_build s 0%Z))) srcs -> restoring nw rst (b_ds b0).
  Proof.
    intros H0 HS. destruct srcs as [|s [|s2 srcs]]; [contradiction| |].
    - subst b0. inversion HS; assumption.
    - remember (s :: s2 :: srcs) as l eqn:El. clear El. subst b0. cbn [b_ds]. apply re_concat. intros i Hi. unfold nth_built.
      destruct (nth_error l i) as [si|] eqn:E; [|apply nth_error_None in E; lia].
      pose proof (map_nth_error (fun s : source => s_build s 0%Z) i _ E) as E2. rewrite (nth_error_nth _ _ _ E2).
      rewrite Forall_forall in HS. apply HS. apply nth_error_In in E. exact E.
  Qed.

  (** Every sample (batch) that the validation dataset yields, in any reachable state, is brought back by
      restore_sample with its restore key.  (The user functions are deterministic here: see C47 for those that
      draw random numbers.) *)
  Theorem C48_val_restores_partial (e : @encoder V K) srcs bsize drop packing limit log b :
    enc_steady e -> (forall n, packing = Some n -> 0 < n) ->
    Forall (fun s => restoring nw true (b_ds (s_build s 0%Z))) srcs ->
    build_val keq crude nw e srcs bsize drop packing limit log = Ok b ->
    restorable (b_ds b) true nw.
  Proof.
    intros HE HP HS HB. destruct (build_val_inv HB) as (b0 & b1 & H0 & H1 & ->).
    pose proof (stages_restoring HE HP H1 (sources_restoring H0 HS)) as T1. apply restoring_restorable.
    assert (T2 : restoring nw true (b_ds (match limit with Some n => if 0 <? n then mkBuilt (wrap (limit_ds nw n) (b_ds b1)) (b_can b1) else b1 | None => b1 end))).
    { destruct limit as [n|]; [|exact T1]. destruct (0 <? n); [|exact T1]. cbn [b_ds]. apply re_limit. exact T1. }
    unfold add_log. destruct log; [cbn [b_ds]; apply re_log|]; exact T2.
  Qed.

  Theorem C48_train_restores_partial (e : @encoder V K) RB RS world srcs bsize drop packing vel shuffle log b :
    enc_steady e -> rng_ok RS -> (forall n, packing = Some n -> 0 < n) ->
    Forall (fun s => (forall off, restoring nw false (b_ds (s_build s off))) /\ (forall w, w < nw -> s_has s w = true)) srcs ->
    build_train keq crude nw e RB RS world srcs bsize drop packing vel shuffle log = Ok b ->
    restorable (b_ds b) false nw.
  Proof.
    intros HE OK HP HS HB. destruct (build_train_inv HB) as (b0 & b1 & H0 & H1 & ->).
    assert (T0 : restoring nw false (b_ds b0)).
    { destruct srcs as [|s [|s2 srcs]]; [contradiction| |].
      - subst b0. inversion HS as [|? ? [T _] _]; subst. apply T.
      - remember (s :: s2 :: srcs) as l eqn:El. cbn zeta in H0. clear El. subst b0. cbn [b_ds].
        set (offs := worker_offsets 0 (map s_len l) (Z.of_nat (nw * world))).
        assert (LO : length (combine l offs) = length l) by (rewrite combine_length; subst offs; rewrite worker_offsets_length, map_length; lia).
        assert (LM : length (map (fun so : source * Z => s_build (fst so) (snd so)) (combine l offs)) = length l) by (rewrite map_length; exact LO).
        rewrite Forall_forall in HS. apply re_blend.
        + intros i w Hi Hw. rewrite LM in Hi. destruct (nth_error l i) as [si|] eqn:E; [|apply nth_error_None in E; lia].
          apply (HS si); [apply nth_error_In in E; exact E|exact Hw].
        + intros i Hi. rewrite LM in Hi. unfold nth_built.
          destruct (nth_error (combine l offs) i) as [[si off]|] eqn:E; [|apply nth_error_None in E; lia].
          pose proof (map_nth_error (fun so : source * Z => s_build (fst so) (snd so)) i _ E) as E2. rewrite (nth_error_nth _ _ _ E2). cbn [fst snd].
          apply (HS si). apply nth_error_In in E. apply in_combine_l in E. exact E. }
    assert (T1 : restoring nw false (b_ds (match shuffle with
             | Some n => if 1 <? n then mkBuilt (wrap (shuffle_buffer RS nw n) (b_ds b0)) (b_can b0) else b0
             | None => b0
             end))).
    { destruct shuffle as [n|]; [|exact T0]. destruct (1 <? n); [|exact T0]. cbn [b_ds]. apply re_shuffle; auto. }
    pose proof (stages_restoring HE HP H1 T1) as T2. apply restoring_restorable.
    assert (T3 : restoring nw false (b_ds (if 0 <? vel then mkBuilt (wrap (epochize_ds nw vel) (b_ds b1)) (b_can b1) else b1))).
    { destruct (0 <? vel); [cbn [b_ds]; eapply re_epochize|]; exact T2. }
    unfold add_log. destruct log; [cbn [b_ds]; apply re_log|]; exact T3.
  Qed.

  (** can_restore_sample() *)
  Lemma stages_can (e : @encoder V K) bsize drop packing b b' : te_group e = None -> all_stateless e ->
    build_batch keq nw e bsize drop packing (build_encode nw e (build_cook crude nw e b)) = Ok b' -> b_can b = true -> b_can b' = true.
  Proof.
    intros HG (S1 & S2 & S3 & S4) HBB HR.
    assert (R1 : b_can (build_encode nw e (build_cook crude nw e b)) = true).
    { unfold build_encode, build_cook. destruct (te_cookers e); destruct (m_base (te_encode e)) eqn:E; cbn [map_of b_can]; rewrite ?HR, ?(S1 eq_refl); reflexivity. }
    unfold build_batch in HBB. destruct (build_packing nw e packing _) as [b1|] eqn:EP; [|discriminate].
    assert (R2 : b_can b1 = true).
    { unfold build_packing in EP. destruct packing as [size|]; [|injection EP as <-; exact R1]. destruct (te_select e) as [pre|]; [|discriminate].
      destruct (te_pack e) as [[p st]|]; [|discriminate]. injection EP as <-. cbn [b_can]. rewrite (S4 _ _ eq_refl), R1. reflexivity. }
    cbn [bind] in HBB. unfold build_batching in HBB. rewrite HG in HBB. destruct bsize as [size|].
    - destruct (m_base (te_encode_batch e)) eqn:E; injection HBB as <-; cbn [map_of b_can]; rewrite ?S2, ?(S3 eq_refl), ?R2; reflexivity.
    - destruct (_ && _); [|discriminate]. injection HBB as <-. exact R2.
  Qed.

  (** A dataset whose overridden methods are all marked stateless, on datasets that can restore their samples, says
      that it can -- unless samples are grouped. *)
  Theorem C48_can_restore_partial (e : @encoder V K) srcs bsize drop packing limit log b :
    te_group e = None -> all_stateless e -> Forall (fun s => b_can (s_build s 0%Z) = true) srcs ->
    build_val keq crude nw e srcs bsize drop packing limit log = Ok b -> b_can b = true.
  Proof.
    intros HG HA HS HB. destruct (build_val_inv HB) as (b0 & b1 & H0 & H1 & ->).
    assert (C0 : b_can b0 = true).
    { destruct srcs as [|s [|s2 srcs]]; [contradiction| |].
      - subst b0. inversion HS; assumption.
      - subst b0. remember (s :: s2 :: srcs) as l. cbn [b_can]. apply forallb_forall. intros x I. apply in_map_iff in I. destruct I as (y & <- & I).
        rewrite Forall_forall in HS. auto. }
    pose proof (stages_can HG HA H1 C0) as C1. unfold add_log. destruct log; cbn [b_can]; destruct limit as [n|]; try exact C1; destruct (0 <? n); exact C1.
  Qed.

  (** And it only says so if it is true: every source can restore its samples, samples are not grouped, and every method of
      the encoder that is used is marked stateless. *)
  Theorem C48_can_restore_honest (e : @encoder V K) srcs bsize drop packing limit log b :
    build_val keq crude nw e srcs bsize drop packing limit log = Ok b -> b_can b = true ->
    Forall (fun s => b_can (s_build s 0%Z) = true) srcs /\ te_group e = None /\
    (m_base (te_encode e) = false -> m_stateless (te_encode e) = true) /\
    (packing <> None -> exists p, te_pack e = Some (p, true)) /\
    (bsize <> None -> m_stateless (te_batch e) = true /\ (m_base (te_encode_batch e) = false -> m_stateless (te_encode_batch e) = true)).
  Proof.
    intros HB HC. destruct (build_val_inv HB) as (b0 & b1 & H0 & H1 & ->).
    assert (C1 : b_can b1 = true) by (revert HC; unfold add_log; destruct log; cbn [b_can]; destruct limit as [n|]; auto; destruct (0 <? n); auto).
    unfold build_batch in H1. destruct (build_packing nw e packing _) as [bp|] eqn:EP; [|discriminate]. cbn [bind] in H1. unfold build_batching in H1.
    destruct (te_group e) as [kf|] eqn:HG; [destruct (m_fn (te_batch e)); [|discriminate]; injection H1 as <-; discriminate|].
    assert (C2 : b_can bp = true /\ (bsize <> None -> m_stateless (te_batch e) = true /\ (m_base (te_encode_batch e) = false -> m_stateless (te_encode_batch e) = true))).
    { destruct bsize as [size|].
      - destruct (m_base (te_encode_batch e)); injection H1 as <-; cbn [map_of b_can] in C1; rewrite ?andb_true_iff in C1; split; try tauto; intros _; split; try tauto; discriminate.
      - destruct (_ && _); [|discriminate]. injection H1 as <-. split; [exact C1|congruence]. }
    destruct C2 as [C2 S2].
    assert (C3 : b_can (build_encode nw e (build_cook crude nw e b0)) = true /\ (packing <> None -> exists p, te_pack e = Some (p, true))).
    { unfold build_packing in EP. destruct packing as [size|]; [|injection EP as <-; split; [exact C2|congruence]]. destruct (te_select e); [|discriminate]. destruct (te_pack e) as [[p st]|]; [|discriminate].
      injection EP as <-. cbn [b_can] in C2. apply andb_true_iff in C2. destruct C2 as [-> C2]. split; [exact C2|eauto]. }
    destruct C3 as [C3 S3].
    assert (C4 : b_can b0 = true /\ (m_base (te_encode e) = false -> m_stateless (te_encode e) = true)).
    { unfold build_encode, build_cook in C3. destruct (te_cookers e); destruct (m_base (te_encode e)); cbn [map_of b_can] in C3; rewrite ?andb_true_iff in C3; split; try tauto; try discriminate. }
    destruct C4 as [C4 S4]. split; [|tauto].
    destruct srcs as [|s [|s2 srcs]]; [constructor| |].
    - subst b0. constructor; [exact C4|constructor].
    - subst b0. remember (s :: s2 :: srcs) as l. cbn [b_can] in C4. rewrite forallb_forall in C4. apply Forall_forall. intros x I. apply C4. apply (in_map (fun s => s_build s 0%Z)) in I. exact I.
  Qed.

  (** With grouping it never does, however the methods are marked: build_batch does not pass batcher_stateless on to
      GroupBatchDataset. *)
  Theorem C48_can_restore_group_refuted (e : @encoder V K) kf srcs bsize drop packing limit log b :
    te_group e = Some kf -> build_val keq crude nw e srcs bsize drop packing limit log = Ok b -> b_can b = false.
  Proof.
    intros HG HB. destruct (build_val_inv HB) as (b0 & b1 & _ & H1 & ->).
    assert (C1 : b_can b1 = false).
    { unfold build_batch in H1. destruct (build_packing _ _ _ _) as [bp|]; [|discriminate]. cbn [bind] in H1. unfold build_batching in H1. rewrite HG in H1.
      destruct (m_fn (te_batch e)); [|discriminate]. injection H1 as <-. reflexivity. }
    unfold add_log. destruct log; cbn [b_can]; destruct limit as [n|]; try exact C1; destruct (0 <? n); exact C1.
  Qed.

  (** An encoder that overrides batch or encode_batch (DefaultTaskEncoder does) cannot be used without a batch size *)
  Theorem C48_unbatched_refuted (e : @encoder V K) srcs drop limit log :
    te_group e = None -> m_base (te_batch e) = false \/ m_base (te_encode_batch e) = false ->
    srcs <> [] -> check_crude e srcs = true ->
    build_val keq crude nw e srcs None drop None limit log = Err AssertionError.
  Proof.
    intros HG HM HS HC. unfold build_val. rewrite HC. cbn [negb]. destruct srcs as [|s [|s2 srcs]]; [contradiction| |]; cbn [bind];
      unfold build_batch, build_packing; cbn [bind]; unfold build_batching; rewrite HG; destruct HM as [-> | ->]; rewrite ?andb_false_r; reflexivity.
  Qed.
End Resume.
Print Assumptions C48_train_resumes_partial.
Print Assumptions C48_val_restores_partial.
Print Assumptions C48_train_restores_partial.
Print Assumptions C48_can_restore_partial.
Print Assumptions C48_can_restore_group_refuted.
Print Assumptions C48_can_restore_honest.
Print Assumptions C48_unbatched_refuted.

(** ** Examples *)
Definition no_crude (_ : list nat) : option (string * list (string * string)) := None.
Definition list_source (l : list (list nat)) : @source (list nat) :=
  mkSource false (Z.of_nat (List.length l)) (fun _ => mkBuilt (list_ds l) true) 1%Q (fun _ => true).
(** encoding adds 100 and skips 3; a batch is the concatenation, led by its number *)
Definition ex_enc (grp : option (nat -> nat -> list nat -> ures (nat * option nat))) : @encoder (list nat) nat :=
  mkEnc [] (mkMethod (Fn (fun _ _ x => match x with [3] => USkip | _ => UOk (map (Nat.add 100) x) end)) true false)
    (mkMethod (Fn (fun _ i l => UOk (i :: concat l))) true false) (mkMethod (Fn (fun _ _ x => UOk x)) true true) grp None None.
Definition events {X} (l : list (event (sample X))) : list (option X) := map (fun e => match e with Yield a => Some (pl a) | _ => None end) l.
Definition run_of (r : result (@built (list nat))) (k : nat) : list (option (list nat)) :=
  match r with Ok b => events (runk 0 50 k (fresh (b_ds b))) | Err _ => [] end.

Example C48_nonvacuous :
  run_of (build_val Nat.eqb no_crude 1 (ex_enc None) [list_source [[1]; [2]; [3]]; list_source [[4]; [5]; [6]]] (Some 2) false None None true) 8 =
    [Some [0; 101; 102]; Some [1; 104; 105]; Some [2; 106]; None; Some [3; 101; 102]; Some [4; 104; 105]; Some [5; 106]; None] /\
  run_of (build_val Nat.eqb no_crude 1 (ex_enc None) [list_source [[1]; [2]; [3]]; list_source [[4]; [5]; [6]]] (Some 2) false None (Some 2) true) 6 =
    [Some [0; 101; 102]; Some [1; 104; 105]; None; Some [0; 101; 102]; Some [1; 104; 105]; None] /\
  enc_ok (ex_enc None) /\ enc_steady (ex_enc None) /\ all_stateless (ex_enc None).
Proof.
  split; [reflexivity|]. split; [reflexivity|]. split; [|split].
  - split; [intros c w i x []|]. split; [intros w i x; cbn; destruct x as [|[|[|[|[|?]]]] [|]]; discriminate|]. split; [intros w i x; discriminate|].
    eexists. split; [reflexivity|]. intros w i x. discriminate.
  - split; [exact I|]. split; [exact I|]. split; [eexists; split; [reflexivity|]; intros w i l; eexists; reflexivity|]. split; intros; discriminate.
  - repeat split; intros; discriminate.
Qed.

(** With grouping, the epochs of a limited validation dataset are not the same: GroupBatchDataset does not reset the
    index that the batch function sees. *)
Theorem C48_group_limit_refuted : exists b ep1 ep2,
  build_val Nat.eqb no_crude 1 (ex_enc (Some (fun _ _ x => UOk (hd 0 x mod 2, Some 2))))
    [list_source [[1]; [2]; [3]; [4]; [5]; [6]]] None false None (Some 2) false = Ok b /\
  runs 0 (b_ds b) [ep1; ep2] /\ ep1 <> ep2.
Proof.
  eexists _, [[0; 102; 104]; [1; 101; 105]], [[3; 102; 104]; [4; 101; 105]]. split; [reflexivity|]. split; [|discriminate].
  eexists [[mkS _ _; mkS _ _]; [mkS _ _; mkS _ _]]. split; [|reflexivity]. cbn [map concat epoch app b_ds].
  refine (eq_rect _ (emits 0 _) (runk_emits 0 50 6 (fresh _)) _ _). vm_compute. reflexivity.
Qed.
Print Assumptions C48_group_limit_refuted.

(** the training theorems apply, for instance, to an encoder on two copies of the prepared files of P_Pipeline.v *)
Definition pf_load (w i : nat) (row : list (group nat)) : ures (list nat) :=
  UOk (concat (map (fun g => match g with Some r => map snd (rs_parts r) | None => [] end) row)).
Definition pf_source (loop : bool) : @source (list nat) :=
  mkSource false 3 (fun _ => mkBuilt (wrap (map_ds 2 pf_load) (web_ds pf_files (fun _ => true) lcg (pf_shs 0) 1 (Over 1) loop)) true) 1%Q (fun _ => true).
Example C48_train_nonvacuous : exists b,
  build_train Nat.eqb no_crude 2 (ex_enc None) lcg lcg 1 [pf_source true; pf_source true] (Some 2) false None 5 (Some 3) true = Ok b /\
  events (runk 0 200 6 (fresh (b_ds b))) = 
    [Some [0; 101; 102; 105; 103; 106]; Some [1; 103; 106; 101; 102; 105]; Some [2; 103; 106; 101; 102; 105]; None;
     Some [3; 101; 102; 105; 101; 102; 105]; Some [4; 103; 106; 101; 102; 105]] /\
  Forall (fun s => (forall off, training 2 (b_ds (s_build s off))) /\ (forall w, w < 2 -> s_has s w = true)) [pf_source true; pf_source true] /\
  Forall (fun s => restoring 2 true (b_ds (s_build s 0%Z))) [pf_source false].
Proof.
  eexists. split; [reflexivity|]. split; [vm_compute; reflexivity|].
  destruct (@C15_sharder_web_ok nat pf_files pf_shards 1 2 None 0 pf_shs pf_prepared) with (r := 0) as [HW HL]; auto; [reflexivity|exact pf_sharded|].
  assert (T : forall off, training 2 (b_ds (s_build (pf_source true) off))).
  { intros off. cbn [pf_source s_build b_ds]. apply tr_map; apply tr_web; auto using lcg_ok, pf_nonempty; discriminate. }
  split; [apply Forall_cons; [auto|]; apply Forall_cons; [auto|apply Forall_nil]|].
  apply Forall_cons; [|apply Forall_nil]. cbn [pf_source s_build b_ds]. apply re_map. apply re_web; auto.
Qed.
