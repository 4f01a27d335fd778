(** C48: validation datasets with packing, grouping, generator functions. *)
From Coq Require Import String QArith.
From Verif Require Import Base Dataset DatasetProofs Wrap WrapProofs WrapSpec WrapLib SourceProofs Rng RngProofs Sharder Wrappers MapModel Batch BatchSpec
  GroupBatch GroupBatchSpec Packing PackingSpec ShuffleBuffer Blend BlendSpec Concat ConcatProofs TaskEncoder TaskEncoderSpec ValSpec TaskEncoderProofs ValProofs
  ResetProofs LogProofs P_Wrappers P_Batch P_Blend P_GroupBatch P_TaskEncoder.
Local Close Scope Q_scope.
Local Close Scope Z_scope.
Local Open Scope string_scope.
Local Open Scope list_scope.
Local Open Scope nat_scope.

Section Val.
  Context {V K : Type} (keq : K -> K -> bool) (crude : V -> option (string * list (string * string))) (nw : nat).

  Lemma cook_sound (e : @encoder V K) : enc_sound e -> no_failure (Fn (cook_crude_sample crude (te_cookers e))).
  Proof.
    intros (HC & _) w i x. pose proof (C49_first_match crude (te_cookers e) w i x) as M. destruct (crude x) as [[sub subs]|]; [|congruence].
    destruct M as [(b & c & a & E & _ & _ & ->)|[_ ->]]; [|discriminate]. apply HC. rewrite E. apply in_or_app. right. left. reflexivity.
  Qed.

  Lemma runs_encoded (e : @encoder V K) b w eps : w < nw -> enc_sound e -> runs w (b_ds b) eps ->
    runs w (b_ds (build_encode nw e (build_cook crude nw e b))) (cooked_then_encoded crude e w eps) /\
    length (cooked_then_encoded crude e w eps) = length eps.
  Proof.
    intros Hw HE HR. unfold cooked_then_encoded.
    set (cooked := match te_cookers e with [] => eps | cs => each_epoch (outputs (Fn (cook_crude_sample crude cs)) w) 0 eps end).
    assert (R1 : runs w (b_ds (build_cook crude nw e b)) cooked /\ length cooked = length eps).
    { subst cooked. pose proof (cook_sound HE) as HN. unfold build_cook. destruct (te_cookers e) as [|c cs]; [auto|].
      split; [apply runs_map_of; auto|apply each_epoch_length]. }
    destruct R1 as [R1 L1]. cbv zeta. unfold build_encode. destruct (m_base (te_encode e)); [auto|]. rewrite each_epoch_length. split; [|auto]. apply runs_map_of; auto. apply HE.
  Qed.

  Lemma runs_packing_stage (e : @encoder V K) pre0 packing b b1 w ins :
    w < nw -> enc_sound e -> (forall n, packing = Some n -> 0 < n) -> (forall pre, te_select e = Some pre -> selects_contents pre pre0) ->
    (forall size bufs, packing = Some size -> Forall2 (groups size false) ins bufs -> never_dry pre0 w size bufs) ->
    build_packing nw e packing b = Ok b1 -> runs w (b_ds b) ins ->
    exists packed, packing_stage e pre0 packing w ins packed /\ runs w (b_ds b1) packed /\ length packed = length ins.
  Proof.
    intros Hw HE HP HS HD HB HR. destruct HE as (_ & _ & _ & _ & HPre & HPack). unfold build_packing in HB. unfold packing_stage. destruct packing as [size|].
    - destruct (te_select e) as [pre|] eqn:ES; [|discriminate]. destruct (te_pack e) as [[f st]|] eqn:EP; [|discriminate]. injection HB as <-. cbn [b_ds].
      destruct (@runs_packing V V nw size pre pre0 f (b_ds b) w ins Hw (HP _ eq_refl) (HS _ eq_refl) (fun i l => HPre pre w i l eq_refl) (HPack f st eq_refl) (fun bufs => HD size bufs eq_refl) HR)
        as (bufs & F & R). eexists. split; [exists f, st; split; [reflexivity|]; exists bufs; split; [exact F|reflexivity]|].
      split; [exact R|]. rewrite !each_epoch_length. clear - F. induction F; cbn; congruence.
    - injection HB as <-. exists ins. auto.
  Qed.

  Lemma packing_stage_det (e : @encoder V K) pre0 packing w ins o1 o2 : (forall n, packing = Some n -> 0 < n) ->
    packing_stage e pre0 packing w ins o1 -> packing_stage e pre0 packing w ins o2 -> o1 = o2.
  Proof.
    intros HP. unfold packing_stage. destruct packing as [size|]; [|congruence].
    intros (f1 & s1 & E1 & g1 & G1 & ->) (f2 & s2 & E2 & g2 & G2 & ->). rewrite E1 in E2. injection E2 as <- <-.
    rewrite (@groups_unique2 _ size false _ (HP _ eq_refl) _ _ G1 G2). reflexivity.
  Qed.
  Lemma val_pipeline_det (e : @encoder V K) pre0 bsize drop packing w ins o1 o2 : (forall n, bsize = Some n -> 0 < n) -> (forall n, packing = Some n -> 0 < n) ->
    val_pipeline crude e pre0 bsize drop packing w ins o1 -> val_pipeline crude e pre0 bsize drop packing w ins o2 -> o1 = o2.
  Proof.
    intros HB HP (p1 & P1 & B1) (p2 & P2 & B2). rewrite (packing_stage_det HP P1 P2) in B1. destruct bsize as [size|]; [|congruence].
    destruct B1 as (g1 & G1 & ->), B2 as (g2 & G2 & ->). rewrite (@groups_unique2 _ size drop _ (HB _ eq_refl) _ _ G1 G2). reflexivity.
  Qed.

  Lemma grouped_epochs_det cls size drop ins : forall i k1 k2, grouped_epochs (V := V) keq cls size drop i ins k1 -> grouped_epochs keq cls size drop i ins k2 -> k1 = k2.
  Proof.
    induction ins as [|x ins IH]; intros i [|g1 k1] [|g2 k2] H1 H2; cbn [grouped_epochs] in *; try contradiction; [reflexivity|].
    destruct H1 as (_ & -> & H1), H2 as (_ & -> & H2). f_equal. eapply IH; eauto.
  Qed.
  Lemma val_grouped_det (e : @encoder V K) pre0 packing cls size drop w ins o1 o2 : (forall n, packing = Some n -> 0 < n) ->
    val_grouped crude keq e pre0 packing cls size drop w ins o1 -> val_grouped crude keq e pre0 packing cls size drop w ins o2 -> o1 = o2.
  Proof.
    intros HP (p1 & g1 & P1 & G1 & ->) (p2 & g2 & P2 & G2 & ->). rewrite (packing_stage_det HP P1 P2) in G1. rewrite (grouped_epochs_det G1 G2). reflexivity.
  Qed.

  Lemma runs_pipeline (e : @encoder V K) pre0 bsize drop packing b b' w eps :
    w < nw -> enc_sound e -> te_group e = None -> (forall n, bsize = Some n -> 0 < n) -> (forall n, packing = Some n -> 0 < n) ->
    (forall pre, te_select e = Some pre -> selects_contents pre pre0) -> packing_goes_on crude e pre0 packing w eps ->
    build_batch keq nw e bsize drop packing (build_encode nw e (build_cook crude nw e b)) = Ok b' ->
    runs w (b_ds b) eps ->
    exists outs, val_pipeline crude e pre0 bsize drop packing w eps outs /\ runs w (b_ds b') outs /\ length outs = length eps.
  Proof.
    intros Hw HE HG HB HP HS HD HBB HR. destruct (runs_encoded Hw HE HR) as [R1 L1].
    unfold build_batch in HBB. destruct (build_packing nw e packing _) as [b1|] eqn:EP; [|discriminate].
    destruct (@runs_packing_stage e pre0 packing _ b1 w _ Hw HE HP HS HD EP R1) as (packed & PS & R2 & L2).
    destruct HE as (HC & HEn & HBt & HEb & _ & _). cbn [bind] in HBB. unfold build_batching in HBB. rewrite HG in HBB. unfold val_pipeline. destruct bsize as [size|].
    - assert (R3 : exists gss, Forall2 (groups size drop) packed gss /\
        runs w (match m_fn (te_batch e) with Fn f => wrap (batch_ds nw size drop f) (b_ds b1) | GenFn f => wrap (batchgen_ds nw size drop f) (b_ds b1) end)
          (each_epoch (outputs (m_fn (te_batch e)) w) 0 gss)).
      { destruct (m_fn (te_batch e)) as [f|f]; [apply runs_batch|apply runs_batchgen]; auto. }
      destruct R3 as (gss & G & R3). assert (LG : length gss = length packed) by (clear - G; induction G; cbn; congruence).
      destruct (m_base (te_encode_batch e)) eqn:EB; injection HBB as <-.
      + eexists. split; [exists packed; split; [exact PS|]; exists gss; split; [exact G|]; rewrite EB; reflexivity|]. cbn [b_ds]. rewrite each_epoch_length. split; [exact R3|lia].
      + eexists. split; [exists packed; split; [exact PS|]; exists gss; split; [exact G|]; rewrite EB; reflexivity|]. rewrite !each_epoch_length. split; [|lia].
        apply runs_map_of; auto.
    - destruct (_ && _); [|discriminate]. injection HBB as <-. exists packed. split; [exists packed; auto|]. split; [exact R2|lia].
  Qed.

  Lemma runs_grouped (e : @encoder V K) pre0 bsize drop packing b b' w eps kf cls size :
    w < nw -> enc_sound e -> te_group e = Some kf -> (forall a b, keq a b = true <-> a = b) -> groups_by bsize (kf w) cls size -> (forall k, 0 < size k) ->
    (forall n, packing = Some n -> 0 < n) ->
    (forall pre, te_select e = Some pre -> selects_contents pre pre0) -> packing_goes_on crude e pre0 packing w eps ->
    build_batch keq nw e bsize drop packing (build_encode nw e (build_cook crude nw e b)) = Ok b' ->
    runs w (b_ds b) eps ->
    exists outs, val_grouped crude keq e pre0 packing cls size drop w eps outs /\ runs w (b_ds b') outs /\ length outs = length eps.
  Proof.
    intros Hw HE HG Hk HGB HSz HP HS HD HBB HR. destruct (runs_encoded Hw HE HR) as [R1 L1].
    unfold build_batch in HBB. destruct (build_packing nw e packing _) as [b1|] eqn:EP; [|discriminate].
    destruct (@runs_packing_stage e pre0 packing _ b1 w _ Hw HE HP HS HD EP R1) as (packed & PS & R2 & L2).
    destruct HE as (HC & HEn & HBt & HEb & _ & _). cbn [bind] in HBB. unfold build_batching in HBB. rewrite HG in HBB.
    destruct (m_fn (te_batch e)) as [f|f] eqn:EF; [|discriminate]. injection HBB as <-. cbn [b_ds].
    destruct (@runs_group V V K keq nw bsize drop kf f (b_ds b1) w cls size packed Hw Hk HGB HSz HBt R2) as (kgss & GE & R3).
    eexists. split; [exists packed, kgss; split; [exact PS|]; split; [exact GE|]; rewrite EF; reflexivity|]. split; [exact R3|].
    rewrite each_epoch_length, map_length. clear - GE L2 L1. rewrite <- L1, <- L2. clear L1 L2. revert GE. generalize 0. revert kgss.
    induction packed as [|x packed IH]; intros [|y kgss] i GE; cbn in *; try contradiction; auto. f_equal. eapply IH. apply GE.
  Qed.

  (** In every worker, the epochs of the validation dataset are exactly those of the data of its datasets, one after the
      other, cooked, encoded, packed, batched and batch-encoded, in order; any function may be a generator. *)
  Theorem C48_val_epochs (e : @encoder V K) pre0 srcs bsize drop packing limit log b w m eps outs :
    w < nw -> enc_sound e -> te_group e = None -> (forall n, bsize = Some n -> 0 < n) -> (forall n, packing = Some n -> 0 < n) ->
    (limit = None \/ limit = Some 0) ->
    (forall pre, te_select e = Some pre -> selects_contents pre pre0) -> packing_goes_on crude e pre0 packing w (joined_epochs m eps) ->
    build_val keq crude nw e srcs bsize drop packing limit log = Ok b ->
    Forall2 (fun s ep => runs w (b_ds (s_build s 0%Z)) ep /\ length ep = m) srcs eps -> length outs = m ->
    (runs w (b_ds b) outs <-> val_pipeline crude e pre0 bsize drop packing w (joined_epochs m eps) outs).
  Proof.
    intros Hw HE HG HB HP HLim HS HD HV F HL. destruct (build_val_inv HV) as (b0 & b1 & H0 & H1 & ->).
    pose proof (runs_sources H0 F) as R0.
    destruct (runs_pipeline Hw HE HG HB HP HS HD H1 R0) as (o & VO & RO & LO).
    assert (LJ : length (joined_epochs m eps) = m) by (unfold joined_epochs; rewrite map_length, seq_length; reflexivity).
    rewrite runs_add_log by exact Hw. replace (match limit with Some n => _ | None => _ end) with b1 by (destruct HLim as [-> | ->]; reflexivity).
    split; intros H.
    - rewrite (runs_det H RO) by lia. exact VO.
    - rewrite (val_pipeline_det HB HP H VO). exact RO.
  Qed.

  (** ... with batch_group_criterion: for every group key, the samples with this key are batched in order, and the batches
      come out in the order in which they are completed, the incomplete ones at the end ([grouped_epochs]) *)
  Theorem C48_val_grouped (e : @encoder V K) pre0 srcs bsize drop packing limit log b w m eps kf cls size :
    w < nw -> enc_sound e -> te_group e = Some kf -> (forall a b, keq a b = true <-> a = b) -> groups_by bsize (kf w) cls size -> (forall k, 0 < size k) ->
    (forall n, packing = Some n -> 0 < n) -> (limit = None \/ limit = Some 0) ->
    (forall pre, te_select e = Some pre -> selects_contents pre pre0) -> packing_goes_on crude e pre0 packing w (joined_epochs m eps) ->
    build_val keq crude nw e srcs bsize drop packing limit log = Ok b ->
    Forall2 (fun s ep => runs w (b_ds (s_build s 0%Z)) ep /\ length ep = m) srcs eps ->
    (exists outs, length outs = m /\ runs w (b_ds b) outs) /\
    forall outs, length outs = m -> runs w (b_ds b) outs <-> val_grouped crude keq e pre0 packing cls size drop w (joined_epochs m eps) outs.
  Proof.
    intros Hw HE HG Hk HGB HSz HP HLim HS HD HV F. destruct (build_val_inv HV) as (b0 & b1 & H0 & H1 & ->).
    pose proof (runs_sources H0 F) as R0.
    destruct (runs_grouped Hw HE HG Hk HGB HSz HP HS HD H1 R0) as (o & VO & RO & LO).
    assert (LJ : length (joined_epochs m eps) = m) by (unfold joined_epochs; rewrite map_length, seq_length; reflexivity).
    replace (match limit with Some n => _ | None => _ end) with b1 by (destruct HLim as [-> | ->]; reflexivity).
    split; [exists o; split; [lia|]; apply runs_add_log; auto|]. intros outs HL. split; intros HR.
    - apply runs_add_log in HR; [|exact Hw]. rewrite (runs_det HR RO) by lia. exact VO.
    - apply runs_add_log; [exact Hw|]. rewrite (val_grouped_det HP HR VO). exact RO.
  Qed.

  (** With a limit (and no grouping, see C48_group_limit_refuted), every epoch is the same: the first batches of an epoch
      without the limit, as many as the worker's share of the limit. *)
  Theorem C48_val_limit (e : @encoder V K) pre0 srcs bsize drop packing n log b w eps m :
    w < nw -> enc_sound e -> te_group e = None -> (forall n, bsize = Some n -> 0 < n) -> (forall n, packing = Some n -> 0 < n) -> 0 < n ->
    (forall pre, te_select e = Some pre -> selects_contents pre pre0) -> packing_goes_on crude e pre0 packing w [concat eps] ->
    build_val keq crude nw e srcs bsize drop packing (Some n) log = Ok b ->
    Forall2 (fun s ep => runs w (b_ds (s_build s 0%Z)) [ep]) srcs eps ->
    Forall (fun s => resettable (b_ds (s_build s 0%Z)) true nw) srcs ->
    exists batches, val_pipeline crude e pre0 bsize drop packing w [concat eps] [batches] /\
      runs w (b_ds b) (repeat (firstn (local_share nw n w) batches) m).
  Proof.
    intros Hw HE HG HB HP Hn HS HD HV F FR. destruct (build_val_inv HV) as (b0 & b1 & H0 & H1 & ->).
    assert (F' : Forall2 (fun s ep => runs w (b_ds (s_build s 0%Z)) ep /\ length ep = 1) srcs (map (fun x => [x]) eps)).
    { clear - F. induction F; cbn [map]; constructor; auto. }
    pose proof (runs_sources H0 F') as R0.
    assert (J : joined_epochs 1 (map (fun x => [x]) eps) = [concat eps]).
    { unfold joined_epochs. cbn [seq map]. f_equal. clear. induction eps; cbn [map flat_map concat nth]; congruence. }
    rewrite J in R0. destruct (runs_pipeline Hw HE HG HB HP HS HD H1 R0) as (o & VO & RO & LO).
    destruct o as [|bt [|]]; try discriminate. exists bt. split; [exact VO|].
    assert (RS : resettable (b_ds b0) true nw).
    { destruct srcs as [|s [|s2 srcs]]; [contradiction| |].
      - subst b0. inversion FR; assumption.
      - subst b0. cbn [b_ds]. apply concat_resettable. intros i Hi. remember (s :: s2 :: srcs) as l. clear - FR Hi. unfold nth_built.
        revert i Hi. induction FR as [|s l H FR IH]; intros i Hi; cbn in Hi; [lia|]. destruct i; cbn [map nth]; [exact H|]. apply IH. lia. }
    apply runs_add_log; [exact Hw|]. replace (0 <? n) with true by (symmetry; apply Nat.ltb_lt; exact Hn). cbn [b_ds].
    apply runs_limit; auto. eapply stages_resettable; eauto.
  Qed.

  (** FINDING: with batch_group_criterion overridden, encode_batch is silently not called: the dataset built does not
      depend on it *)
  Theorem C48_group_encode_batch_refuted (e : @encoder V K) other srcs bsize drop packing limit log kf :
    te_group e = Some kf ->
    build_val keq crude nw (mkEnc (te_cookers e) (te_encode e) (te_batch e) other (te_group e) (te_select e) (te_pack e)) srcs bsize drop packing limit log =
    build_val keq crude nw e srcs bsize drop packing limit log.
  Proof.
    intros HG. assert (E : forall b, build_batch keq nw (mkEnc (te_cookers e) (te_encode e) (te_batch e) other (te_group e) (te_select e) (te_pack e)) bsize drop packing b =
      build_batch keq nw e bsize drop packing b).
    { intros b. unfold build_batch, build_packing. cbn [te_select te_pack]. destruct packing as [size|].
      - destruct (te_select e); [|reflexivity]. destruct (te_pack e) as [[f st]|]; [|reflexivity]. cbn [bind]. unfold build_batching. cbn [te_group te_batch]. rewrite HG. reflexivity.
      - cbn [bind]. unfold build_batching. cbn [te_group te_batch]. rewrite HG. reflexivity. }
    unfold build_val. unfold check_crude, build_encode, build_cook. cbn [te_cookers te_encode]. destruct (negb _); [reflexivity|].
    destruct (match srcs with [] => _ | _ => _ end) as [b|]; [|reflexivity]. cbn [bind]. rewrite E. reflexivity.
  Qed.
End Val.
Print Assumptions C48_val_epochs.
Print Assumptions C48_val_grouped.
Print Assumptions C48_val_limit.
Print Assumptions C48_group_encode_batch_refuted.

(** ** Examples: samples are lists of numbers; packs are made of samples with the same head, up to two of them *)
Definition pair0 (_ _ : nat) (l : list (list nat)) : ures (list (list (list nat))) :=
  match l with [a; b] => UOk [[b; a]] | [a] => UOk [[a]] | _ => UErr end.
Definition pair1 (_ _ : nat) (l : list (sample (list nat))) : ures (list (list (sample (list nat)))) :=
  match l with [a; b] => UOk [[b; a]] | [a] => UOk [[a]] | _ => UErr end.
(** each pack is yielded and then its number; a batch yields its elements' concatenation and then their count *)
Definition gen_enc (grp : option (nat -> nat -> list nat -> ures (nat * option nat))) (plain_batch : bool) : @encoder (list nat) nat :=
  mkEnc [] (mkMethod (Fn (fun _ _ x => match x with [3] => USkip | _ => UOk (map (Nat.add 100) x) end)) true false)
    (mkMethod (if plain_batch then Fn (fun _ i l => UOk (i :: concat l)) else GenFn (fun _ i l => ([i :: concat l; [length l]], GEnd))) true false)
    (mkMethod (Fn (fun _ _ x => UOk x)) true true) grp (Some pair1) (Some (GenFn (fun _ i l => ([concat l; [i]], GEnd)), true)).

Example C48_val_nonvacuous :
  selects_contents pair1 pair0 /\ enc_sound (gen_enc None false) /\
  (forall ins, packing_goes_on no_crude (gen_enc None false) pair0 (Some 2) 0 ins) /\
  run_of (build_val Nat.eqb no_crude 1 (gen_enc None false) [list_source [[1]; [2]; [3]]; list_source [[4]; [5]; [6]]] (Some 3) false (Some 2) None true) 9 =
    [Some [0; 102; 101; 0; 105; 104]; Some [3]; Some [1; 1; 106; 2]; Some [3]; None;
     Some [2; 102; 101; 3; 105; 104]; Some [3]; Some [3; 4; 106; 5]; Some [3]] /\
  run_of (build_val Nat.eqb no_crude 1 (gen_enc (Some (fun _ _ x => UOk (length x, None))) true) [list_source [[1]; [2]; [3]]; list_source [[4]; [5]; [6]]] (Some 2) false (Some 2) None true) 5 =
    [Some [0; 102; 101; 105; 104]; Some [1; 0; 1]; Some [2; 106; 2]; None; Some [3; 102; 101; 105; 104]].
Proof.
  assert (SC : selects_contents pair1 pair0) by (intros w i [|a [|b [|c l]]]; reflexivity).
  split; [exact SC|]. split; [|split].
  - split; [intros c w i x []|]. split; [intros w i x; cbn; destruct x as [|[|[|[|[|?]]]] [|]]; discriminate|]. split; [intros w i l; reflexivity|].
    split; [intros w i x; discriminate|]. split; [intros pre w i l [= <-]; destruct l as [|a [|b [|c l]]]; discriminate|]. intros f st [= <- <-] w i l. reflexivity.
  - intros ins size bufs [= <-] F before ep after k E L1 L2. exists 9. split; [lia|].
    (* a buffer that is not the last one of its epoch is full *)
    assert (HF : length (nth (k + 9) ep []) = 2).
    { assert (exists xs, groups 2 false xs ep) as (xs & full & tail & HFu & HT & _ & EG).
      { subst bufs. clear - F. apply Forall2_app_inv_r in F. destruct F as (a & b & _ & F & _). inversion F; subst. eauto. }
      rewrite Forall_forall in HFu. assert (L3 : k + 9 < length full) by (subst ep; destruct tail; [lia|]; rewrite app_length in L1; cbn in L1; lia).
      subst ep. destruct tail; [|rewrite app_nth1 by exact L3]; apply HFu, nth_In, L3. }
    destruct (nth (k + 9) ep []) as [|a [|b [|c l]]]; try discriminate.
  - split; vm_compute; reflexivity.
Qed.
