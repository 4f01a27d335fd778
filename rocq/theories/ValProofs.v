(** Packing, grouping and generator batchers: what they do to the epochs. *)
From Coq Require Import String QArith.
From Verif Require Import Base Dataset DatasetProofs Wrap WrapProofs WrapSpec WrapLib Rng Sharder Wrappers MapModel IdxProofs MapGenProofs Batch BatchSpec BatchProofs
  GroupBatch GroupBatchSpec Packing PackingSpec PackingProofs3 GenBatchTrace P_GenBatches ShuffleBuffer Blend BlendSpec Concat TaskEncoder TaskEncoderSpec ValSpec
  P_Wrappers P_Batch P_Blend P_GroupBatch P_Packing P_PackGen TaskEncoderProofs.
Local Close Scope Q_scope.
Local Close Scope Z_scope.
Local Open Scope string_scope.
Local Open Scope list_scope.
Local Open Scope nat_scope.

(** *** generator batchers *)
Lemma combine_snd {Y} (l : list Y) : forall k, map snd (combine (seq k (length l)) l) = l.
Proof. induction l as [|y l IH]; intros k; cbn; [reflexivity|]. rewrite IH. reflexivity. Qed.

Lemma gen_batches_pl {A B} (h : nat -> list A -> list B) gs : forall i, map pl (gen_batches h i gs) = each (fun i l => h i l) i (map (map pl) gs).
Proof.
  induction gs as [|g gs IH]; intros i; [reflexivity|]. cbn [gen_batches map each]. rewrite map_app, IH. f_equal.
  unfold gen_outputs. rewrite map_map. cbn [pl]. apply combine_snd.
Qed.
Fixpoint gen_epoch_list {A B} (h : nat -> list A -> list B) (i : nat) (gss : list (list (list (sample A)))) : list (list (sample B)) :=
  match gss with [] => [] | gs :: gss' => gen_batches h i gs :: gen_epoch_list h (i + length gs) gss' end.
Lemma gen_epochs_list {A B} (h : nat -> list A -> list B) gss : forall i, gen_epochs h i gss = concat (map epoch (gen_epoch_list h i gss)).
Proof. induction gss as [|gs gss IH]; intros i; [reflexivity|]. cbn [gen_epochs gen_epoch_list map concat]. rewrite IH. reflexivity. Qed.
Lemma gen_epoch_list_pl {A B} (h : nat -> list A -> list B) gss : forall i,
  map (map pl) (gen_epoch_list h i gss) = each_epoch (fun i l => h i l) i (map (map (map pl)) gss).
Proof. induction gss as [|gs gss IH]; intros i; [reflexivity|]. cbn [gen_epoch_list map each_epoch]. rewrite gen_batches_pl, IH, map_length. reflexivity. Qed.

Lemma groups_map2 {X Y} (h : X -> Y) size drop xss gss : Forall2 (groups size drop) xss gss -> Forall2 (groups size drop) (map (map h) xss) (map (map (map h)) gss).
Proof. induction 1; cbn [map]; constructor; auto. apply groups_map. assumption. Qed.

Lemma runs_batchgen {A B} nw size drop (f : nat -> nat -> list A -> list B * gend) (D : dataset A) w eps :
  w < nw -> 0 < size -> no_failure (GenFn f) -> runs w D eps ->
  exists gss, Forall2 (groups size drop) eps gss /\ runs w (wrap (batchgen_ds nw size drop f) D) (each_epoch (outputs (GenFn f) w) 0 gss).
Proof.
  intros Hw Hs HF (xss & E & <-). destruct (groups_exist2 drop xss Hs) as [gss G]. exists (map (map (map pl)) gss). split; [apply groups_map2; exact G|].
  exists (gen_epoch_list (fun i l => fst (f w i l)) 0 gss). split; [|apply gen_epoch_list_pl].
  pose proof (@gen_forward A B nw size drop f HF D w Hw _ (clean_all xss) E) as R. unfold gev in R.
  rewrite <- (app_nil_r (concat _)) in R.
  rewrite (@ev_epochs A (list B) size drop (all_at_once f) w (fun i l => fst (f w i l)) Hs (fun _ _ => eq_refl) xss gss 0 _ G) in R.
  rewrite flat_map_app, expand_epochs, gen_epochs_list in R. cbn [bt_events flat_map] in R. rewrite app_nil_r in R. exact R.
Qed.

(** *** packing *)
Section Pack.
  Context {A B : Type} (size w : nat) (pre : nat -> nat -> list (sample A) -> ures (list (list (sample A)))) (pre0 : nat -> nat -> list A -> ures (list (list A))).
  Hypothesis Hpre : selects_contents pre pre0.
  Hypothesis Hs : 0 < size.

  Lemma chosen_pl i c : map (map pl) (chosen (pre w) i c) = picked pre0 w i (map pl c).
  Proof. unfold chosen, picked. rewrite Hpre. destruct (pre w i c); reflexivity. Qed.
  Lemma chosen_all_pl cs : forall i, map (map pl) (chosen_all (pre w) i cs) = each (picked pre0 w) i (map (map pl) cs).
  Proof. induction cs as [|c cs IH]; intros i; [reflexivity|]. cbn [chosen_all map each]. rewrite map_app, chosen_pl, IH. reflexivity. Qed.

  Lemma packs_pl (f : nat -> nat -> list A -> ures B) gs : forall j, map pl (packs (f w) j gs) = each (outputs (Fn f) w) j (map (map pl) gs).
  Proof. induction gs as [|g gs IH]; intros j; [reflexivity|]. cbn [packs map each outputs]. rewrite map_app, IH. f_equal. destruct (f w j (map pl g)); reflexivity. Qed.
  Lemma gen_packs_pl (f : nat -> nat -> list A -> list B * gend) gs : forall j,
    map pl (gen_packs (fun i l => fst (f w i l)) j gs) = each (outputs (GenFn f) w) j (map (map pl) gs).
  Proof. induction gs as [|g gs IH]; intros j; [reflexivity|]. cbn [gen_packs map each outputs]. rewrite map_app, IH. f_equal. rewrite map_map. cbn [pl]. apply combine_snd. Qed.

  Lemma chosen_all_len cs i : length (chosen_all (pre w) i cs) = length (each (picked pre0 w) i (map (map pl) cs)).
  Proof. rewrite <- chosen_all_pl, map_length. reflexivity. Qed.

  Lemma part_nil (full : list (list (sample A))) tail : [] = concat full ++ tail -> Forall (fun c => length c = size) full -> full = [].
  Proof.
    intros E F. destruct full as [|c full]; [reflexivity|]. inversion F; subst. symmetry in E. apply app_eq_nil in E. destruct E as [E _].
    cbn [concat] in E. apply app_eq_nil in E. destruct E as [-> _]. cbn in Hs. lia.
  Qed.

  Lemma packed_contents (f : nat -> nat -> list A -> ures B) xss : forall i j outs, packed (pre w) (f w) size i j xss [] outs ->
    exists yss bufs, outs = concat (map epoch yss) /\ Forall2 (groups size false) xss bufs /\
      map (map pl) yss = each_epoch (outputs (Fn f) w) j (each_epoch (picked pre0 w) i (map (map (map pl)) bufs)).
  Proof.
    induction xss as [|xs xss IH]; intros i j outs H.
    - inversion H as [xs' full tail EX HF HT E1|]; subst. rewrite (part_nil EX HF). exists [], []. repeat split; constructor.
    - inversion H as [|e eps xs' chunks outs' HG HP]; subst. destruct (IH _ _ _ HP) as (yss & bufs & -> & F & E).
      exists (packs (f w) j (chosen_all (pre w) i chunks) :: yss), (chunks :: bufs). split; [reflexivity|]. split; [constructor; assumption|].
      cbn [map each_epoch]. rewrite packs_pl, chosen_all_pl, E, map_length, <- chosen_all_len. reflexivity.
  Qed.
  Lemma gen_packed_contents (f : nat -> nat -> list A -> list B * gend) xss : forall i j outs, gen_packed (pre w) (fun i l => fst (f w i l)) size i j xss [] outs ->
    exists yss bufs, outs = concat (map epoch yss) /\ Forall2 (groups size false) xss bufs /\
      map (map pl) yss = each_epoch (outputs (GenFn f) w) j (each_epoch (picked pre0 w) i (map (map (map pl)) bufs)).
  Proof.
    induction xss as [|xs xss IH]; intros i j outs H.
    - inversion H as [xs' full tail EX HF HT E1|]; subst. rewrite (part_nil EX HF). exists [], []. repeat split; constructor.
    - inversion H as [|e eps xs' chunks outs' HG HP]; subst. destruct (IH _ _ _ HP) as (yss & bufs & -> & F & E).
      exists (gen_packs (fun i l => fst (f w i l)) j (chosen_all (pre w) i chunks) :: yss), (chunks :: bufs). split; [reflexivity|]. split; [constructor; assumption|].
      cbn [map each_epoch]. rewrite gen_packs_pl, chosen_all_pl, E, map_length, <- chosen_all_len. reflexivity.
  Qed.

  (** no drought *)
  Lemma dry_epochs xss bufs : Forall2 (groups size false) xss bufs -> forall i,
    (forall before epoch after k, map (map (map pl)) bufs = before ++ epoch :: after -> k + 10 < length epoch -> length (nth (k + 10) epoch []) = size ->
       exists n, n < 10 /\ picked pre0 w (i + length (concat before) + k + n) (nth (k + n) epoch []) <> []) ->
    no_drought (pre w) size i xss [].
  Proof.
    induction 1 as [|xs gs xss bufs G F IH]; intros i H.
    - eapply (@nd_part _ (pre w) size i [] [] []); [reflexivity|constructor|exact Hs|]. intros (k & L & _). cbn in L. lia.
    - destruct G as (full & tail & HF & HT & EX & EG). eapply nd_epoch; [exact EX|exact HF|exact HT| |].
      + intros (k & L & HN). destruct (H [] (map (map pl) gs) (map (map (map pl)) bufs) k eq_refl) as (n & Hn & HP).
        * rewrite map_length, EG. destruct tail; [exact L|rewrite app_length; lia].
        * change (@nil A) with (map (@pl A) []). rewrite map_nth, map_length. rewrite Forall_forall in HF.
          replace (nth (k + 10) gs []) with (nth (k + 10) full []); [apply HF, nth_In, L|].
          rewrite EG. destruct tail; [reflexivity|rewrite app_nth1 by exact L; reflexivity].
        * apply HP. cbn [concat length]. rewrite Nat.add_0_r. change (@nil A) with (map (@pl A) []). rewrite map_nth, <- chosen_pl.
          replace (nth (k + n) gs []) with (nth (k + n) full []); [rewrite HN by exact Hn; reflexivity|].
          rewrite EG. destruct tail; [reflexivity|rewrite app_nth1 by lia; reflexivity].
      + apply IH. intros before ep after k E L1 L2.
        destruct (H (map (map pl) gs :: before) ep after k) as (n & Hn & HP); [cbn [map app]; rewrite E; reflexivity|exact L1|exact L2|].
        exists n. split; [exact Hn|]. cbn [concat] in HP. rewrite app_length, map_length in HP.
        replace (i + length full + match tail with [] => 0 | _ => 1 end + length (concat before) + k + n) with (i + (length gs + length (concat before)) + k + n); [exact HP|].
        rewrite EG. destruct tail; [|rewrite app_length; cbn]; lia.
  Qed.
End Pack.

Lemma groups_ex2 {X} size drop (eps : list (list X)) : 0 < size -> exists gss, Forall2 (groups size drop) eps gss.
Proof.
  intros Hs. induction eps as [|xs eps [gss IH]]; [exists []; constructor|].
  assert (exists gs, groups size drop xs gs) as [gs G].
  { assert (CE : forall n (l : list X), length l <= n -> exists full tail, Forall (fun g => length g = size) full /\ length tail < size /\ l = concat full ++ tail).
    { induction n as [|n IHn]; intros l L.
      - destruct l; [|cbn in L; lia]. exists [], []. repeat split; auto.
      - destruct (Nat.lt_ge_cases (length l) size) as [Lt|Ge]; [exists [], l; repeat split; auto|].
        destruct (IHn (skipn size l)) as (full & tail & HF & HT & E); [rewrite skipn_length; lia|].
        exists (firstn size l :: full), tail. split; [constructor; [apply firstn_length_le; lia|exact HF]|]. split; [exact HT|].
        cbn [concat]. rewrite <- app_assoc, <- E. symmetry. apply firstn_skipn. }
    destruct (CE _ xs (le_n _)) as (full & tail & HF & HT & E).
    exists (if drop then full else match tail with [] => full | _ => full ++ [tail] end). exists full, tail. repeat split; auto. }
  exists (gs :: gss). constructor; assumption.
Qed.

Lemma runs_packing {A B} nw size (pre : nat -> nat -> list (sample A) -> ures (list (list (sample A)))) pre0 (pack : ufn (list A) B) (D : dataset A) w eps :
  w < nw -> 0 < size -> selects_contents pre pre0 -> (forall i l, pre w i l <> UFatal) -> no_failure pack ->
  (forall bufs, Forall2 (groups size false) eps bufs -> never_dry pre0 w size bufs) ->
  runs w D eps ->
  exists bufs, Forall2 (groups size false) eps bufs /\
    runs w (match pack with Fn f => wrap (pack_ds nw size pre f) D | GenFn f => wrap (packgen_ds nw size pre f) D end)
      (each_epoch (outputs pack w) 0 (each_epoch (picked pre0 w) 0 bufs)).
Proof.
  intros Hw Hs Hsel Hp HF HD (xss & E & <-). destruct (groups_exist2 false xss Hs) as [gss G].
  assert (ND : no_drought (pre w) size 0 xss []).
  { apply (@dry_epochs A size w pre pre0 Hsel Hs xss gss G 0). intros before ep after k EB L1 L2. exact (HD _ (groups_map2 (@pl A) G) before ep after k EB L1 L2). }
  assert (E0 : emits w (fresh D) (concat (map epoch xss) ++ map Yield [])) by (cbn [map]; rewrite app_nil_r; exact E).
  destruct pack as [f|f].
  - destruct (@C33_packs A B nw size pre f D w xss [] Hs Hw Hp (HF w) ND E0) as (outs & EO & HP).
    destruct (@packed_contents A B size w pre pre0 Hsel Hs f _ _ _ _ HP) as (yss & bufs & -> & FB & EQ).
    exists (map (map (map pl)) bufs). split; [apply groups_map2; exact FB|]. exists yss. auto.
  - assert (HF' : forall i l, snd (f w i l) <> GFatal) by (intros i l; rewrite (HF w i l); discriminate).
    destruct (@C33_generator_packs A B nw size pre f D w xss [] Hs Hw Hp HF' ND E0) as (outs & EO & HP).
    destruct (@gen_packed_contents A B size w pre pre0 Hsel Hs f _ _ _ _ HP) as (yss & bufs & -> & FB & EQ).
    exists (map (map (map pl)) bufs). split; [apply groups_map2; exact FB|]. exists yss. auto.
Qed.

(** *** grouping *)
Section Group.
  Context {A B K : Type} (keq : K -> K -> bool) (cls : nat -> A -> option K) (size : K -> nat) (drop : bool) (w : nat).
  Hypothesis Hsize : forall k, 0 < size k.

  Lemma sorted_pl xs : forall i, sorted_out cls i (map pl xs) = map (fun p => (fst p, pl (snd p))) (classified cls i xs).
  Proof. induction xs as [|a xs IH]; intros i; [reflexivity|]. cbn [map sorted_out classified]. rewrite IH, map_app. f_equal. destruct (cls i (pl a)); reflexivity. Qed.
  Lemma of_key_map {X Y} (h : X -> Y) k (l : list (K * X)) : of_key keq k (map (fun p => (fst p, h (snd p))) l) = map h (of_key keq k l).
  Proof. unfold of_key. induction l as [|[k' x] l IH]; [reflexivity|]. cbn [map filter fst snd]. destruct (keq k' k); cbn [map]; rewrite IH; reflexivity. Qed.

  Lemma in_order_map {X Y} (h : X -> Y) (l : list (K * X)) :
    in_order keq size drop (map (fun p => (fst p, h (snd p))) l) = map (fun p => (fst p, map h (snd p))) (in_order keq size drop l).
  Proof.
    unfold in_order. rewrite map_app. f_equal.
    - unfold completed. rewrite map_length. induction (seq 0 (length l)) as [|n ns IH]; [reflexivity|]. cbn [flat_map]. rewrite map_app, <- IH. f_equal.
      rewrite nth_error_map. destruct (nth_error l n) as [[k x]|]; [|reflexivity]. cbn [option_map fst]. rewrite firstn_map, of_key_map, map_length. cbn zeta.
      destruct (_ =? 0); [|reflexivity]. cbn [map fst snd]. rewrite skipn_map. reflexivity.
    - destruct drop; [reflexivity|]. unfold unfinished. rewrite map_map. cbn [fst].
      induction (first_seen keq (map (fun p : K * X => fst p) l)) as [|k ks IH]; [reflexivity|]. cbn [flat_map]. rewrite map_app, <- IH. f_equal.
      rewrite of_key_map, map_length, skipn_map. cbn zeta. destruct (skipn _ (of_key keq k l)); reflexivity.
  Qed.

  Lemma group_batches_pl (f : nat -> nat -> list A -> ures B) gs : forall j, map pl (group_batches (f w) j gs) = each (outputs (Fn f) w) j (map (map pl) gs).
  Proof. induction gs as [|g gs IH]; intros j; [reflexivity|]. cbn [group_batches map each outputs]. rewrite map_app, IH. f_equal. destruct (f w j (map pl g)); reflexivity. Qed.

  Hypothesis Hk : forall a b, keq a b = true <-> a = b.
  Lemma grouped_nil i kgs : grouped keq cls size true i [] kgs -> kgs = [].
  Proof.
    intros [H _]. destruct kgs as [|[k g] kgs]; [reflexivity|]. exfalso. destruct (H k) as (full & tail & HF & HT & EX & EG).
    unfold of_key in EX, EG. cbn [classified filter map fst] in EX, EG. rewrite (proj2 (Hk k k) eq_refl) in EG. cbn [map snd] in EG. subst full.
    inversion HF as [|? ? HL HF']; subst. symmetry in EX. apply app_eq_nil in EX. destruct EX as [EX _]. cbn [concat] in EX. apply app_eq_nil in EX.
    destruct EX as [-> _]. specialize (Hsize k). cbn in HL. lia.
  Qed.

  Lemma group_contents (f : nat -> nat -> list A -> ures B) xss : forall i j outs, group_batched keq cls (f w) size drop i j xss [] outs ->
    exists yss kgss, outs = concat (map epoch yss) /\ grouped_epochs keq cls size drop i (map (map pl) xss) kgss /\
      map (map pl) yss = each_epoch (outputs (Fn f) w) j (map (map snd) kgss).
  Proof.
    induction xss as [|xs xss IH]; intros i j outs H.
    - inversion H as [xs' kgs HG E1|]; subst. rewrite (grouped_nil HG). exists [], []. repeat split.
    - inversion H as [|e eps xs' kgs outs' HG HP]; subst. destruct (IH _ _ _ HP) as (yss & kgss & -> & F & E).
      exists (group_batches (f w) j (map snd kgs) :: yss), (map (fun p => (fst p, map pl (snd p))) kgs :: kgss). split; [reflexivity|].
      cbn [map grouped_epochs each_epoch]. rewrite map_length. split; [split; [|split; [|exact F]]|].
      2:{ rewrite sorted_pl, in_order_map. f_equal. apply HG. }
      + intros k. rewrite sorted_pl, (of_key_map (map pl)), of_key_map. apply groups_map. apply HG.
      + rewrite group_batches_pl, E, !map_map, !map_length. cbn [snd]. reflexivity.
  Qed.
End Group.

Lemma runs_group {A B K} keq nw fixed drop (kf : nat -> nat -> A -> ures (K * option nat)) (f : nat -> nat -> list A -> ures B) (D : dataset A) w cls size eps :
  w < nw -> (forall a b, keq a b = true <-> a = b) -> groups_by fixed (kf w) cls size -> (forall k, 0 < size k) -> no_failure (Fn f) ->
  runs w D eps ->
  exists kgss, grouped_epochs keq cls size drop 0 eps kgss /\
    runs w (wrap (groupbatch_ds keq nw fixed drop false kf f) D) (each_epoch (outputs (Fn f) w) 0 (map (map snd) kgss)).
Proof.
  intros Hw Hk Hb Hs Hf (xss & E & <-).
  assert (E0 : emits w (fresh D) (concat (map epoch xss) ++ map Yield [])) by (cbn [map]; rewrite app_nil_r; exact E).
  destruct (@C32_batches A B K keq nw fixed drop kf f D w cls size xss [] Hw Hk Hb Hs (Hf w) E0) as (outs & EO & HG).
  destruct (@group_contents A B K keq cls size drop w Hs Hk f _ _ _ _ HG) as (yss & kgss & -> & F & EQ).
  exists kgss. split; [exact F|]. exists yss. auto.
Qed.
