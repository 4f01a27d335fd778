(** Property C70: an AugmentTaskEncoder "by default, delegates everything to the original task encoder". *)
From Coq Require Import String QArith.
From Verif Require Import Base Dataset DatasetProofs Wrap WrapSpec Wrappers MapModel Batch BatchSpec TaskEncoder TaskEncoderSpec TaskEncoderProofs P_TaskEncoder Augment.
Local Close Scope Q_scope.
Local Close Scope Z_scope.
Local Open Scope list_scope.
Local Open Scope nat_scope.

(** the wrapped encoder uses nothing but the three functions, and none of them is a generator function *)
Definition plain {A B} (f : ufn A B) : Prop := exists g, f = Fn g.
Definition simple {V K} (e : @encoder V K) : Prop :=
  te_cookers e = [] /\ te_group e = None /\ plain (m_fn (te_encode e)) /\ plain (m_fn (te_batch e)) /\ plain (m_fn (te_encode_batch e)).

Lemma each_id {A} (w : nat) (l : list A) : forall i, each (outputs (Fn (fun _ _ x => UOk x)) w) i l = l.
Proof. induction l as [|a l IH]; intros i; cbn; [reflexivity|]. f_equal. apply IH. Qed.
Lemma each_epoch_id {A} (w : nat) (ls : list (list A)) : forall i, each_epoch (outputs (Fn (fun _ _ x => UOk x)) w) i ls = ls.
Proof. induction ls as [|l ls IH]; intros i; cbn [each_epoch]; [reflexivity|]. rewrite each_id, IH. reflexivity. Qed.

Lemma Ok_inj {A} (a b : A) : Ok a = Ok b -> a = b.
Proof. congruence. Qed.

Section Augment.
  Context {V K : Type} (keq : K -> K -> bool) (crude : V -> option (string * list (string * string))) (nw : nat).

  Lemma augment_epochs (e : @encoder V K) bsize drop w ins outs : simple e -> base_methods e ->
    val_epochs crude (augment e) bsize drop w ins outs <-> val_epochs crude e bsize drop w ins outs.
  Proof.
    intros (HC & _ & [f HF] & [g HG] & [h HH]) [B1 B2]. unfold val_epochs. rewrite HC. cbn [augment te_cookers te_encode te_batch te_encode_batch delegating m_base m_fn].
    rewrite HF, HG, HH. cbn [delegate].
    assert (X1 : each_epoch (outputs (Fn f) w) 0 ins = if m_base (te_encode e) then ins else each_epoch (outputs (Fn f) w) 0 ins).
    { destruct (m_base (te_encode e)) eqn:E; [|reflexivity]. rewrite <- HF, B1, each_epoch_id by reflexivity. reflexivity. }
    rewrite <- X1. destruct bsize as [n|]; [|tauto].
    assert (X2 : forall l, each_epoch (outputs (Fn h) w) 0 l = if m_base (te_encode_batch e) then l else each_epoch (outputs (Fn h) w) 0 l).
    { intros l. destruct (m_base (te_encode_batch e)) eqn:E; [|reflexivity]. rewrite <- HH, B2, each_epoch_id by reflexivity. reflexivity. }
    split; intros (gss & F & E); exists gss; (split; [exact F|]); cbv zeta in *; rewrite E.
    - apply X2.
    - symmetry. apply X2.
  Qed.

  (** *** what holds: validation.  The batches are the same, in the same order. *)
  Theorem C70_same_batches (e : @encoder V K) srcs n drop limit log b w m eps outs :
    w < nw -> simple e -> base_methods e -> enc_ok e -> 0 < n -> (limit = None \/ limit = Some 0) ->
    build_val keq crude nw e srcs (Some n) drop None limit log = Ok b ->
    Forall2 (fun s ep => runs w (b_ds (s_build s 0%Z)) ep /\ length ep = m) srcs eps -> length outs = m ->
    exists b', build_val keq crude nw (augment e) srcs (Some n) drop None limit log = Ok b' /\
      (runs w (b_ds b') outs <-> runs w (b_ds b) outs).
  Proof.
    intros Hw HS HBM HE Hn HL HV F HO.
    destruct HS as (HC & HG & [f HF] & [g HG'] & [h HH]).
    assert (XB : exists b', build_val keq crude nw (augment e) srcs (Some n) drop None limit log = Ok b').
    { revert HV. unfold build_val. unfold check_crude. rewrite HC. cbn [augment te_cookers].
      destruct (negb _); [discriminate|]. destruct srcs as [|s [|s' srcs]]; cbn [bind]; [discriminate| |];
        unfold build_batch, build_packing, build_batching; cbn [bind augment te_group delegating te_batch te_encode_batch m_fn m_base m_stateless];
        rewrite HG, HG'; cbn [delegate bind]; intros _; eexists; reflexivity. }
    destruct XB as [b' HV']. exists b'. split; [exact HV'|].
    assert (HE' : enc_ok (augment e)).
    { destruct HE as (E1 & E2 & E3 & E4). split; [intros c ? ? ? []|]. cbn [augment te_encode te_encode_batch te_batch delegating m_fn].
      rewrite HF in *. rewrite HH in *. cbn [delegate]. split; [exact E2|]. split; [exact E3|]. destruct E4 as (g' & EG & NF). exists g'. rewrite EG. split; [reflexivity|exact NF]. }
    assert (HN : forall k, Some n = Some k -> 0 < k) by (intros k [= <-]; exact Hn).
    rewrite (C48_val_epochs_partial Hw HE' (eq_refl : te_group (augment e) = None) HN HL HV' F HO).
    rewrite (C48_val_epochs_partial Hw HE HG HN HL HV F HO). apply augment_epochs; [|exact HBM].
    repeat split; auto; eexists; eauto.
  Qed.

  (** *** what holds: training.  If all three methods are overridden, it is the very same dataset, except that samples cannot be
      restored by their keys. *)
  Theorem C70_same_training (e : @encoder V K) RB RS world srcs n drop vlen shuffle log b :
    simple e -> m_base (te_encode e) = false -> m_base (te_encode_batch e) = false ->
    build_train keq crude nw e RB RS world srcs (Some n) drop None vlen shuffle log = Ok b ->
    build_train keq crude nw (augment e) RB RS world srcs (Some n) drop None vlen shuffle log = Ok (mkBuilt (b_ds b) false).
  Proof.
    intros (HC & HG & [f HF] & [g HG'] & [h HH]) M1 M2. unfold build_train, check_crude, build_cook, build_encode, build_batch, build_packing, build_batching.
    cbn [augment te_cookers te_group te_encode te_batch te_encode_batch delegating m_fn m_base m_stateless bind]. rewrite HC, HG, HF, HG', HH, M1, M2. cbn [delegate].
    destruct (negb _); [discriminate|]. destruct srcs as [|s [|s' srcs]]; cbn [bind]; [discriminate| |]; intros H; apply Ok_inj in H; subst b; unfold add_log;
      destruct (0 <? vlen), log; unfold map_of; cbn [b_can b_ds andb]; f_equal.
  Qed.

  (** *** what does not hold, for any wrapped encoder *)

  (** crude datasets are refused, whatever cookers the wrapped encoder has *)
  Theorem C70_cookers_refuted (e : @encoder V K) srcs bsize drop packing limit log : (exists s, In s srcs /\ s_crude s = true) ->
    build_val keq crude nw (augment e) srcs bsize drop packing limit log = Err AssertionError.
  Proof.
    intros (s & HIN & HC). unfold build_val. replace (check_crude (augment e) srcs) with false; [reflexivity|]. symmetry.
    unfold check_crude. apply not_true_is_false. intros X. rewrite forallb_forall in X. specialize (X s HIN). rewrite HC in X. discriminate.
  Qed.

  (** packing is refused, although the wrapped encoder provides it *)
  Theorem C70_packing_refuted (e : @encoder V K) srcs bsize drop n limit log : srcs <> [] ->
    build_val keq crude nw (augment e) srcs bsize drop (Some n) limit log = Err AssertionError.
  Proof.
    intros HN. unfold build_val. destruct (negb _); [reflexivity|]. destruct srcs as [|s [|s' srcs]]; [contradiction|reflexivity|reflexivity].
  Qed.

  (** without batching it is refused, although every encoder that does not override batch and encode_batch may be used so *)
  Theorem C70_unbatched_refuted (e : @encoder V K) srcs drop limit log : srcs <> [] ->
    build_val keq crude nw (augment e) srcs None drop None limit log = Err AssertionError.
  Proof.
    intros HN. unfold build_val. destruct (negb _); [reflexivity|]. destruct srcs as [|s [|s' srcs]]; [contradiction|reflexivity|reflexivity].
  Qed.

  (** samples can never be restored by their keys *)
  Theorem C70_restore_refuted (e : @encoder V K) srcs bsize drop packing limit log b :
    build_val keq crude nw (augment e) srcs bsize drop packing limit log = Ok b -> b_can b = false.
  Proof.
    unfold build_val. destruct (negb _); [discriminate|]. 
    assert (X : forall b0 b1, build_batch keq nw (augment e) bsize drop packing b0 = Ok b1 -> b_can b1 = false).
    { intros b0 b1. unfold build_batch, build_packing, build_batching. destruct packing; [discriminate|]. cbn [bind augment te_group te_encode_batch te_batch delegating m_base m_stateless m_fn].
      destruct bsize; [|discriminate]. intros [= <-]. reflexivity. }
    destruct (match srcs with [] => _ | _ => _ end) as [b0|x]; cbn [bind]; [|discriminate].
    destruct (build_batch _ _ _ _ _ _ _) as [b1|x] eqn:E; cbn [bind]; [|discriminate]. intros [= <-]. specialize (X _ _ E).
    unfold add_log. destruct log; cbn [b_can]; (destruct limit as [k|]; [destruct (0 <? k)|]; exact X).
  Qed.

  (** if the wrapped encode_sample is a generator function, every sample is dropped: all epochs are empty *)
  Theorem C70_generator_refuted (e : @encoder V K) g srcs n drop log b w m eps outs :
    w < nw -> m_fn (te_encode e) = GenFn g -> plain (m_fn (te_batch e)) -> (forall f, m_fn (te_batch e) = Fn f -> no_failure (Fn f)) ->
    no_failure (delegate (m_fn (te_encode_batch e))) -> 0 < n ->
    build_val keq crude nw (augment e) srcs (Some n) drop None None log = Ok b ->
    Forall2 (fun s ep => runs w (b_ds (s_build s 0%Z)) ep /\ length ep = m) srcs eps -> length outs = m ->
    runs w (b_ds b) outs -> outs = repeat [] m.
  Proof.
    intros Hw HG [f HB] HNF HNB Hn HV F HO HR.
    assert (HE : enc_ok (augment e)).
    { split; [intros c ? ? ? []|]. cbn [augment te_encode te_encode_batch te_batch delegating m_fn]. rewrite HG. split; [intros ? ? ?; discriminate|].
      split; [exact HNB|]. exists f. rewrite HB. split; [reflexivity|apply HNF; exact HB]. }
    assert (HN : forall k, Some n = Some k -> 0 < k) by (intros k [= <-]; exact Hn).
    apply (C48_val_epochs_partial Hw HE (eq_refl : te_group (augment e) = None) HN (or_introl eq_refl) HV F HO) in HR.
    unfold val_epochs in HR. cbn [augment te_cookers te_encode te_batch te_encode_batch delegating m_base m_fn] in HR. rewrite HG, HB in HR. cbn [delegate] in HR.
    destruct HR as (gss & FG & EO).
    assert (XE : forall (l : list (list V)) i, each_epoch (outputs (Fn (fun _ _ _ => @UErr V)) w) i l = repeat [] (length l)).
    { induction l as [|x l IH]; intros i; cbn [each_epoch length repeat]; [reflexivity|]. rewrite IH. f_equal. generalize i. induction x; cbn; auto. }
    rewrite XE in FG.
    assert (GE : forall k gs, Forall2 (groups n drop) (repeat (@nil V) k) gs -> gs = repeat [] k).
    { clear - Hn. induction k as [|k IH]; cbn [repeat]; intros gs FG; inversion FG; subst; [reflexivity|]. f_equal; [|apply IH; assumption].
      match goal with H : groups _ _ [] ?y |- ?y = [] => rename y into gy; rename H into HG end. destruct HG as (full & tl & F1 & _ & E & ->).
      symmetry in E. apply app_eq_nil in E as [E1 ->]. replace full with (@nil (list V)); [destruct drop; reflexivity|].
      destruct full as [|g0 full]; [reflexivity|]. exfalso. inversion F1; subst. cbn in E1. apply app_eq_nil in E1 as [-> _]. cbn in Hn. lia. }
    rewrite (GE _ _ FG) in EO.
    assert (XR : forall A B (h : nat -> A -> list B) k i, each_epoch h i (repeat [] k) = repeat [] k).
    { clear. induction k; intros i; cbn [repeat each_epoch each length]; [reflexivity|]. rewrite IHk. reflexivity. }
    cbv zeta in EO. rewrite !XR in EO. rewrite EO. f_equal. rewrite EO in HO. rewrite repeat_length in HO. exact HO.
  Qed.
End Augment.
Print Assumptions C70_same_batches.
Print Assumptions C70_same_training.
Print Assumptions C70_cookers_refuted.
Print Assumptions C70_packing_refuted.
Print Assumptions C70_unbatched_refuted.
Print Assumptions C70_restore_refuted.
Print Assumptions C70_generator_refuted.

(** grouping is ignored: even and odd samples are in one batch, although the encoder keeps them apart *)
Theorem C70_grouping_refuted :
  let e := ex_enc (Some (fun _ _ x => UOk (hd 0 x mod 2, None))) in
  run_of (build_val Nat.eqb no_crude 1 e [list_source [[1]; [2]; [5]; [6]]] (Some 2) false None None true) 3 = [Some [0; 101; 105]; Some [1; 102; 106]; None] /\
  run_of (build_val Nat.eqb no_crude 1 (augment e) [list_source [[1]; [2]; [5]; [6]]] (Some 2) false None None true) 3 = [Some [0; 101; 102]; Some [1; 105; 106]; None].
Proof. vm_compute. split; reflexivity. Qed.
Print Assumptions C70_grouping_refuted.

(** the hypotheses can be met: [ex_enc] encodes, skips, batches and does not override encode_batch *)
Example C70_nonvacuous :
  simple (ex_enc None) /\ base_methods (ex_enc None) /\ enc_ok (ex_enc None) /\
  run_of (build_val Nat.eqb no_crude 1 (augment (ex_enc None)) [list_source [[1]; [2]; [3]]; list_source [[4]; [5]; [6]]] (Some 2) false None None true) 8 =
  run_of (build_val Nat.eqb no_crude 1 (ex_enc None) [list_source [[1]; [2]; [3]]; list_source [[4]; [5]; [6]]] (Some 2) false None None true) 8.
Proof.
  split; [repeat split; eexists; reflexivity|]. split; [split; [discriminate|reflexivity]|]. split; [|vm_compute; reflexivity].
  split; [intros ? ? ? ? []|]. split; [intros w i x; cbn; destruct x as [|[|[|[|[|?]]]] [|]]; discriminate|]. split; [intros w i x; discriminate|].
  eexists. split; [reflexivity|]. intros w i l. discriminate.
Qed.

(** a generator that yields every sample twice: the encoder alone delivers six samples, the wrapped one none *)
Example C70_generator_nonvacuous :
  let e := mkEnc (K := nat) [] (mkMethod (GenFn (fun _ _ x => ([x; x], GEnd))) true false) (te_batch (ex_enc None)) (te_encode_batch (ex_enc None)) None None None in
  run_of (build_val Nat.eqb no_crude 1 e [list_source [[1]; [2]; [3]]] (Some 2) false None None true) 4 = [Some [0; 1; 1]; Some [1; 2; 2]; Some [2; 3; 3]; None] /\
  run_of (build_val Nat.eqb no_crude 1 (augment e) [list_source [[1]; [2]; [3]]] (Some 2) false None None true) 2 = [None; None].
Proof. vm_compute. split; reflexivity. Qed.
