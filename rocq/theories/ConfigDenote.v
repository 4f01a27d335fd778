(** Equal configs and equal unrecorded settings give the same dataset. *)
From Coq Require Import String QArith.
From Verif Require Import Base Dataset Wrap WrapSpec Rng Sharder SampleLoader Wrappers MapModel Batch GroupBatch Packing IterMap ShuffleBuffer Blend Concat
  TaskEncoder Config ConfigSpec ConfigProofs.
Local Close Scope Q_scope.
Local Close Scope Z_scope.
Local Open Scope nat_scope.

Lemma honest_sub p q p' q' : incl (functions p') (functions p) -> incl (functions q') (functions q) -> honest p q -> honest p' q'.
Proof. intros H1 H2 H n c k k' I1 I2. eapply H; [apply H1|apply H2]; eassumption. Qed.

Ltac code f f' HF :=
  let H := fresh "HC" in
  assert (H : c_code f = c_code f')
    by (eapply HF; cbn [functions In];
        repeat match goal with E : fname _ = fname _ |- _ => rewrite E end;
        repeat match goal with E : described _ = described _ |- _ => rewrite E end;
        first [left; reflexivity | right; left; reflexivity | right; right; left; reflexivity]);
  rewrite H.
Ltac sub IH HF := rewrite IH; [|assumption|assumption|congruence|eapply honest_sub; [..|exact HF]; cbn; intros x Hx; cbn; auto 10].

Section Denotes.
  Context {V K : Type} (keq : K -> K -> bool) (E : env (V := V) (K := K)) (wc wc' : wconf).
  Hypotheses (HG : gen E wc = gen E wc') (HN : nworkers wc = nworkers wc').

  Lemma same_has p q : same_settings p q -> has_samples p = has_samples q.
  Proof.
    intros HS.
    induction HS using ss_ind with
      (P0 := fun l l' _ => map has_samples l = map has_samples l')
      (P1 := fun l l' _ => map (fun dw => has_samples (fst dw)) l = map (fun dw => has_samples (fst dw)) l');
      cbn [has_samples map fst snd]; try congruence.
    all: try exact IHHS; try (rewrite IHHS; reflexivity).
  Qed.

  Lemma same_weights ds ds' : same_weighted ds ds' -> map snd ds = map snd ds' /\ length ds = length ds'.
  Proof. induction 1; cbn; intuition congruence. Qed.
  Lemma same_all_length ds ds' : same_all ds ds' -> length ds = length ds'.
  Proof. induction 1; cbn; congruence. Qed.

  Lemma same_denote p q : same_settings p q -> bare p -> bare q -> hidden p = hidden q -> honest p q ->
    denote keq E wc p = denote keq E wc' q.
  Proof.
    intros HS.
    induction HS using ss_ind with
      (P0 := fun l l' _ => bare (PConcat l) -> bare (PConcat l') -> map hidden l = map hidden l' -> honest (PConcat l) (PConcat l') ->
               map (denote keq E wc) l = map (denote keq E wc') l')
      (P1 := fun l l' _ => bare (PBlend l) -> bare (PBlend l') ->
               map (fun dw => hidden (fst dw)) l = map (fun dw => hidden (fst dw)) l' -> honest (PBlend l) (PBlend l') ->
               map (fun dw => denote keq E wc (fst dw)) l = map (fun dw => denote keq E wc' (fst dw)) l');
      intros HB HB' HH HF; cbn [bare] in HB, HB'; try contradiction; cbn [denote]; rewrite <- ?HG, <- ?HN.
    - cbn [hidden] in HH. injection HH as -> ->. reflexivity.
    - cbn [hidden] in HH. injection HH as Hh HH. rewrite Hh. code f f' HF. sub IHHS HF. reflexivity.
    - cbn [hidden] in HH. injection HH as Hh HH. assert (st = st') as -> by (destruct st, st'; congruence).
      code f f' HF. code h h' HF. sub IHHS HF. reflexivity.
    - cbn [hidden] in HH. injection HH as HH. code f f' HF. sub IHHS HF. reflexivity.
    - cbn [hidden] in HH. injection HH as HH. sub IHHS HF. reflexivity.
    - cbn [hidden] in HH. injection HH as HH. code f f' HF. code h h' HF. sub IHHS HF. reflexivity.
    - cbn [hidden] in HH. injection HH as Hh HH. rewrite Hh. code k k' HF. code f f' HF. code h h' HF. sub IHHS HF. reflexivity.
    - cbn [hidden] in HH. injection HH as HH. code pre pre' HF. code f f' HF. code h h' HF. sub IHHS HF. reflexivity.
    - cbn [hidden] in HH. injection HH as HH. rewrite (same_has HS). sub IHHS HF. reflexivity.
    - cbn [hidden] in HH. injection HH as HH. sub IHHS HF. reflexivity.
    - cbn [hidden] in HH. injection HH as HH. sub IHHS HF. reflexivity.
    - cbn [hidden] in HH. injection HH as HH. rewrite IHHS; auto. destruct (same_weights s) as [-> ->].
      assert (map (fun dw : pipe * Q => has_samples (fst dw)) ds = map (fun dw => has_samples (fst dw)) ds') as ->; [|reflexivity].
      clear - s. induction s; cbn; [reflexivity|]. f_equal; auto. apply same_has. auto.
    - cbn [hidden] in HH. injection HH as HH. rewrite IHHS; auto. rewrite (same_all_length s). reflexivity.
    - reflexivity.
    - cbn [map] in *. injection HH as HH1 HH2. cbn in HB, HB'. f_equal.
      + apply IHHS; try tauto. eapply honest_sub; [..|exact HF]; intros u Hu; cbn; apply in_or_app; auto.
      + apply IHHS0; cbn [bare]; try tauto. eapply honest_sub; [..|exact HF]; intros u Hu; cbn; apply in_or_app; auto.
    - reflexivity.
    - cbn [map fst] in *. injection HH as HH1 HH2. cbn in HB, HB'. f_equal.
      + apply IHHS; try tauto. eapply honest_sub; [..|exact HF]; intros u Hu; cbn; apply in_or_app; auto.
      + apply IHHS0; cbn [bare]; try tauto. eapply honest_sub; [..|exact HF]; intros u Hu; cbn; apply in_or_app; auto.
  Qed.
End Denotes.
