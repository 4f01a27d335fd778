(** C74: `energon preview` displays samples. *)
From Coq Require Import String QArith Qround Lqa.
From Verif Require Import Base Preview.
Local Open Scope list_scope.
Local Close Scope Q_scope.
Local Open Scope nat_scope.

(** * Specification *)

(** the image that is drawn has two pixels of different brightness *)
Definition contrast (g : gray) : Prop := exists p q, In p (pixels g) /\ In q (pixels g) /\ ~ (p == q)%Q.

Inductive displayable (resize : gray -> gray) : pval -> Prop :=
| d_text : displayable resize PText
| d_tensor : displayable resize PTensor
| d_gray g : contrast (resize g) -> displayable resize (PGray g)
| d_rgb cs g : to_gray cs = Some g -> contrast (resize g) -> displayable resize (PChannels cs)
| d_volume cs : ~ In (List.length cs) [1; 3; 4] -> displayable resize (PChannels cs)
| d_seq l : Forall (displayable resize) l -> displayable resize (PSeq l)
| d_named0 : displayable resize (PNamed []).

(** [rows] shows [img]: one mark per pixel, on a scale from 0 (darkest pixel) to 10 (brightest pixel), brighter pixels never lower *)
Definition pictures (img : gray) (rows : list (list nat)) : Prop :=
  map (@List.length _) rows = map (@List.length _) img /\
  exists mark : Q -> nat, rows = map (map mark) img /\
    (forall p, In p (pixels img) -> mark p <= 10) /\
    (forall p q, In p (pixels img) -> In q (pixels img) -> (p <= q)%Q -> mark p <= mark q) /\
    (forall p, In p (pixels img) -> (forall q, In q (pixels img) -> (q <= p)%Q) -> mark p = 10) /\
    (forall p, In p (pixels img) -> (forall q, In q (pixels img) -> (p <= q)%Q) -> mark p = 0).

(** * Minimum and maximum *)

Lemma fold_max l : forall x, In (fold_left (fun a b => if Qle_bool a b then b else a) l x) (x :: l) /\
  forall y, In y (x :: l) -> (y <= fold_left (fun a b => if Qle_bool a b then b else a) l x)%Q.
Proof.
  induction l as [|z l IH]; intros x; cbn [fold_left].
  - split; [now left|]. intros y [-> | []]. apply Qle_refl.
  - destruct (IH (if Qle_bool x z then z else x)) as [A B]. split.
    + destruct A as [A|A]; [|right; right; exact A]. rewrite <- A. destruct (Qle_bool x z); cbn; auto.
    + assert (C : (x <= (if Qle_bool x z then z else x))%Q /\ (z <= (if Qle_bool x z then z else x))%Q).
      { destruct (Qle_bool x z) eqn:E; [apply Qle_bool_iff in E; split; [exact E|apply Qle_refl]|].
        split; [apply Qle_refl|]. apply Qlt_le_weak, Qnot_le_lt. intros H. apply Qle_bool_iff in H. congruence. }
      intros y [<- |[<- |I]]; [eapply Qle_trans; [apply C|]|eapply Qle_trans; [apply C|]|]; apply B; cbn; auto.
Qed.
Lemma fold_min l : forall x, In (fold_left (fun a b => if Qle_bool a b then a else b) l x) (x :: l) /\
  forall y, In y (x :: l) -> (fold_left (fun a b => if Qle_bool a b then a else b) l x <= y)%Q.
Proof.
  induction l as [|z l IH]; intros x; cbn [fold_left].
  - split; [now left|]. intros y [-> | []]. apply Qle_refl.
  - destruct (IH (if Qle_bool x z then x else z)) as [A B]. split.
    + destruct A as [A|A]; [|right; right; exact A]. rewrite <- A. destruct (Qle_bool x z); cbn; auto.
    + assert (C : ((if Qle_bool x z then x else z) <= x)%Q /\ ((if Qle_bool x z then x else z) <= z)%Q).
      { destruct (Qle_bool x z) eqn:E; [apply Qle_bool_iff in E; split; [apply Qle_refl|exact E]|].
        split; [|apply Qle_refl]. apply Qlt_le_weak, Qnot_le_lt. intros H. apply Qle_bool_iff in H. congruence. }
      intros y [<- |[<- |I]]; [eapply Qle_trans; [|apply C]|eapply Qle_trans; [|apply C]|]; apply B; cbn; auto.
Qed.

Lemma qmax_spec l : l <> [] -> In (qmax l) l /\ forall y, In y l -> (y <= qmax l)%Q.
Proof. destruct l as [|x l]; [congruence|]. intros _. apply fold_max. Qed.
Lemma qmin_spec l : l <> [] -> In (qmin l) l /\ forall y, In y l -> (qmin l <= y)%Q.
Proof. destruct l as [|x l]; [congruence|]. intros _. apply fold_min. Qed.

Lemma contrast_iff g : contrast g <-> Qeq_bool (qmin (pixels g)) (qmax (pixels g)) = false.
Proof.
  split.
  - intros (p & q & Ip & Iq & N). destruct (Qeq_bool _ _) eqn:E; [|reflexivity]. exfalso. apply N. apply Qeq_bool_iff in E.
    assert (NE : pixels g <> []) by (intros H; rewrite H in Ip; destruct Ip).
    pose proof (proj2 (qmax_spec NE)) as MX. pose proof (proj2 (qmin_spec NE)) as MN.
    pose proof (MX _ Ip). pose proof (MX _ Iq). pose proof (MN _ Ip). pose proof (MN _ Iq). lra.
  - intros E. assert (NE : pixels g <> []).
    { intros H. rewrite H in E. cbn in E. discriminate. }
    exists (qmin (pixels g)), (qmax (pixels g)). split; [apply qmin_spec; exact NE|]. split; [apply qmax_spec; exact NE|].
    intros H. apply Qeq_bool_iff in H. congruence.
Qed.

Lemma draw_iff resize g : (exists r, draw resize g = Ok r) <-> contrast (resize g).
Proof.
  rewrite contrast_iff. unfold draw. cbv zeta. destruct (Qeq_bool _ _).
  - split; [intros [r H]; destruct (pixels (resize g)); discriminate|discriminate].
  - split; eauto.
Qed.

Section PvalInd.
  Variable P : pval -> Prop.
  Hypothesis (H1 : forall g, P (PGray g)) (H2 : forall cs, P (PChannels cs)) (H3 : P PTensor) (H4 : P PText)
    (H5 : forall l, Forall P l -> P (PSeq l)) (H6 : forall l, P (PNamed l)).
  Fixpoint pval_ind' (v : pval) : P v :=
    match v with
    | PGray g => H1 g | PChannels cs => H2 cs | PTensor => H3 | PText => H4
    | PSeq l => H5 ((fix go l := match l return Forall P l with [] => Forall_nil _ | x :: l' => @Forall_cons _ _ x l' (pval_ind' x) (go l') end) l)
    | PNamed l => H6 l
    end.
End PvalInd.

Lemma to_gray_none (cs : list gray) : to_gray cs = None <-> ~ In (List.length cs) [1; 3; 4].
Proof. destruct cs as [|a [|b [|c [|d [|e cs]]]]]; cbn; split; intros H; try discriminate; try reflexivity; try tauto; try lia. Qed.

(** A value can be displayed exactly if every image in it has some contrast and there is no namedtuple with fields *)
Theorem C74_displays_iff resize v : (exists r, to_str resize v = Ok r) <-> displayable resize v.
Proof.
  induction v as [g|cs| | |l IH|l] using pval_ind'; cbn [to_str].
  - split.
    + intros [r H]. constructor. apply draw_iff. destruct (draw resize g); cbn in H; [eauto|discriminate].
    + inversion 1 as [| |? C| | | |]; subst. apply draw_iff in C. destruct C as [r ->]. cbn. eauto.
  - destruct (to_gray cs) as [g|] eqn:E.
    + split.
      * intros [r H]. eapply d_rgb; [exact E|]. apply draw_iff. destruct (draw resize g); cbn in H; [eauto|discriminate].
      * intros D. inversion D as [| | |? g' E' C|? N| |]; subst; [|apply to_gray_none in N; congruence].
        rewrite E in E'. injection E' as <-. apply draw_iff in C. destruct C as [r ->]. cbn. eauto.
    + split; [|eauto]. intros _. apply d_volume. apply to_gray_none. exact E.
  - split; [constructor|eauto].
  - split; [constructor|eauto].
  - assert (G : (exists r, sequence (map (to_str resize) l) = Ok r) <-> Forall (displayable resize) l).
    { induction IH as [|x l Hx _ IHl]; cbn [map sequence]; [split; [constructor|eauto]|]. split.
      - intros [r H]. destruct (to_str resize x) as [y|] eqn:E; [|discriminate].
        destruct (sequence (map (to_str resize) l)) as [z|] eqn:E2; [|discriminate]. constructor; [apply Hx; eauto|apply IHl; eauto].
      - intros D. inversion D as [|? ? D1 D2]; subst. apply Hx in D1. destruct D1 as [y ->]. apply IHl in D2. destruct D2 as [z ->]. eauto. }
    split.
    + intros [r H]. constructor. apply G. destruct (sequence _); cbn in H; [eauto|discriminate].
    + inversion 1 as [| | | | |? D|]; subst. apply G in D. destruct D as [r ->]. cbn. eauto.
  - destruct l as [|x l]; split; [constructor|eauto|intros [r H]; discriminate|inversion 1].
Qed.
Print Assumptions C74_displays_iff.

(** and the image shows the brightness of the pixels *)
Theorem C74_picture resize g rows : draw resize g = Ok rows -> pictures (resize g) rows.
Proof.
  intros H. assert (C : contrast (resize g)) by (apply draw_iff; eauto). pose proof (proj1 (contrast_iff _) C) as E.
  unfold draw in H. cbv zeta in H. rewrite E in H. injection H as <-. set (img := resize g) in *.
  assert (NE : pixels img <> []). { destruct C as (p & _ & Ip & _). intros Hn. rewrite Hn in Ip. destruct Ip. }
  destruct (qmax_spec NE) as [MXI MX]. destruct (qmin_spec NE) as [MNI MN].
  set (mn := qmin (pixels img)) in *. set (mx := qmax (pixels img)) in *.
  assert (LT : (mn < mx)%Q).
  { destruct (Qlt_le_dec mn mx) as [L|L]; [exact L|]. exfalso. pose proof (MN _ MXI). assert ((mn == mx)%Q) by lra. apply Qeq_bool_iff in H0. congruence. }
  assert (D : (0 < mx - mn)%Q) by lra.
  split. { rewrite map_map. apply map_ext. intros r. apply map_length. }
  exists (glyph mn mx). split; [reflexivity|].
  assert (BND : forall p, In p (pixels img) -> (0 <= (p - mn) / (mx - mn) /\ (p - mn) / (mx - mn) <= 1)%Q).
  { intros p I. pose proof (MN _ I). pose proof (MX _ I). split.
    - apply Qle_shift_div_l; [exact D|]. lra.
    - apply Qle_shift_div_r; [exact D|]. lra. }
  assert (MONO : forall p q, (p <= q)%Q -> glyph mn mx p <= glyph mn mx q).
  { intros p q L. unfold glyph. assert (FL : (Qfloor ((p - mn) / (mx - mn) * (10 # 1)) <= Qfloor ((q - mn) / (mx - mn) * (10 # 1)))%Z).
    { apply Qfloor_resp_le. apply Qmult_le_compat_r; [|discriminate]. unfold Qdiv. apply Qmult_le_compat_r; [lra|].
      apply Qlt_le_weak, Qinv_lt_0_compat. exact D. }
    lia. }
  assert (TOP : glyph mn mx mx = 10).
  { unfold glyph. assert (HQ : ((mx - mn) / (mx - mn) * (10 # 1) == inject_Z 10)%Q) by (field; lra).
    rewrite (Qfloor_comp _ _ HQ), Qfloor_Z. reflexivity. }
  assert (BOT : glyph mn mx mn = 0).
  { unfold glyph. assert (HQ : ((mn - mn) / (mx - mn) * (10 # 1) == inject_Z 0)%Q) by (field; lra).
    rewrite (Qfloor_comp _ _ HQ), Qfloor_Z. reflexivity. }
  split; [intros p I; rewrite <- TOP; apply MONO, MX, I|]. split; [intros p q _ _; apply MONO|]. split.
  - intros p I Hp. apply Nat.le_antisymm; [rewrite <- TOP; apply MONO, MX, I|]. rewrite <- TOP at 1. apply MONO, Hp, MXI.
  - intros p I Hp. apply Nat.le_antisymm; [|lia]. rewrite <- BOT. apply MONO, Hp, MNI.
Qed.
Print Assumptions C74_picture.

(** texts, numbers, other tensors and (nested) lists of them are always displayed *)
Inductive simple : pval -> Prop :=
| s_text : simple PText
| s_tensor : simple PTensor
| s_seq l : Forall simple l -> simple (PSeq l).
Theorem C74_simple resize fields : Forall simple fields -> exists r, pprint resize fields = Ok r.
Proof.
  intros H. assert (G : forall v, simple v -> displayable resize v).
  { induction v as [g|cs| | |l IH|l] using pval_ind'; intros Hs; inversion Hs; subst; try constructor.
    rewrite Forall_forall in *. auto. }
  unfold pprint. induction H as [|v l Hv _ [r IH]]; cbn [map sequence]; [eauto|].
  destruct (proj2 (C74_displays_iff resize v) (G v Hv)) as [x ->]. rewrite IH. eauto.
Qed.
Print Assumptions C74_simple.

(** An image of one colour (a blank page, a mask of zeros) cannot be displayed, whatever way of averaging is used to resize it: the command
    ends with an error *)
Theorem C74_blank_image_refuted resize g c : (forall p, In p (pixels g) -> (p == c)%Q) -> pixels (resize g) <> [] ->
  (forall p, In p (pixels (resize g)) -> (qmin (pixels g) <= p /\ p <= qmax (pixels g))%Q) -> pixels g <> [] ->
  to_str resize (PGray g) = Err ValueError.
Proof.
  intros H NE AVG NG. destruct (qmin_spec NG) as [I1 _]. destruct (qmax_spec NG) as [I2 _]. apply H in I1. apply H in I2.
  cbn [to_str]. unfold draw. cbv zeta. destruct (Qeq_bool (qmin (pixels (resize g))) (qmax (pixels (resize g)))) eqn:E.
  - destruct (pixels (resize g)); [congruence|reflexivity].
  - exfalso. destruct (qmin_spec NE) as [J1 _]. destruct (qmax_spec NE) as [J2 _]. apply AVG in J1. apply AVG in J2.
    assert (Q0 : (qmin (pixels (resize g)) == qmax (pixels (resize g)))%Q) by lra. apply Qeq_bool_iff in Q0. congruence.
Qed.
Print Assumptions C74_blank_image_refuted.

(** nor can a namedtuple *)
Theorem C74_namedtuple_refuted resize x l : exists e, to_str resize (PNamed (x :: l)) = Err e.
Proof. eexists. reflexivity. Qed.
Print Assumptions C74_namedtuple_refuted.

(** * The command *)

(** If the user always continues, every sample of every non-empty part is shown, up to the first one that cannot be displayed *)
Fixpoint all_events (part : nat) (parts : list (option (list bool))) : list pevent :=
  match parts with
  | [] => []
  | None :: ps => EvSkip part :: all_events (S part) ps
  | Some ok :: ps => map (EvSample part) (seq 0 (List.length ok)) ++ all_events (S part) ps
  end.
Lemma show_part_all part ok : forall idx ans, Forall (fun b => b = true) ok -> Forall (fun b => b = true) ans ->
  exists ans', Forall (fun b => b = true) ans' /\ show_part part idx ok ans = (map (EvSample part) (seq idx (List.length ok)), ans', true).
Proof.
  induction ok as [|b ok IH]; intros idx ans H HA; [exists ans; split; [exact HA|reflexivity]|].
  inversion H as [|? ? E H']; subst. cbn [show_part]. destruct ans as [|a ans].
  - destruct (IH (S idx) [] H' HA) as (ans' & F & ->). exists ans'. split; [exact F|reflexivity].
  - inversion HA as [|? ? E HA']; subst. destruct (IH (S idx) ans H' HA') as (ans' & F & ->). exists ans'. split; [exact F|reflexivity].
Qed.
Theorem C74_all_shown parts : forall part ans, Forall (fun p => match p with Some ok => Forall (fun b => b = true) ok | None => True end) parts ->
  Forall (fun b => b = true) ans -> preview part parts ans = all_events part parts.
Proof.
  induction parts as [|[ok|] parts IH]; intros part ans H HA; cbn [preview all_events]; [reflexivity| |]; inversion H as [|? ? H1 H2]; subst.
  - destruct (@show_part_all part ok 0 ans H1 HA) as (ans' & F & ->). rewrite IH by assumption. reflexivity.
  - rewrite IH by assumption. reflexivity.
Qed.
Print Assumptions C74_all_shown.

(** A sample that cannot be displayed is reported, and nothing is shown after it *)
Theorem C74_failing_sample parts part ok ok' rest ans :
  Forall (fun p => match p with Some ok => Forall (fun b => b = true) ok | None => True end) parts ->
  Forall (fun b => b = true) ok -> Forall (fun b => b = true) ans ->
  preview part (parts ++ Some (ok ++ false :: ok') :: rest) ans =
    all_events part parts ++ map (EvSample (part + List.length parts)) (seq 0 (List.length ok)) ++ [EvFail (part + List.length parts)].
Proof.
  intros H HO. revert part ans. induction H as [|[l|] parts Hp _ IH]; intros part ans HA; cbn [app preview all_events List.length].
  - rewrite Nat.add_0_r.
    assert (G : forall l idx ans, Forall (fun b => b = true) l -> Forall (fun b => b = true) ans ->
                exists a, show_part part idx (l ++ false :: ok') ans = (map (EvSample part) (seq idx (List.length l)) ++ [EvFail part], a, false)).
    { clear. induction l as [|b l IH]; intros idx ans H HA; [cbn; eauto|]. inversion H as [|? ? E H']; subst. cbn [app show_part].
      destruct ans as [|a ans].
      - destruct (IH (S idx) [] H' HA) as (x & ->). eexists. reflexivity.
      - inversion HA as [|? ? E HA']; subst. destruct (IH (S idx) ans H' HA') as (x & ->). eexists. reflexivity. }
    destruct (G ok 0 ans HO HA) as (a & ->). rewrite app_nil_r. reflexivity.
  - destruct (@show_part_all part l 0 ans Hp HA) as (ans' & F & ->). rewrite IH by exact F. rewrite <- !app_assoc.
    replace (S part + List.length parts) with (part + S (List.length parts)) by lia. reflexivity.
  - rewrite IH by exact HA. replace (S part + List.length parts) with (part + S (List.length parts)) by lia. reflexivity.
Qed.
Print Assumptions C74_failing_sample.

(** Answering no prints "Exiting Preview", but the command goes on with the next part *)
Theorem C74_exit_refuted : preview 0 [Some [true; true]; Some [true]] [false] = [EvSample 0 0; EvExit 0; EvSample 1 0].
Proof. reflexivity. Qed.
Print Assumptions C74_exit_refuted.

Example C74_nonvacuous :
  to_str (fun g => g) (PSeq [PText; PGray [[0; 1]; [1 # 2; 1]]%Q]) = Ok (SSeq [STxt; SImg [[0; 10]; [5; 10]]]) /\
  to_str (fun g => g) (PGray [[1; 1]]%Q) = Err ValueError /\
  displayable (fun g => g) (PChannels [[[0; 1]]; [[0; 1]]; [[1; 1]]]%Q).
Proof.
  split; [vm_compute; reflexivity|]. split; [vm_compute; reflexivity|]. eapply d_rgb; [reflexivity|].
  eexists _, _. split; [left; reflexivity|]. split; [right; left; reflexivity|]. vm_compute. discriminate.
Qed.
