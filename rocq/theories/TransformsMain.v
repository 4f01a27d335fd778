(** Proofs for C55: the loop of MergeTransform. *)
From Coq Require Import ZArith List Bool Reals Lra Lia Psatz.
From Verif Require Import Transforms TransformsSpec TransformsProofs.
Import ListNotations.
Local Open Scope R_scope.

Section Main.
  Context {A : Type}.
  Implicit Types i : image A.
  Variable lstsq : quad -> quad -> mat.

  Definition grows (G : mat) i i' : Prop :=
    forall x y u v, at_point G x y = Some (u, v) -> inside (im_h i) (im_w i) u v -> inside (im_h i') (im_w i') x y.
  Lemma exact_trans_grows G1 G2 i i1 i2 : exact G1 i i1 -> grows G1 i i1 -> exact G2 i1 i2 -> (forall x y, at_point G2 x y = None -> at_point (mmul G1 G2) x y = None) ->
    exact (mmul G1 G2) i i2.
  Proof.
    intros H1 HG H2 HN x y I. rewrite (H2 x y I). destruct (at_point G2 x y) as [[u v]|] eqn:E; [|rewrite (HN _ _ E); reflexivity].
    rewrite (at_point_mmul _ _ _ _ _ _ E). destruct (inside_dec (im_h i1) (im_w i1) u v) as [I'|N]; [apply H1; exact I'|].
    unfold look at 1. destruct (inside_dec _ _ u v); [contradiction|]. destruct (at_point G1 u v) as [[u' v']|] eqn:E'; [|reflexivity].
    unfold look. destruct (inside_dec _ _ u' v') as [I'|_]; [|reflexivity]. destruct N. eapply HG; eauto.
  Qed.
  Lemma grows_trans G1 G2 i i1 i2 : (forall x y, at_point G2 x y <> None) -> grows G1 i i1 -> grows G2 i1 i2 -> grows (mmul G1 G2) i i2.
  Proof.
    intros HT H1 H2 x y u v E I. destruct (at_point G2 x y) as [[u' v']|] eqn:E2; [|destruct (HT _ _ E2)].
    rewrite (at_point_mmul _ _ _ _ _ _ E2) in E. eapply H2; [exact E2|]. eapply H1; eauto.
  Qed.
  Lemma affine_total G x y : affine G -> at_point G x y <> None.
  Proof. intros H. rewrite at_point_affine by exact H. discriminate. Qed.
  (** backward matrices that are affine or come first *)
  Lemma affine_none G1 G2 x y : affine G1 -> at_point G2 x y = None -> at_point (mmul G1 G2) x y = None.
  Proof.
    intros (E1 & E2 & E3). unfold at_point. cbn. rewrite E1, E2, E3. destruct (Req_EM_T (m20 G2 * x + m21 G2 * y + m22 G2) 0) as [Z|_]; [|discriminate].
    intros _. destruct (Req_EM_T _ 0) as [_|N]; [reflexivity|]. destruct N. etransitivity; [|exact Z]. ring.
  Qed.

  Lemma step_trans F1 G1 F2 G2 i i1 i2 : step F1 G1 i i1 -> step F2 G2 i1 i2 -> stays G2 i1 i2 -> step (mmul F2 F1) (mmul G1 G2) i i2.
  Proof. intros [I1 E1] [I2 E2] S. split; [apply inverse_mmul; assumption|eapply exact_trans; eauto]. Qed.
  Lemma step_trans_grows F1 G1 F2 G2 i i1 i2 : affine G1 -> step F1 G1 i i1 -> grows G1 i i1 -> step F2 G2 i1 i2 -> step (mmul F2 F1) (mmul G1 G2) i i2.
  Proof. intros HA [I1 E1] S [I2 E2]. split; [apply inverse_mmul; assumption|]. eapply exact_trans_grows; eauto. intros. apply affine_none; assumption. Qed.

  (** *** what each operation keeps *)
  Lemma pad_grows i a b c d : (0 <= a)%Z -> (0 <= b)%Z -> (0 <= c)%Z -> (0 <= d)%Z -> grows (translate (- IZR a) (- IZR b)) i (tv_pad a b c d i).
  Proof.
    intros H1 H2 H3 H4 x y u v E [[U1 U2] [V1 V2]]. rewrite at_point_affine in E by (repeat split). cbn in E. injection E as <- <-.
    apply IZR_le in H1, H2, H3, H4. split; cbn; rewrite ?plus_IZR; lra.
  Qed.
  Lemma crop_all_grows i : grows (g_crop 0 0) i (tv_crop 0 0 (im_h i) (im_w i) i).
  Proof. intros x y u v E [[U1 U2] [V1 V2]]. rewrite at_point_affine in E by (repeat split). cbn in E. injection E as <- <-. split; cbn; lra. Qed.
  Lemma hflip_grows i : grows (g_hflip (im_w i)) i (tv_hflip i).
  Proof. intros x y u v E [[U1 U2] [V1 V2]]. rewrite at_point_affine in E by (repeat split). cbn in E. injection E as <- <-. split; cbn; lra. Qed.
  Lemma vflip_grows i : grows (g_vflip (im_h i)) i (tv_vflip i).
  Proof. intros x y u v E [[U1 U2] [V1 V2]]. rewrite at_point_affine in E by (repeat split). cbn in E. injection E as <- <-. split; cbn; lra. Qed.
  Lemma eye_grows i : grows eye i i.
  Proof. intros x y u v E I. rewrite at_point_affine in E by apply affine_eye. cbn in E. injection E as <- <-. replace (1 * x + 0 * y + 0) with x in I by ring. replace (0 * x + 1 * y + 0) with y in I by ring. exact I. Qed.
  Lemma resize_grows i h w : (0 < im_h i)%Z -> (0 < im_w i)%Z -> (0 < h)%Z -> (0 < w)%Z -> grows (g_resize (im_h i) (im_w i) h w) i (tv_resize h w i).
  Proof.
    intros H1 H2 H3 H4. apply IZR_pos in H1, H2, H3, H4. intros x y u v E [[U1 U2] [V1 V2]]. rewrite at_point_affine in E by (repeat split).
    cbn in E. injection E as <- <-.
    assert (B : forall a b t, 0 < a -> 0 < b -> 0 <= a / b * t -> a / b * t <= a -> 0 <= t <= b).
    { intros a b t Ha Hb T1 T2. assert (P : 0 < b / a) by (apply Rdiv_lt_0_compat; assumption).
      apply (Rmult_le_compat_l (b / a)) in T1; [|lra]. apply (Rmult_le_compat_l (b / a)) in T2; [|lra].
      replace (b / a * (a / b * t)) with t in T1, T2 by (field; lra). replace (b / a * a) with b in T2 by (field; lra). lra. }
    split; cbn; [apply (B (IZR (im_w i))); lra|apply (B (IZR (im_h i))); lra].
  Qed.
  Lemma rceil_ge x : x <= IZR (rceil x).
  Proof. unfold rceil. rewrite opp_IZR. destruct (base_Int_part (- x)). lra. Qed.
  Lemma rfloor_le x : IZR (rfloor x) <= x.
  Proof. unfold rfloor. destruct (base_Int_part x). lra. Qed.
  Lemma turn_bound c s x y H W : Rabs x <= W -> Rabs y <= H -> Rabs (x * c + y * s) <= Rabs s * H + Rabs c * W.
  Proof.
    intros HX HY. eapply Rle_trans; [apply Rabs_triang|]. rewrite !Rabs_mult. pose proof (Rabs_pos c). pose proof (Rabs_pos s).
    pose proof (Rmult_le_compat_r (Rabs c) _ _ ltac:(assumption) HX). pose proof (Rmult_le_compat_r (Rabs s) _ _ ltac:(assumption) HY). lra.
  Qed.
  Lemma rot_grows i a h' w' back : (0 <= im_h i)%Z -> (0 <= im_w i)%Z -> turned_size a (im_h i) (im_w i) = (h', w') ->
    grows (g_rot a (im_h i) (im_w i) h' w') i (resample h' w' back i).
  Proof.
    intros Hh Hw ES x y u v E [[U1 U2] [V1 V2]]. rewrite turned_size_eq in ES by assumption. injection ES as E1 E2.
    rewrite at_point_affine in E by (unfold affine, g_rot, rotate; cbn; repeat split; ring). unfold g_rot, rotate in E. rewrite cos_neg, sin_neg in E. cbn in E.
    injection E as EU EV. set (W := IZR (im_w i) / 2) in *. set (H := IZR (im_h i) / 2) in *. set (c := cos a) in *. set (s := sin a) in *.
    set (X := x - IZR w' / 2). set (Y := y - IZR h' / 2).
    assert (EU' : u - W = c * X - s * Y) by (rewrite <- EU; unfold X, Y, W; field).
    assert (EV' : v - H = s * X + c * Y) by (rewrite <- EV; unfold X, Y, H; field).
    pose proof (sin2_cos2 a) as SC. unfold Rsqr in SC. fold s c in SC.
    assert (EX : X = (u - W) * c + (v - H) * s) by (rewrite EU', EV'; transitivity (X * (s * s + c * c)); [rewrite SC; ring|ring]).
    assert (EY : Y = (v - H) * c + (u - W) * (- s)) by (rewrite EU', EV'; transitivity (Y * (s * s + c * c)); [rewrite SC; ring|ring]).
    assert (AU : Rabs (u - W) <= W) by (apply Rabs_le; unfold W; lra). assert (AV : Rabs (v - H) <= H) by (apply Rabs_le; unfold H; lra).
    assert (BX : Rabs X <= Rabs s * H + Rabs c * W) by (rewrite EX; apply turn_bound; assumption).
    assert (BY : Rabs Y <= Rabs s * W + Rabs c * H) by (rewrite EY, <- (Rabs_Ropp s); apply turn_bound; assumption).
    assert (SW : 2 * (Rabs s * H + Rabs c * W) <= IZR w').
    { rewrite <- E2, minus_IZR. match goal with |- _ <= IZR (rceil ?p) - IZR (rfloor ?q) => pose proof (rceil_ge p); pose proof (rfloor_le q) end. unfold W, H in *. lra. }
    assert (SH : 2 * (Rabs s * W + Rabs c * H) <= IZR h').
    { rewrite <- E1, minus_IZR. match goal with |- _ <= IZR (rceil ?p) - IZR (rfloor ?q) => pose proof (rceil_ge p); pose proof (rfloor_le q) end. unfold W, H in *. lra. }
    assert (RX : - (IZR w' / 2) <= X <= IZR w' / 2) by (pose proof (Rle_abs X) as R1; pose proof (Rle_abs (- X)) as R2; rewrite Rabs_Ropp in R2; lra).
    assert (RY : - (IZR h' / 2) <= Y <= IZR h' / 2) by (pose proof (Rle_abs Y) as R1; pose proof (Rle_abs (- Y)) as R2; rewrite Rabs_Ropp in R2; lra).
    unfold X, Y in RX, RY. split; cbn; lra.
  Qed.

  (** *** one transform *)
  Definition good (t : transform) (d : draw) i i' (F G : mat) : Prop :=
    step F G i i' /\ (is_perspective (t, d) = false -> affine F /\ affine G) /\
    (adds_nothing t d (im_h i) (im_w i) -> stays G i i') /\ (loses_nothing t d (im_h i) (im_w i) -> grows G i i').
  Ltac affs := repeat apply affine_mmul; repeat split; unfold affine; cbn; try ring; try lra.

  Lemma resize_good edge both mx d i i' M : nonempty i -> nonempty i' -> tv_apply lstsq (Resize edge both mx) d i = Some i' ->
    exists F G, apply_transform lstsq (Resize edge both mx) d M (im_h i, im_w i) = Some (mmul F M, (im_h i', im_w i')) /\ good (Resize edge both mx) d i i' F G.
  Proof.
    intros [N1 N2] [N3 N4]. cbn [tv_apply apply_transform]. destruct (compute_resized _ _ _ _) as [[h w]|]; [|discriminate]. intros [= <-]. cbn in N3, N4.
    do 2 eexists. split; [reflexivity|]. split; [apply resize_step; assumption|]. split; [intros _; split; affs|]. split; intros _; [apply resize_stays|apply resize_grows]; assumption.
  Qed.
  Lemma rrc_good sz sc ratio d i i' M : nonempty i -> nonempty i' -> supported lstsq (RandomResizedCrop sz sc ratio) d i -> tv_apply lstsq (RandomResizedCrop sz sc ratio) d i = Some i' ->
    exists F G, apply_transform lstsq (RandomResizedCrop sz sc ratio) d M (im_h i, im_w i) = Some (mmul F M, (im_h i', im_w i')) /\ good (RandomResizedCrop sz sc ratio) d i i' F G.
  Proof.
    intros [N1 N2] [N3 N4]. destruct sz as [sh sw]. destruct d as [| | | |att di dj|]; try discriminate. cbn [tv_apply apply_transform supported].
    destruct (get_params ratio (im_h i, im_w i) att di dj) as [[[top lft] h] w] eqn:EP. intros [S1 S2] [= <-]. cbn in N3, N4.
    pose proof (crop_step i top lft h w) as C. pose proof (@resize_step A (tv_crop top lft h w i) sh sw S1 S2 N3 N4) as RS. cbn [im_h im_w tv_crop resample] in RS.
    pose proof (@resize_stays A (tv_crop top lft h w i) sh sw S1 S2 N3 N4) as RT. cbn [im_h im_w tv_crop resample] in RT.
    do 2 eexists. split; [rewrite <- mmul_assoc; reflexivity|]. split; [eapply step_trans; eassumption|]. split; [intros _; split; affs|]. split; [|intros []].
    cbn [adds_nothing]. rewrite EP. intros (B1 & B2 & B3 & B4). eapply stays_trans; [|exact RT]; apply crop_stays; assumption.
  Qed.
  Lemma hflip_good d i i' M : tv_apply lstsq RandomHorizontalFlip d i = Some i' ->
    exists F G, apply_transform lstsq RandomHorizontalFlip d M (im_h i, im_w i) = Some (mmul F M, (im_h i', im_w i')) /\ good RandomHorizontalFlip d i i' F G.
  Proof.
    destruct d as [|b| | | |]; try discriminate. cbn [tv_apply apply_transform]. intros [= <-]. destruct b.
    - do 2 eexists. split; [rewrite <- mmul_assoc; reflexivity|]. split; [apply hflip_step|]. split; [intros _; split; affs|]. split; intros _; [apply hflip_stays|apply hflip_grows].
    - exists eye, eye. rewrite mmul_eye_l. split; [reflexivity|]. split; [split; [apply inverse_eye|apply exact_eye]|]. split; [intros _; split; affs|]. split; intros _; [apply stays_eye|apply eye_grows].
  Qed.
  Lemma vflip_good d i i' M : tv_apply lstsq RandomVerticalFlip d i = Some i' ->
    exists F G, apply_transform lstsq RandomVerticalFlip d M (im_h i, im_w i) = Some (mmul F M, (im_h i', im_w i')) /\ good RandomVerticalFlip d i i' F G.
  Proof.
    destruct d as [|b| | | |]; try discriminate. cbn [tv_apply apply_transform]. intros [= <-]. destruct b.
    - do 2 eexists. split; [rewrite <- mmul_assoc; reflexivity|]. split; [apply vflip_step|]. split; [intros _; split; affs|]. split; intros _; [apply vflip_stays|apply vflip_grows].
    - exists eye, eye. rewrite mmul_eye_l. split; [reflexivity|]. split; [split; [apply inverse_eye|apply exact_eye]|]. split; [intros _; split; affs|]. split; intros _; [apply stays_eye|apply eye_grows].
  Qed.
  Lemma rot_good e d i i' M : nonempty i -> tv_apply lstsq (RandomRotation e) d i = Some i' ->
    exists F G, apply_transform lstsq (RandomRotation e) d M (im_h i, im_w i) = Some (mmul F M, (im_h i', im_w i')) /\ good (RandomRotation e) d i i' F G.
  Proof.
    intros [N1 N2]. destruct d as [| |deg| | |]; try discriminate. cbn [tv_apply apply_transform]. intros [= <-]. unfold tv_rotate. fold (rads deg). set (a := rads deg).
    destruct e.
    - destruct (turned_size a (im_h i) (im_w i)) as [h' w'] eqn:ES. pose proof ES as ES'. rewrite turned_size_eq in ES' by lia. injection ES' as E1 E2. rewrite E1, E2.
      exists (f_rot a (im_h i) (im_w i) h' w'), (g_rot a (im_h i) (im_w i) h' w'). split; [reflexivity|]. split; [apply rot_step|]. split; [intros _; split; affs|]. split; [intros []|intros _].
      apply rot_grows; [lia|lia|exact ES].
    - exists (f_rot a (im_h i) (im_w i) (im_h i) (im_w i)), (g_rot a (im_h i) (im_w i) (im_h i) (im_w i)). split; [reflexivity|]. split; [apply rot_step|]. split; [intros _; split; affs|]. split; intros [].
  Qed.
  Lemma crop_good sz pad padding d i i' M : nonempty i -> supported lstsq (RandomCrop sz pad padding) d i -> tv_apply lstsq (RandomCrop sz pad padding) d i = Some i' ->
    exists F G, apply_transform lstsq (RandomCrop sz pad padding) d M (im_h i, im_w i) = Some (mmul F M, (im_h i', im_w i')) /\ good (RandomCrop sz pad padding) d i i' F G.
  Proof.
    intros [N1 N2] ->. destruct sz as [th tw]. destruct d as [| | |di dj| |]; try discriminate. cbn [tv_apply apply_transform]. unfold tv_random_crop. cbn zeta.
    (* padding the width *)
    assert (P1 : exists F G i2, (if pad && (im_w i <? tw)%Z then tv_pad (tw - im_w i) 0 (tw - im_w i) 0 i else i) = i2 /\ step F G i i2 /\ grows G i i2 /\ affine F /\ affine G /\ im_h i2 = im_h i /\
      (if pad && (im_w i <? tw)%Z then (mmul (translate (IZR (tw - im_w i)) 0) M, (im_w i + 2 * (tw - im_w i))%Z) else (M, im_w i)) = (mmul F M, im_w i2) /\ ((tw <= im_w i)%Z -> i2 = i /\ G = eye)).
    { destruct (pad && (im_w i <? tw)%Z) eqn:EP.
      - apply andb_true_iff in EP as [_ EP]. apply Z.ltb_lt in EP. do 3 eexists. split; [reflexivity|]. split; [apply pad_step|]. split; [apply pad_grows; lia|]. split; [affs|]. split; [affs|].
        split; [cbn; lia|]. split; [f_equal; cbn [im_w im_h tv_pad resample]; lia|]. intros; lia.
      - exists eye, eye, i. rewrite mmul_eye_l. split; [reflexivity|]. split; [split; [apply inverse_eye|apply exact_eye]|]. split; [apply eye_grows|]. split; [apply affine_eye|]. split; [apply affine_eye|]. split; [reflexivity|]. split; [rewrite ?H1; reflexivity|]. auto. }
    destruct P1 as (F1 & G1 & i2 & -> & ST1 & GR1 & A1 & B1 & H1 & -> & K1).
    assert (P2 : exists F G i3, (if pad && (im_h i2 <? th)%Z then tv_pad 0 (th - im_h i2) 0 (th - im_h i2) i2 else i2) = i3 /\ step F G i2 i3 /\ grows G i2 i3 /\ affine F /\ affine G /\ im_w i3 = im_w i2 /\
      (if pad && (im_h i <? th)%Z then (mmul (translate 0 (IZR (th - im_h i))) (mmul F1 M), (im_h i + 2 * (th - im_h i))%Z) else (mmul F1 M, im_h i)) = (mmul F (mmul F1 M), im_h i3) /\ ((th <= im_h i)%Z -> i3 = i2 /\ G = eye)).
    { rewrite H1. destruct (pad && (im_h i <? th)%Z) eqn:EP.
      - apply andb_true_iff in EP as [_ EP]. apply Z.ltb_lt in EP. do 3 eexists. split; [reflexivity|]. split; [apply pad_step|]. split; [apply pad_grows; lia|]. split; [affs|]. split; [affs|].
        split; [cbn; lia|]. split; [f_equal; cbn [im_w im_h tv_pad resample]; lia|]. intros; lia.
      - exists eye, eye, i2. rewrite mmul_eye_l. split; [reflexivity|]. split; [split; [apply inverse_eye|apply exact_eye]|]. split; [apply eye_grows|]. split; [apply affine_eye|]. split; [apply affine_eye|]. split; [reflexivity|]. split; [rewrite ?H1; reflexivity|]. auto. }
    destruct P2 as (F2 & G2 & i3 & -> & ST2 & GR2 & A2 & B2 & W3 & -> & K2). rewrite <- W3.
    destruct ((im_h i3 <? th)%Z || (im_w i3 <? tw)%Z) eqn:EL; [discriminate|]. apply orb_false_iff in EL as [L1 L2]. apply Z.ltb_ge in L1, L2.
    set (off := if ((im_w i3 =? tw)%Z && (im_h i3 =? th)%Z) then (0, 0)%Z else (di, dj)).
    intros E. assert (EI : i' = tv_crop (fst off) (snd off) th tw i3) by (unfold off; destruct ((im_w i3 =? tw)%Z && (im_h i3 =? th)%Z); injection E as <-; reflexivity).
    pose proof (crop_step i3 (fst off) (snd off) th tw) as ST3. rewrite <- EI in ST3.
    pose proof (step_trans_grows _ _ _ _ _ _ _ B2 ST2 GR2 ST3) as ST23. pose proof (step_trans_grows _ _ _ _ _ _ _ B1 ST1 GR1 ST23) as ST.
    exists (mmul (mmul (translate (- IZR (snd off)) (- IZR (fst off))) F2) F1), (mmul G1 (mmul G2 (g_crop (fst off) (snd off)))). split.
    { assert (ES : (if pad then (th, tw) else (Z.min th (im_h i3), Z.min tw (im_w i3))) = (im_h i', im_w i')) by (rewrite EI; cbn; destruct pad; [reflexivity|f_equal; lia]).
      rewrite ES. rewrite !mmul_assoc. do 2 f_equal. unfold off. destruct ((im_w i3 =? tw)%Z && (im_h i3 =? th)%Z); cbn [fst snd]; [|reflexivity].
      replace (translate (- IZR 0) (- IZR 0)) with eye by (apply mat_ext; cbn; ring). rewrite mmul_eye_l. reflexivity. }
    split; [exact ST|]. split; [intros _; split; affs; first [apply A1|apply A2|apply B1|apply B2]|]. split; [|intros []].
    cbn [adds_nothing]. intros [[D1 D2] [D3 D4]]. destruct K1 as [-> ->]; [lia|]. destruct K2 as [-> ->]; [lia|]. rewrite !mmul_eye_l, EI.
    apply crop_stays; unfold off; destruct ((im_w i =? tw)%Z && (im_h i =? th)%Z); cbn; lia.
  Qed.
  Lemma center_good sz d i i' M : nonempty i -> supported lstsq (CenterCrop sz) d i -> tv_apply lstsq (CenterCrop sz) d i = Some i' ->
    exists F G, apply_transform lstsq (CenterCrop sz) d M (im_h i, im_w i) = Some (mmul F M, (im_h i', im_w i')) /\ good (CenterCrop sz) d i i' F G.
  Proof.
    intros [N1 N2]. destruct sz as [th tw]. cbn [tv_apply apply_transform supported]. intros [S1 S2] [= <-]. unfold tv_center_crop. cbn zeta.
    set (dx := Z.max 0 (tw - im_w i)). set (dy := Z.max 0 (th - im_h i)). set (ip := tv_pad (dx / 2) (dy / 2) ((dx + 1) / 2) ((dy + 1) / 2) i).
    assert (HX : (0 <= dx / 2)%Z /\ (dx / 2 + (dx + 1) / 2 = dx)%Z).
    { assert (0 <= dx)%Z by (unfold dx; lia). split; [apply Z.div_pos; lia|]. pose proof (Z.div_mod dx 2 ltac:(lia)). pose proof (Z.div_mod (dx + 1) 2 ltac:(lia)).
      pose proof (Z.mod_pos_bound dx 2 ltac:(lia)). pose proof (Z.mod_pos_bound (dx + 1) 2 ltac:(lia)). lia. }
    assert (HY : (0 <= dy / 2)%Z /\ (dy / 2 + (dy + 1) / 2 = dy)%Z).
    { assert (0 <= dy)%Z by (unfold dy; lia). split; [apply Z.div_pos; lia|]. pose proof (Z.div_mod dy 2 ltac:(lia)). pose proof (Z.div_mod (dy + 1) 2 ltac:(lia)).
      pose proof (Z.mod_pos_bound dy 2 ltac:(lia)). pose proof (Z.mod_pos_bound (dy + 1) 2 ltac:(lia)). lia. }
    assert (PH : im_h ip = (im_h i + dy)%Z) by (unfold ip, tv_pad; cbn; lia). assert (PW : im_w ip = (im_w i + dx)%Z) by (unfold ip, tv_pad; cbn; lia).
    set (top := pyround (IZR (im_h ip - th) / 2)). set (lft := pyround (IZR (im_w ip - tw) / 2)).
    assert (ST1 : step (translate (IZR (dx / 2)) (IZR (dy / 2))) (translate (- IZR (dx / 2)) (- IZR (dy / 2))) i ip) by apply pad_step.
    assert (GR1 : grows (translate (- IZR (dx / 2)) (- IZR (dy / 2))) i ip) by (apply pad_grows; apply Z.div_pos; unfold dx, dy; lia).
    pose proof (crop_step ip top lft th tw) as ST2.
    assert (B1 : affine (translate (- IZR (dx / 2)) (- IZR (dy / 2)))) by affs.
    pose proof (step_trans_grows _ _ _ _ _ _ _ B1 ST1 GR1 ST2) as ST.
    assert (EX : pyround (IZR (tw - im_w i) / 2) = (dx / 2 - lft)%Z).
    { unfold lft. rewrite PW, !pyround_half. unfold dx. destruct (Z.le_gt_cases tw (im_w i)) as [L|L].
      - rewrite Z.max_l by lia. replace (im_w i + 0 - tw)%Z with (- (tw - im_w i))%Z by lia. rewrite half_opp. change (0 / 2)%Z with 0%Z. lia.
      - rewrite Z.max_r by lia. replace (im_w i + (tw - im_w i) - tw)%Z with 0%Z by lia. rewrite half_0, Z.sub_0_r. apply half_pad. destruct S2; [lia|assumption]. }
    assert (EY : pyround (IZR (th - im_h i) / 2) = (dy / 2 - top)%Z).
    { unfold top. rewrite PH, !pyround_half. unfold dy. destruct (Z.le_gt_cases th (im_h i)) as [L|L].
      - rewrite Z.max_l by lia. replace (im_h i + 0 - th)%Z with (- (th - im_h i))%Z by lia. rewrite half_opp. change (0 / 2)%Z with 0%Z. lia.
      - rewrite Z.max_r by lia. replace (im_h i + (th - im_h i) - th)%Z with 0%Z by lia. rewrite half_0, Z.sub_0_r. apply half_pad. destruct S1; [lia|assumption]. }
    exists (mmul (translate (- IZR lft) (- IZR top)) (translate (IZR (dx / 2)) (IZR (dy / 2)))), (mmul (translate (- IZR (dx / 2)) (- IZR (dy / 2))) (g_crop top lft)). split.
    { rewrite EX, EY, !minus_IZR. cbn [im_h im_w tv_crop resample]. f_equal. f_equal. f_equal. apply mat_ext; cbn; ring. }
    split; [exact ST|]. split; [intros _; split; affs|]. cbn [adds_nothing loses_nothing]. split; intros [L1 L2].
    - assert (dx = 0%Z) by (unfold dx; lia). assert (dy = 0%Z) by (unfold dy; lia).
      intros x y [[X1 X2] [Y1 Y2]]. cbn in X2, Y2. rewrite at_point_affine by affs. do 2 eexists. split; [reflexivity|]. cbn.
      assert (HT : (0 <= top /\ top + th <= im_h i)%Z) by (unfold top; rewrite pyround_half, PH; unfold half; pose proof (Z.div_mod (im_h i + dy - th) 2 ltac:(lia)); pose proof (Z.mod_pos_bound (im_h i + dy - th) 2 ltac:(lia)); pose proof (Zmod_even (im_h i + dy - th)); destruct (Z.even (im_h i + dy - th)); [lia|]; destruct (Z.even ((im_h i + dy - th) / 2)); lia).
      assert (HL : (0 <= lft /\ lft + tw <= im_w i)%Z) by (unfold lft; rewrite pyround_half, PW; unfold half; pose proof (Z.div_mod (im_w i + dx - tw) 2 ltac:(lia)); pose proof (Z.mod_pos_bound (im_w i + dx - tw) 2 ltac:(lia)); pose proof (Zmod_even (im_w i + dx - tw)); destruct (Z.even (im_w i + dx - tw)); [lia|]; destruct (Z.even ((im_w i + dx - tw) / 2)); lia).
      destruct HT as [T1 T2], HL as [L3 L4]. apply IZR_le in T1, T2, L3, L4. rewrite plus_IZR in T2, L4.
      assert (D0 : (dx / 2)%Z = 0%Z) by (rewrite H; reflexivity). assert (D1 : (dy / 2)%Z = 0%Z) by (rewrite H0; reflexivity). rewrite D0, D1. split; lra.
    - assert (ETL : top = 0%Z /\ lft = 0%Z).
      { split; [unfold top; rewrite PH|unfold lft; rewrite PW]; [replace (im_h i + dy - th)%Z with 0%Z by (unfold dy; lia)|replace (im_w i + dx - tw)%Z with 0%Z by (unfold dx; lia)]; rewrite pyround_half; reflexivity. }
      destruct ETL as [-> ->]. apply grows_trans with (i1 := ip); [intros; apply affine_total; affs|exact GR1|].
      replace th with (im_h ip) by (rewrite PH; unfold dy; lia). replace tw with (im_w ip) by (rewrite PW; unfold dx; lia). apply crop_all_grows.
  Qed.
  Lemma perspective_good d i i' M : supported lstsq RandomPerspective d i -> tv_apply lstsq RandomPerspective d i = Some i' ->
    exists F G, apply_transform lstsq RandomPerspective d M (im_h i, im_w i) = Some (mmul F M, (im_h i', im_w i')) /\ good RandomPerspective d i i' F G.
  Proof.
    destruct d as [| | | | |[[s e]|]]; try discriminate; cbn [tv_apply apply_transform supported].
    - intros (GP & M1 & M2) [= <-]. destruct (homography_back _ _ _ _ GP M1 M2) as (k & K & E). do 2 eexists. split; [reflexivity|].
      split; [eapply perspective_step; [exact K|exact E]|]. split; [discriminate|]. split; intros [].
    - intros _ [= <-]. exists eye, eye. rewrite mmul_eye_l. split; [reflexivity|]. split; [split; [apply inverse_eye|apply exact_eye]|]. split; [intros _; split; affs|]. split; intros _; [apply stays_eye|apply eye_grows].
  Qed.
  Lemma one_good t d i i' M : nonempty i -> nonempty i' -> supported lstsq t d i -> tv_apply lstsq t d i = Some i' ->
    exists F G, apply_transform lstsq t d M (im_h i, im_w i) = Some (mmul F M, (im_h i', im_w i')) /\ good t d i i' F G.
  Proof.
    intros N N' S E. destruct t; [eapply resize_good|eapply rrc_good|eapply hflip_good|eapply vflip_good|eapply rot_good|eapply crop_good|eapply perspective_good|eapply center_good]; eauto.
  Qed.

  (** *** all of them *)
  Lemma all_nonempty ts i : all_supported lstsq ts i -> nonempty i.
  Proof. destruct ts as [|[t d] ts]; intros [H _]; exact H. Qed.
  Theorem merge_good ts : forall i i' M, all_supported lstsq ts i -> one_by_one lstsq ts i = Some i' ->
    exists F G, merge lstsq ts M (im_h i, im_w i) = Some (mmul F M, (im_h i', im_w i')) /\ inverse F G /\ shows G i i' /\
      (existsb is_perspective ts = false -> affine F /\ affine G) /\
      (only_adding_nothing lstsq ts i -> exact G i i' /\ stays G i i') /\
      (existsb is_perspective ts = false -> orderly lstsq ts i -> exact G i i').
  Proof.
    induction ts as [|[t d] ts IH]; intros i i' M HS E.
    - injection E as <-. exists eye, eye. cbn. rewrite mmul_eye_l. split; [reflexivity|]. split; [apply inverse_eye|]. split; [apply exact_shows, exact_eye|].
      split; [intros _; split; apply affine_eye|]. split; [intros _; split; [apply exact_eye|apply stays_eye]|intros _ _; apply exact_eye].
    - cbn [one_by_one] in E. destruct HS as [N [S HS]]. destruct (tv_apply lstsq t d i) as [i1|] eqn:E1; [|discriminate]. specialize (HS _ eq_refl).
      destruct (one_good _ _ _ _ M N (all_nonempty _ _ HS) S E1) as (F1 & G1 & EA & [I1 X1] & AF1 & ST1 & GR1).
      destruct (IH i1 i' (mmul F1 M) HS E) as (F2 & G2 & EM & I2 & SH2 & AF2 & AD2 & OR2).
      exists (mmul F2 F1), (mmul G1 G2). cbn [merge]. rewrite EA, EM, mmul_assoc. split; [reflexivity|]. split; [apply inverse_mmul; assumption|].
      split; [eapply shows_trans; [apply exact_shows; exact X1|exact SH2]|].
      split.
      { cbn [existsb]. intros H. apply orb_false_iff in H as [H1 H2]. destruct (AF1 H1), (AF2 H2). split; apply affine_mmul; assumption. }
      split.
      { intros [AN AN2]. destruct (AD2 (AN2 _ E1)) as [X2 ST2]. split; [eapply exact_trans; eauto|eapply stays_trans; eauto]. }
      cbn [existsb]. intros H OR. apply orb_false_iff in H as [H1 H2]. destruct (AF1 H1) as [_ AG1]. destruct (OR _ E1) as [AN|[LN OR']].
      + destruct (AD2 AN) as [X2 ST2]. eapply exact_trans; eauto.
      + eapply exact_trans_grows; [exact X1|apply GR1; exact LN|apply OR2; assumption|]. intros x y. apply affine_none. exact AG1.
  Qed.

  (** *** PIL *)
  Lemma tiny_0 : tiny 0 = true.
  Proof. unfold tiny. rewrite Rabs_R0. destruct (Rle_dec _ _); [reflexivity|lra]. Qed.
  Lemma pil_affine F G : inverse F G -> affine F -> affine G -> exists b, pil_matrix F = Some b /\ forall x y, pil_point b x y = at_point G x y.
  Proof.
    intros HI HF HG. destruct (minv_inverse _ _ HI) as (k & K & E). destruct HG as (G1 & G2 & G3). unfold pil_matrix. rewrite E. cbn. rewrite G3.
    destruct (Req_EM_T (k * 1) 0) as [Z|Z]; [lra|]. eexists. split; [reflexivity|]. intros x y. rewrite at_point_affine by (repeat split; assumption).
    unfold pil_point. cbn. rewrite G1, G2. replace (/ (k * 1) * (k * 0)) with 0 by ring. rewrite tiny_0. cbn. do 2 f_equal; field; exact K.
  Qed.
  Lemma pil_general F G b : inverse F G -> pil_matrix F = Some b -> (tiny (m20 b) && tiny (m21 b) = true -> m20 b = 0 /\ m21 b = 0) ->
    forall x y, pil_point b x y = at_point G x y.
  Proof.
    intros HI E HT x y. destruct (minv_inverse _ _ HI) as (k & K & EI). unfold pil_matrix in E. rewrite EI in E.
    rewrite <- (at_point_scale k G x y K). set (c := mscale k G) in *. clearbody c. destruct (Req_EM_T (m22 c) 0) as [Z|Z]; [discriminate|]. injection E as Eb.
    assert (KI : / m22 c <> 0) by (apply Rinv_neq_0_compat; exact Z). rewrite <- (at_point_scale (/ m22 c) c x y KI). rewrite Eb.
    assert (B22 : m22 b = 1) by (rewrite <- Eb; cbn; field; exact Z). clear Eb.
    unfold pil_point, at_point. rewrite B22. destruct (tiny (m20 b) && tiny (m21 b)) eqn:T; [|reflexivity].
    destruct (HT eq_refl) as [-> ->]. replace (0 * x + 0 * y + 1) with 1 by ring. destruct (Req_EM_T 1 0); [lra|]. do 2 f_equal; field.
  Qed.
End Main.
