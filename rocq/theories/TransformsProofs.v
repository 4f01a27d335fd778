(** Proofs for C55. *)
From Coq Require Import ZArith List Bool Reals Lra Lia Psatz.
From Verif Require Import Transforms TransformsSpec.
Import ListNotations.
Local Open Scope R_scope.

(** *** matrices *)
Lemma mat_ext a b : m00 a = m00 b -> m01 a = m01 b -> m02 a = m02 b -> m10 a = m10 b -> m11 a = m11 b -> m12 a = m12 b ->
  m20 a = m20 b -> m21 a = m21 b -> m22 a = m22 b -> a = b.
Proof. destruct a, b; cbn; intros; subst; reflexivity. Qed.
Ltac mat_ring := apply mat_ext; cbn; ring.

Lemma mmul_assoc a b c : mmul (mmul a b) c = mmul a (mmul b c). Proof. mat_ring. Qed.
Lemma mmul_eye_r a : mmul a eye = a. Proof. mat_ring. Qed.
Lemma mmul_eye_l a : mmul eye a = a. Proof. mat_ring. Qed.
Lemma mmul_scale_l k a b : mmul (mscale k a) b = mscale k (mmul a b). Proof. mat_ring. Qed.
Lemma mmul_scale_r k a b : mmul a (mscale k b) = mscale k (mmul a b). Proof. mat_ring. Qed.
Lemma mscale_mscale k l a : mscale k (mscale l a) = mscale (k * l) a. Proof. mat_ring. Qed.
Lemma mscale_1 a : mscale 1 a = a. Proof. mat_ring. Qed.
Lemma det_mmul a b : det (mmul a b) = det a * det b. Proof. unfold det; cbn; ring. Qed.
Lemma det_kI k : det (mscale k eye) = k * k * k. Proof. unfold det; cbn; ring. Qed.
Lemma adj_l a : mmul (adj a) a = mscale (det a) eye. Proof. unfold det; mat_ring. Qed.
Lemma adj_r a : mmul a (adj a) = mscale (det a) eye. Proof. unfold det; mat_ring. Qed.

(** *** forward and backward maps *)
Definition inverse (F G : mat) : Prop := exists k, k <> 0 /\ mmul G F = mscale k eye /\ mmul F G = mscale k eye.
Lemma k3 k : k <> 0 -> k * k * k <> 0.
Proof. intros H. apply Rmult_integral_contrapositive_currified; [apply Rmult_integral_contrapositive_currified|]; exact H. Qed.
Lemma inverse_det F G : inverse F G -> det F <> 0 /\ det G <> 0.
Proof.
  intros (k & K & E & _). apply (f_equal det) in E. rewrite det_mmul, det_kI in E. apply k3 in K.
  split; intros Z; rewrite Z in E; apply K; rewrite <- E; ring.
Qed.
Lemma left_inverse F G k : k <> 0 -> mmul G F = mscale k eye -> mmul F G = mscale k eye.
Proof.
  intros K E. assert (D : det F <> 0).
  { intros Z. apply (f_equal det) in E. rewrite det_mmul, det_kI, Z in E. apply (k3 _ K). rewrite <- E. ring. }
  assert (HG : G = mscale (k / det F) (adj F)).
  { assert (X : mmul (mmul G F) (adj F) = mscale k (adj F)) by (rewrite E, mmul_scale_l, mmul_eye_l; reflexivity).
    rewrite mmul_assoc, adj_r, mmul_scale_r, mmul_eye_r in X. apply (f_equal (mscale (/ det F))) in X. rewrite !mscale_mscale in X.
    rewrite Rinv_l, mscale_1 in X by exact D. rewrite X. f_equal. unfold Rdiv. ring. }
  rewrite HG, mmul_scale_r, adj_r, mscale_mscale. f_equal. field. exact D.
Qed.
Lemma inverse_eye : inverse eye eye.
Proof. exists 1. split; [lra|]. rewrite mmul_eye_r, mscale_1. auto. Qed.
Lemma inverse_mmul F1 G1 F2 G2 : inverse F1 G1 -> inverse F2 G2 -> inverse (mmul F2 F1) (mmul G1 G2).
Proof.
  intros (k & K & E1 & E2) (l & L & E3 & E4). exists (k * l). split; [apply Rmult_integral_contrapositive_currified; assumption|]. split.
  - rewrite mmul_assoc, <- (mmul_assoc G2), E3, mmul_scale_l, mmul_eye_l, mmul_scale_r, E1, mscale_mscale. f_equal. ring.
  - rewrite mmul_assoc, <- (mmul_assoc F1), E2, mmul_scale_l, mmul_eye_l, mmul_scale_r, E4, mscale_mscale. reflexivity.
Qed.
Lemma minv_inverse F G : inverse F G -> exists k, k <> 0 /\ minv F = Some (mscale k G).
Proof.
  intros HI. destruct (inverse_det _ _ HI) as [D _]. destruct HI as (k & K & E1 & E2). exists (/ k). split; [apply Rinv_neq_0_compat; exact K|].
  unfold minv. destruct (Req_EM_T (det F) 0) as [Z|_]; [contradiction|]. f_equal.
  assert (X : mmul (mmul G F) (adj F) = mscale k (adj F)) by (rewrite E1, mmul_scale_l, mmul_eye_l; reflexivity).
  rewrite mmul_assoc, adj_r, mmul_scale_r, mmul_eye_r in X. apply (f_equal (mscale (/ k * / det F))) in X. rewrite !mscale_mscale in X.
  replace (/ k * / det F * det F) with (/ k) in X by (field; auto). replace (/ k * / det F * k) with (/ det F) in X by (field; auto). symmetry. exact X.
Qed.

Lemma at_point_scale k m x y : k <> 0 -> at_point (mscale k m) x y = at_point m x y.
Proof.
  intros K. unfold at_point. cbn. set (W := m20 m * x + m21 m * y + m22 m).
  replace (k * m20 m * x + k * m21 m * y + k * m22 m) with (k * W) by (unfold W; ring).
  destruct (Req_EM_T (k * W) 0) as [Z|Z], (Req_EM_T W 0) as [Z'|Z'].
  - reflexivity.
  - apply Rmult_integral in Z as [Z|Z]; contradiction.
  - rewrite Z' in Z. destruct Z. ring.
  - do 2 f_equal; field; auto.
Qed.
Lemma at_point_mmul a b x y u v : at_point b x y = Some (u, v) -> at_point (mmul a b) x y = at_point a u v.
Proof.
  unfold at_point. cbn. set (W := m20 b * x + m21 b * y + m22 b). set (X := m00 b * x + m01 b * y + m02 b). set (Y := m10 b * x + m11 b * y + m12 b).
  destruct (Req_EM_T W 0) as [|NW]; [discriminate|]. intros [= <- <-].
  set (W' := m20 a * (X / W) + m21 a * (Y / W) + m22 a).
  match goal with |- context [Req_EM_T ?e 0] => assert (EW : e = W * W') by (unfold W', X, Y; subst W; field; exact NW) end.
  rewrite EW. destruct (Req_EM_T (W * W') 0) as [Z|Z], (Req_EM_T W' 0) as [Z'|Z'].
  - reflexivity.
  - apply Rmult_integral in Z as [Z|Z]; contradiction.
  - rewrite Z' in Z. destruct Z. ring.
  - assert (DIV : forall n n', n = W * n' -> n / (W * W') = n' / W') by (intros n n' ->; clearbody W'; field; auto).
    do 2 f_equal; apply DIV; unfold X, Y; subst W; field; exact NW.
Qed.
Definition affine (m : mat) : Prop := m20 m = 0 /\ m21 m = 0 /\ m22 m = 1.
Lemma affine_mmul a b : affine a -> affine b -> affine (mmul a b).
Proof. intros (A1 & A2 & A3) (B1 & B2 & B3). unfold affine. cbn. rewrite A1, A2, A3, B1, B2, B3. repeat split; ring. Qed.
Lemma affine_eye : affine eye. Proof. repeat split. Qed.
Lemma at_point_affine m x y : affine m -> at_point m x y = Some (m00 m * x + m01 m * y + m02 m, m10 m * x + m11 m * y + m12 m).
Proof.
  intros (E1 & E2 & E3). unfold at_point. rewrite E1, E2, E3. replace (0 * x + 0 * y + 1) with 1 by ring.
  destruct (Req_EM_T 1 0) as [Z|_]; [lra|]. do 2 f_equal; field.
Qed.

(** *** showing *)
Section Images.
  Context {A : Type}.
  Implicit Types i : image A.
  (** [i'] shows exactly what [i] has at the points given by G *)
  Definition exact (G : mat) i i' : Prop :=
    forall x y, inside (im_h i') (im_w i') x y -> look i' x y = match at_point G x y with Some (u, v) => look i u v | None => None end.
  Definition shows (G : mat) i i' : Prop :=
    forall x y c, look i' x y = Some c -> exists u v, at_point G x y = Some (u, v) /\ look i u v = Some c.
  Definition stays (G : mat) i i' : Prop :=
    forall x y, inside (im_h i') (im_w i') x y -> exists u v, at_point G x y = Some (u, v) /\ inside (im_h i) (im_w i) u v.

  Lemma look_inside i x y c : look i x y = Some c -> inside (im_h i) (im_w i) x y.
  Proof. unfold look. destruct (inside_dec _ _ x y); [auto|discriminate]. Qed.
  Lemma exact_shows G i i' : exact G i i' -> shows G i i'.
  Proof.
    intros H x y c E. rewrite (H x y (look_inside _ _ _ _ E)) in E. destruct (at_point G x y) as [[u v]|]; [|discriminate]. eauto.
  Qed.
  Lemma shows_trans G1 G2 i i1 i2 : shows G1 i i1 -> shows G2 i1 i2 -> shows (mmul G1 G2) i i2.
  Proof.
    intros H1 H2 x y c E. destruct (H2 x y c E) as (u & v & E1 & E2). destruct (H1 u v c E2) as (u' & v' & E3 & E4).
    exists u', v'. split; [|exact E4]. rewrite (at_point_mmul _ _ _ _ _ _ E1). exact E3.
  Qed.
  Lemma exact_trans G1 G2 i i1 i2 : exact G1 i i1 -> exact G2 i1 i2 -> stays G2 i1 i2 -> exact (mmul G1 G2) i i2.
  Proof.
    intros H1 H2 H3 x y I. destruct (H3 x y I) as (u & v & E & I'). rewrite (H2 x y I), E, (at_point_mmul _ _ _ _ _ _ E). apply H1. exact I'.
  Qed.
  Lemma stays_trans G1 G2 i i1 i2 : stays G1 i i1 -> stays G2 i1 i2 -> stays (mmul G1 G2) i i2.
  Proof.
    intros H1 H2 x y I. destruct (H2 x y I) as (u & v & E & I'). destruct (H1 u v I') as (u' & v' & E' & I''). exists u', v'. split; [|exact I''].
    rewrite (at_point_mmul _ _ _ _ _ _ E). exact E'.
  Qed.
  Lemma resample_exact h w back G i : (forall x y, back x y = at_point G x y) -> exact G i (resample h w back i).
  Proof. intros H x y I. unfold look at 1. cbn. destruct (inside_dec h w x y) as [_|N]; [rewrite H; reflexivity|contradiction]. Qed.
  Lemma exact_eye i : exact eye i i.
  Proof. intros x y I. rewrite at_point_affine by apply affine_eye. cbn. f_equal; ring. Qed.
  Lemma stays_eye i : stays eye i i.
  Proof. intros x y I. rewrite at_point_affine by apply affine_eye. cbn. do 2 eexists. split; [reflexivity|]. replace (1 * x + 0 * y + 0) with x by ring. replace (0 * x + 1 * y + 0) with y by ring. exact I. Qed.

  (** a step of the loop: matrix F, backward matrix G *)
  Definition step (F G : mat) i i' : Prop := inverse F G /\ exact G i i'.
  Lemma step_of F G k i h w back : k <> 0 -> mmul G F = mscale k eye -> (forall x y, back x y = at_point G x y) -> step F G i (resample h w back i).
  Proof. intros K E HB. split; [exists k; split; [exact K|split; [exact E|apply left_inverse; assumption]]|apply resample_exact; exact HB]. Qed.
End Images.

(** *** the operations *)
Lemma IZR_pos z : (0 < z)%Z -> 0 < IZR z. Proof. apply IZR_lt. Qed.
Ltac aff := intros; rewrite at_point_affine by (repeat split; reflexivity); cbn; do 2 f_equal.
Section Ops.
  Context {A : Type}.
  Implicit Types i : image A.

  Definition g_resize (h w h' w' : Z) : mat := scale (IZR w / IZR w') (IZR h / IZR h').
  Lemma resize_step i h w : (0 < im_h i)%Z -> (0 < im_w i)%Z -> (0 < h)%Z -> (0 < w)%Z ->
    step (scale (IZR w / IZR (im_w i)) (IZR h / IZR (im_h i))) (g_resize (im_h i) (im_w i) h w) i (tv_resize h w i).
  Proof.
    intros H1 H2 H3 H4. apply IZR_pos in H1, H2, H3, H4. apply step_of with (k := 1); [lra| |].
    - apply mat_ext; cbn; field; repeat split; lra.
    - aff; field; lra.
  Qed.
  Lemma resize_stays i h w : (0 < im_h i)%Z -> (0 < im_w i)%Z -> (0 < h)%Z -> (0 < w)%Z -> stays (g_resize (im_h i) (im_w i) h w) i (tv_resize h w i).
  Proof.
    intros H1 H2 H3 H4. apply IZR_pos in H1, H2, H3, H4. intros x y [[X1 X2] [Y1 Y2]]. cbn in X2, Y2. rewrite at_point_affine by (repeat split).
    cbn. do 2 eexists. split; [reflexivity|].
    assert (B : forall a b t, 0 < a -> 0 < b -> 0 <= t <= b -> 0 <= a / b * t <= a).
    { intros a b t Ha Hb [T1 T2]. assert (P : 0 < a / b) by (apply Rdiv_lt_0_compat; assumption). split; [apply Rmult_le_pos; lra|].
      replace a with (a / b * b) at 2 by (field; lra). apply Rmult_le_compat_l; lra. }
    pose proof (B _ _ x H2 H4 (conj X1 X2)). pose proof (B _ _ y H1 H3 (conj Y1 Y2)). split; lra.
  Qed.

  Definition g_crop (top lft : Z) : mat := translate (IZR lft) (IZR top).
  Lemma crop_step i top lft h w : step (translate (- IZR lft) (- IZR top)) (g_crop top lft) i (tv_crop top lft h w i).
  Proof. apply step_of with (k := 1); [lra|mat_ring|aff; ring]. Qed.
  Lemma crop_stays i top lft h w : (0 <= top)%Z -> (0 <= lft)%Z -> (top + h <= im_h i)%Z -> (lft + w <= im_w i)%Z ->
    stays (g_crop top lft) i (tv_crop top lft h w i).
  Proof.
    intros H1 H2 H3 H4 x y [[X1 X2] [Y1 Y2]]. cbn in X2, Y2. rewrite at_point_affine by (repeat split). cbn. do 2 eexists. split; [reflexivity|].
    apply IZR_le in H1, H2, H3, H4. rewrite plus_IZR in H3, H4. split; lra.
  Qed.
  Lemma pad_step i a b c d : step (translate (IZR a) (IZR b)) (translate (- IZR a) (- IZR b)) i (tv_pad a b c d i).
  Proof. apply step_of with (k := 1); [lra|mat_ring|aff; ring]. Qed.

  Definition g_hflip (w : Z) : mat := Mat (-1) 0 (IZR w) 0 1 0 0 0 1.
  Lemma hflip_step i : step (mmul (translate (IZR (im_w i)) 0) hflip) (g_hflip (im_w i)) i (tv_hflip i).
  Proof. apply step_of with (k := 1); [lra|mat_ring|aff; ring]. Qed.
  Lemma hflip_stays i : stays (g_hflip (im_w i)) i (tv_hflip i).
  Proof. intros x y [[X1 X2] [Y1 Y2]]. cbn in X2, Y2. rewrite at_point_affine by (repeat split). cbn. do 2 eexists. split; [reflexivity|]. split; lra. Qed.
  Definition g_vflip (h : Z) : mat := Mat 1 0 0 0 (-1) (IZR h) 0 0 1.
  Lemma vflip_step i : step (mmul (translate 0 (IZR (im_h i))) vflip) (g_vflip (im_h i)) i (tv_vflip i).
  Proof. apply step_of with (k := 1); [lra|mat_ring|aff; ring]. Qed.
  Lemma vflip_stays i : stays (g_vflip (im_h i)) i (tv_vflip i).
  Proof. intros x y [[X1 X2] [Y1 Y2]]. cbn in X2, Y2. rewrite at_point_affine by (repeat split). cbn. do 2 eexists. split; [reflexivity|]. split; lra. Qed.

  Definition f_rot (a : R) (h w h' w' : Z) : mat :=
    mmul (mmul (translate (IZR w' / 2) (IZR h' / 2)) (rotate a)) (translate (- IZR w / 2) (- IZR h / 2)).
  Definition g_rot (a : R) (h w h' w' : Z) : mat :=
    mmul (mmul (translate (IZR w / 2) (IZR h / 2)) (rotate (- a))) (translate (- IZR w' / 2) (- IZR h' / 2)).
  Lemma rot_step i a h' w' : step (f_rot a (im_h i) (im_w i) h' w') (g_rot a (im_h i) (im_w i) h' w') i
    (resample h' w' (fun x y => let (u, v) := ccw (- a) (x - IZR w' / 2) (y - IZR h' / 2) in Some (u + IZR (im_w i) / 2, v + IZR (im_h i) / 2)) i).
  Proof.
    pose proof (sin2_cos2 a) as SC. unfold Rsqr in SC. apply step_of with (k := 1); [lra| |].
    - unfold f_rot, g_rot, rotate. rewrite cos_neg, sin_neg. apply mat_ext; cbn; try ring; try (ring_simplify; replace (sin a ^ 2) with (1 - cos a ^ 2) by (cbn; lra); field).
    - intros x y. rewrite at_point_affine by (unfold affine, g_rot, rotate; cbn; repeat split; ring).
      unfold ccw, g_rot, rotate. rewrite cos_neg, sin_neg. cbn. do 2 f_equal; field.
  Qed.

  Lemma max4_corners p q : max4 (p + q) (p - q) (- p + q) (- p - q) = Rabs p + Rabs q.
  Proof.
    unfold max4, Rmax, Rabs. destruct (Rcase_abs p), (Rcase_abs q);
      repeat match goal with |- context [Rle_dec ?a ?b] => lazymatch a with context [Rle_dec] => fail | _ => lazymatch b with context [Rle_dec] => fail | _ => destruct (Rle_dec a b) end end end; lra.
  Qed.
  Lemma min4_corners p q : min4 (p + q) (p - q) (- p + q) (- p - q) = - (Rabs p + Rabs q).
  Proof.
    unfold min4, Rmin, Rabs. destruct (Rcase_abs p), (Rcase_abs q);
      repeat match goal with |- context [Rle_dec ?a ?b] => lazymatch a with context [Rle_dec] => fail | _ => lazymatch b with context [Rle_dec] => fail | _ => destruct (Rle_dec a b) end end end; lra.
  Qed.
  Lemma turned_size_eq a h w : (0 <= h)%Z -> (0 <= w)%Z -> turned_size a h w =
    ((rceil (IZR h / 2 + (Rabs (sin a) * IZR w + Rabs (cos a) * IZR h) / 2) - rfloor (IZR h / 2 - (Rabs (sin a) * IZR w + Rabs (cos a) * IZR h) / 2))%Z,
     (rceil (IZR w / 2 + (Rabs (sin a) * IZR h + Rabs (cos a) * IZR w) / 2) - rfloor (IZR w / 2 - (Rabs (sin a) * IZR h + Rabs (cos a) * IZR w) / 2))%Z).
  Proof.
    intros Hh Hw. apply IZR_le in Hh, Hw. unfold turned_size, ccw. cbn [fst snd]. set (W := IZR w / 2). set (H := IZR h / 2).
    assert (W0 : 0 <= W) by (unfold W; lra). assert (H0 : 0 <= H) by (unfold H; lra).
    set (c := cos a). set (s := sin a).
    assert (X1 : max4 (1 * W * c + 1 * H * s) (1 * W * c + -1 * H * s) (-1 * W * c + 1 * H * s) (-1 * W * c + -1 * H * s) = Rabs s * H + Rabs c * W).
    { transitivity (max4 (W * c + H * s) (W * c - H * s) (- (W * c) + H * s) (- (W * c) - H * s)); [f_equal; ring|].
      rewrite max4_corners, !Rabs_mult, (Rabs_pos_eq W), (Rabs_pos_eq H) by assumption. ring. }
    assert (X2 : min4 (1 * W * c + 1 * H * s) (1 * W * c + -1 * H * s) (-1 * W * c + 1 * H * s) (-1 * W * c + -1 * H * s) = - (Rabs s * H + Rabs c * W)).
    { transitivity (min4 (W * c + H * s) (W * c - H * s) (- (W * c) + H * s) (- (W * c) - H * s)); [f_equal; ring|].
      rewrite min4_corners, !Rabs_mult, (Rabs_pos_eq W), (Rabs_pos_eq H) by assumption. ring. }
    assert (Y1 : max4 (1 * H * c - 1 * W * s) (-1 * H * c - 1 * W * s) (1 * H * c - -1 * W * s) (-1 * H * c - -1 * W * s) = Rabs s * W + Rabs c * H).
    { transitivity (max4 (- (W * s) + H * c) (- (W * s) - H * c) (- - (W * s) + H * c) (- - (W * s) - H * c)); [f_equal; ring|].
      rewrite max4_corners, Rabs_Ropp, !Rabs_mult, (Rabs_pos_eq W), (Rabs_pos_eq H) by assumption. ring. }
    assert (Y2 : min4 (1 * H * c - 1 * W * s) (-1 * H * c - 1 * W * s) (1 * H * c - -1 * W * s) (-1 * H * c - -1 * W * s) = - (Rabs s * W + Rabs c * H)).
    { transitivity (min4 (- (W * s) + H * c) (- (W * s) - H * c) (- - (W * s) + H * c) (- - (W * s) - H * c)); [f_equal; ring|].
      rewrite min4_corners, Rabs_Ropp, !Rabs_mult, (Rabs_pos_eq W), (Rabs_pos_eq H) by assumption. ring. }
    rewrite X1, X2, Y1, Y2. unfold W, H. do 2 f_equal; f_equal; field.
  Qed.

  (** perspective *)
  Lemma perspective_step i P Q k : k <> 0 -> mmul Q P = mscale k eye -> step P Q i (tv_perspective Q i).
  Proof. intros K E. apply step_of with (k := k); auto. Qed.
End Ops.

(** *** homographies: four points determine them *)
(** the homogeneous coordinates of p are multiplied by l *)
Definition fixes (n : mat) (l : R) (p : R * R) : Prop :=
  m00 n * fst p + m01 n * snd p + m02 n = l * fst p /\ m10 n * fst p + m11 n * snd p + m12 n = l * snd p /\ m20 n * fst p + m21 n * snd p + m22 n = l.

Lemma row_zero a b c p1 p2 p3 : det3 p1 p2 p3 <> 0 -> a * fst p1 + b * snd p1 + c = 0 -> a * fst p2 + b * snd p2 + c = 0 -> a * fst p3 + b * snd p3 + c = 0 ->
  a = 0 /\ b = 0 /\ c = 0.
Proof.
  destruct p1 as [x1 y1], p2 as [x2 y2], p3 as [x3 y3]. unfold det3. cbn [fst snd]. intros D E1 E2 E3.
  assert (C : forall t, t * (x1 * (y2 - y3) - y1 * (x2 - x3) + (x2 * y3 - x3 * y2)) = 0 -> t = 0) by (intros t T; apply Rmult_integral in T as [T|T]; [exact T|contradiction]).
  assert (A0 : a = 0).
  { apply C. transitivity ((a * x1 + b * y1 + c) * (y2 - y3) - (a * x2 + b * y2 + c) * (y1 - y3) + (a * x3 + b * y3 + c) * (y1 - y2)); [ring|rewrite E1, E2, E3; ring]. }
  assert (B0 : b = 0).
  { apply C. transitivity (- ((a * x1 + b * y1 + c) * (x2 - x3) - (a * x2 + b * y2 + c) * (x1 - x3) + (a * x3 + b * y3 + c) * (x1 - x2))); [ring|rewrite E1, E2, E3; ring]. }
  subst. repeat split; auto. lra.
Qed.

Ltac lin F := apply Rminus_diag_eq in F; etransitivity; [|exact F]; ring.
Lemma fixes_scalar n l1 l2 l3 l4 p1 p2 p3 p4 : general_position (p1, p2, p3, p4) -> fixes n l1 p1 -> fixes n l2 p2 -> fixes n l3 p3 -> fixes n l4 p4 ->
  n = mscale l4 eye.
Proof.
  intros (D0 & D1 & D2 & D3) F1 F2 F3 F4.
  (* D0 * p4 = D1 * p1 + D2 * p2 + D3 * p3 *)
  set (d0 := det3 p1 p2 p3) in *. set (d1 := det3 p4 p2 p3) in *. set (d2 := det3 p1 p4 p3) in *. set (d3 := det3 p1 p2 p4) in *.
  assert (Kx : d0 * fst p4 = d1 * fst p1 + d2 * fst p2 + d3 * fst p3) by (unfold d0, d1, d2, d3, det3; ring).
  assert (Ky : d0 * snd p4 = d1 * snd p1 + d2 * snd p2 + d3 * snd p3) by (unfold d0, d1, d2, d3, det3; ring).
  assert (K1 : d0 = d1 + d2 + d3) by (unfold d0, d1, d2, d3, det3; ring).
  set (z1 := d1 * (l1 - l4)). set (z2 := d2 * (l2 - l4)). set (z3 := d3 * (l3 - l4)).
  destruct F1 as (F1x & F1y & F1w), F2 as (F2x & F2y & F2w), F3 as (F3x & F3y & F3w), F4 as (F4x & F4y & F4w).
  assert (Zx : z1 * fst p1 + z2 * fst p2 + z3 * fst p3 = 0).
  { transitivity (d1 * (l1 * fst p1) + d2 * (l2 * fst p2) + d3 * (l3 * fst p3) - l4 * (d1 * fst p1 + d2 * fst p2 + d3 * fst p3)); [unfold z1, z2, z3; ring|].
    rewrite <- F1x, <- F2x, <- F3x, <- Kx. transitivity (m00 n * (d1 * fst p1 + d2 * fst p2 + d3 * fst p3) + m01 n * (d1 * snd p1 + d2 * snd p2 + d3 * snd p3) + m02 n * (d1 + d2 + d3) - d0 * (l4 * fst p4)); [ring|].
    rewrite <- Kx, <- Ky, <- K1, <- F4x. ring. }
  assert (Zy : z1 * snd p1 + z2 * snd p2 + z3 * snd p3 = 0).
  { transitivity (d1 * (l1 * snd p1) + d2 * (l2 * snd p2) + d3 * (l3 * snd p3) - l4 * (d1 * snd p1 + d2 * snd p2 + d3 * snd p3)); [unfold z1, z2, z3; ring|].
    rewrite <- F1y, <- F2y, <- F3y, <- Ky. transitivity (m10 n * (d1 * fst p1 + d2 * fst p2 + d3 * fst p3) + m11 n * (d1 * snd p1 + d2 * snd p2 + d3 * snd p3) + m12 n * (d1 + d2 + d3) - d0 * (l4 * snd p4)); [ring|].
    rewrite <- Kx, <- Ky, <- K1, <- F4y. ring. }
  assert (Zw : z1 + z2 + z3 = 0).
  { transitivity (d1 * l1 + d2 * l2 + d3 * l3 - l4 * (d1 + d2 + d3)); [unfold z1, z2, z3; ring|]. rewrite <- K1.
    transitivity (d1 * l1 + d2 * l2 + d3 * l3 - d0 * l4); [ring|]. rewrite <- F1w, <- F2w, <- F3w, <- F4w.
    transitivity (m20 n * (d1 * fst p1 + d2 * fst p2 + d3 * fst p3 - d0 * fst p4) + m21 n * (d1 * snd p1 + d2 * snd p2 + d3 * snd p3 - d0 * snd p4) + m22 n * (d1 + d2 + d3 - d0)); [ring|].
    rewrite Kx, Ky, K1. ring. }
  assert (C : forall t u, u <> 0 -> t * u = 0 -> t = 0) by (intros t u U T; apply Rmult_integral in T as [T|T]; [exact T|contradiction]).
  assert (Z1 : z1 = 0).
  { apply (C _ d0 D0). unfold d0, det3. transitivity ((z1 * fst p1 + z2 * fst p2 + z3 * fst p3) * (snd p2 - snd p3) - (z1 * snd p1 + z2 * snd p2 + z3 * snd p3) * (fst p2 - fst p3) + (z1 + z2 + z3) * (fst p2 * snd p3 - fst p3 * snd p2)); [ring|].
    rewrite Zx, Zy, Zw. ring. }
  assert (Z2 : z2 = 0).
  { apply (C _ d0 D0). unfold d0, det3. transitivity ((z1 * fst p1 + z2 * fst p2 + z3 * fst p3) * (snd p3 - snd p1) - (z1 * snd p1 + z2 * snd p2 + z3 * snd p3) * (fst p3 - fst p1) + (z1 + z2 + z3) * (fst p3 * snd p1 - fst p1 * snd p3)); [ring|].
    rewrite Zx, Zy, Zw. ring. }
  assert (Z3 : z3 = 0) by lra.
  assert (L1 : l1 = l4) by (unfold z1 in Z1; rewrite Rmult_comm in Z1; apply (C _ d1 D1) in Z1; lra).
  assert (L2 : l2 = l4) by (unfold z2 in Z2; rewrite Rmult_comm in Z2; apply (C _ d2 D2) in Z2; lra).
  assert (L3 : l3 = l4) by (unfold z3 in Z3; rewrite Rmult_comm in Z3; apply (C _ d3 D3) in Z3; lra).
  clear z1 z2 z3 Zx Zy Zw Z1 Z2 Z3. rewrite L1 in F1x, F1y, F1w. rewrite L2 in F2x, F2y, F2w. rewrite L3 in F3x, F3y, F3w.
  destruct (row_zero (m00 n - l4) (m01 n) (m02 n) p1 p2 p3 D0) as (A1 & A2 & A3); [lin F1x|lin F2x|lin F3x|].
  destruct (row_zero (m10 n) (m11 n - l4) (m12 n) p1 p2 p3 D0) as (B1 & B2 & B3); [lin F1y|lin F2y|lin F3y|].
  destruct (row_zero (m20 n) (m21 n) (m22 n - l4) p1 p2 p3 D0) as (C1 & C2 & C3); [lin F1w|lin F2w|lin F3w|].
  apply mat_ext; cbn; lra.
Qed.
Lemma maps_back P Q p q : maps P p q -> maps Q q p -> exists l, l <> 0 /\ fixes (mmul Q P) l p.
Proof.
  unfold maps, fixes. set (W := m20 P * fst p + m21 P * snd p + m22 P). set (V := m20 Q * fst q + m21 Q * snd q + m22 Q).
  intros (W0 & P1 & P2) (V0 & Q1 & Q2). exists (W * V). split; [apply Rmult_integral_contrapositive_currified; assumption|]. cbn.
  repeat split.
  - transitivity (m00 Q * (m00 P * fst p + m01 P * snd p + m02 P) + m01 Q * (m10 P * fst p + m11 P * snd p + m12 P) + m02 Q * W); [unfold W; ring|].
    rewrite P1, P2. transitivity (W * (m00 Q * fst q + m01 Q * snd q + m02 Q)); [ring|]. rewrite Q1. ring.
  - transitivity (m10 Q * (m00 P * fst p + m01 P * snd p + m02 P) + m11 Q * (m10 P * fst p + m11 P * snd p + m12 P) + m12 Q * W); [unfold W; ring|].
    rewrite P1, P2. transitivity (W * (m10 Q * fst q + m11 Q * snd q + m12 Q)); [ring|]. rewrite Q2. ring.
  - transitivity (m20 Q * (m00 P * fst p + m01 P * snd p + m02 P) + m21 Q * (m10 P * fst p + m11 P * snd p + m12 P) + m22 Q * W); [unfold W; ring|].
    rewrite P1, P2. unfold V. ring.
Qed.
Lemma homography_back P Q s e : general_position s -> maps4 P s e -> maps4 Q e s -> exists k, k <> 0 /\ mmul Q P = mscale k eye.
Proof.
  destruct s as [[[s1 s2] s3] s4], e as [[[e1 e2] e3] e4]. intros GP (P1 & P2 & P3 & P4) (Q1 & Q2 & Q3 & Q4).
  destruct (maps_back _ _ _ _ P1 Q1) as (l1 & _ & F1), (maps_back _ _ _ _ P2 Q2) as (l2 & _ & F2), (maps_back _ _ _ _ P3 Q3) as (l3 & _ & F3), (maps_back _ _ _ _ P4 Q4) as (l4 & L4 & F4).
  exists l4. split; [exact L4|]. eapply fixes_scalar; eauto.
Qed.

(** *** rounding *)
Lemma Int_part_uniq r z : IZR z <= r < IZR z + 1 -> Int_part r = z.
Proof.
  intros [H1 H2]. destruct (base_Int_part r) as [B1 B2]. apply Z.le_antisymm; apply Z.lt_succ_r; apply lt_IZR; rewrite succ_IZR; lra.
Qed.
Lemma Int_part_IZR_half n : Int_part (IZR n / 2) = (n / 2)%Z.
Proof.
  apply Int_part_uniq. pose proof (Z.div_mod n 2 ltac:(lia)) as E. pose proof (Z.mod_pos_bound n 2 ltac:(lia)) as B.
  assert (E' : IZR n = 2 * IZR (n / 2) + IZR (n mod 2)) by (rewrite <- mult_IZR, <- plus_IZR; f_equal; exact E).
  assert (B1 : 0 <= IZR (n mod 2)) by (apply IZR_le; lia). assert (B2 : IZR (n mod 2) <= 1) by (apply IZR_le; lia). lra.
Qed.
(** round(n / 2) *)
Definition half (n : Z) : Z := (if Z.even n then n / 2 else if Z.even (n / 2) then n / 2 else n / 2 + 1)%Z.
Lemma pyround_half n : pyround (IZR n / 2) = half n.
Proof.
  unfold pyround, half. rewrite Int_part_IZR_half. pose proof (Z.div_mod n 2 ltac:(lia)) as E.
  assert (E' : IZR n = 2 * IZR (n / 2) + IZR (n mod 2)) by (rewrite <- mult_IZR, <- plus_IZR; f_equal; exact E).
  pose proof (Zmod_even n) as M. destruct (Z.even n).
  - rewrite M in E'. destruct (Rlt_dec _ _) as [_|N]; [reflexivity|]. destruct N. lra.
  - rewrite M in E'. destruct (Rlt_dec _ _) as [N|_]; [lra|]. destruct (Rlt_dec _ _) as [N|_]; [lra|]. reflexivity.
Qed.
Lemma half_opp n : half (- n) = (- half n)%Z.
Proof.
  unfold half. rewrite Z.even_opp. pose proof (Z.div_mod n 2 ltac:(lia)) as E. pose proof (Z.div_mod (- n) 2 ltac:(lia)) as E'.
  pose proof (Zmod_even n) as M. pose proof (Zmod_even (- n)) as M'. rewrite Z.even_opp in M'. destruct (Z.even n); [lia|].
  assert (Q : (- n / 2 = - (n / 2) - 1)%Z) by lia. rewrite Q. replace (- (n / 2) - 1)%Z with (- (n / 2 + 1))%Z by lia. rewrite Z.even_opp, Z.even_add.
  destruct (Z.even (n / 2)); cbn; lia.
Qed.
Lemma half_pad n : (n mod 4 <> 3)%Z -> half n = (n / 2)%Z.
Proof.
  intros H. unfold half. destruct (Z.even n) eqn:E1; [reflexivity|]. destruct (Z.even (n / 2)) eqn:E2; [reflexivity|]. destruct H.
  pose proof (Zmod_even n) as M. rewrite E1 in M. pose proof (Zmod_even (n / 2)) as M'. rewrite E2 in M'.
  pose proof (Z.div_mod n 2 ltac:(lia)). pose proof (Z.div_mod (n / 2) 2 ltac:(lia)).
  symmetry. apply Z.mod_unique with (q := (n / 2 / 2)%Z); lia.
Qed.
Lemma half_0 : half 0 = 0%Z. Proof. reflexivity. Qed.
Lemma pyround_spec x : x - 1 / 2 <= IZR (pyround x) <= x + 1 / 2.
Proof.
  unfold pyround. destruct (base_Int_part x) as [B1 B2]. destruct (Rlt_dec _ _) as [N|N].
  - lra.
  - destruct (Rlt_dec _ _) as [N'|N']; [rewrite plus_IZR; lra|]. destruct (Z.even _); [|rewrite plus_IZR]; lra.
Qed.
Lemma pyround_le x n : x <= IZR n -> (pyround x <= n)%Z.
Proof.
  intros H. pose proof (pyround_spec x) as S.  apply Z.lt_succ_r. apply lt_IZR. rewrite succ_IZR. lra.
Qed.
Lemma pyround_ge x n : IZR n <= x -> (n <= pyround x)%Z.
Proof.
  intros H. pose proof (pyround_spec x) as S.  apply Z.lt_succ_r. apply lt_IZR. rewrite succ_IZR. lra.
Qed.
