(** Property C55: MergeTransform shows the same picture as the torchvision transforms one by one. *)
From Coq Require Import ZArith List Bool Reals Lra Lia Psatz.
From Verif Require Import Transforms TransformsSpec TransformsProofs TransformsMain.
Import ListNotations.
Local Open Scope R_scope.

(** without perspective: the merged image has the same size and shows everything the transforms one by one show *)
Theorem C55_same_picture_partial : forall A lstsq ts (i i' : image A), all_supported lstsq ts i -> existsb is_perspective ts = false ->
  one_by_one lstsq ts i = Some i' ->
  exists o, merged lstsq ts i = Some o /\ im_h o = im_h i' /\ im_w o = im_w i' /\ forall x y c, look i' x y = Some c -> look o x y = Some c.
Proof.
  intros A lstsq ts i i' HS HP E. destruct (merge_good lstsq ts i i' eye HS E) as (F & G & EM & HI & SH & AF & _). destruct (AF HP) as [AFF AFG].
  destruct (pil_affine F G HI AFF AFG) as (b & EB & HB). unfold merged. rewrite EM, mmul_eye_r, EB. eexists. split; [reflexivity|]. split; [reflexivity|]. split; [reflexivity|].
  intros x y c L. destruct (SH x y c L) as (u & v & EP & EL). unfold look at 1. cbn. destruct (inside_dec _ _ x y) as [_|N]; [|destruct N; eapply look_inside; exact L].
  rewrite HB, EP. exact EL.
Qed.
Print Assumptions C55_same_picture_partial.

(** ... and nothing else, if first come transforms that lose nothing, then any one, then transforms that add nothing *)
Theorem C55_exactly : forall A lstsq ts (i i' : image A), all_supported lstsq ts i -> existsb is_perspective ts = false ->
  one_by_one lstsq ts i = Some i' -> orderly lstsq ts i ->
  exists o, merged lstsq ts i = Some o /\ im_h o = im_h i' /\ im_w o = im_w i' /\ forall x y, look o x y = look i' x y.
Proof.
  intros A lstsq ts i i' HS HP E OR. destruct (merge_good lstsq ts i i' eye HS E) as (F & G & EM & HI & _ & AF & _ & EX). destruct (AF HP) as [AFF AFG].
  destruct (pil_affine F G HI AFF AFG) as (b & EB & HB). unfold merged. rewrite EM, mmul_eye_r, EB. eexists. split; [reflexivity|]. split; [reflexivity|]. split; [reflexivity|].
  intros x y. unfold look at 1. cbn. destruct (inside_dec _ _ x y) as [I|N].
  - rewrite (EX HP OR x y I), HB. reflexivity.
  - unfold look. destruct (inside_dec _ _ x y); [contradiction|reflexivity].
Qed.
Print Assumptions C55_exactly.

(** with perspective: the same where there is a merged image and no division is skipped because of very small coefficients *)
Definition no_tiny lstsq (ts : list (transform * draw)) (h w : Z) : Prop :=
  forall m s b, merge lstsq ts eye (h, w) = Some (m, s) -> pil_matrix m = Some b -> tiny (m20 b) && tiny (m21 b) = true -> m20 b = 0 /\ m21 b = 0.
Theorem C55_perspective_partial : forall A lstsq ts (i i' o : image A), all_supported lstsq ts i -> no_tiny lstsq ts (im_h i) (im_w i) ->
  one_by_one lstsq ts i = Some i' -> merged lstsq ts i = Some o ->
  im_h o = im_h i' /\ im_w o = im_w i' /\ (forall x y c, look i' x y = Some c -> look o x y = Some c) /\
  (forall td ts', ts = td :: ts' -> (forall i1, tv_apply lstsq (fst td) (snd td) i = Some i1 -> only_adding_nothing lstsq ts' i1) -> forall x y, look o x y = look i' x y).
Proof.
  intros A lstsq ts i i' o HS HT E EO. destruct (merge_good lstsq ts i i' eye HS E) as (F & G & EM & HI & SH & _ & _). unfold merged in EO. rewrite EM, mmul_eye_r in EO.
  destruct (pil_matrix F) as [b|] eqn:EB; [|discriminate]. injection EO as <-. rewrite mmul_eye_r in EM. pose proof (pil_general F G b HI EB (HT _ _ _ EM EB)) as HB. split; [reflexivity|]. split; [reflexivity|]. split.
  - intros x y c L. destruct (SH x y c L) as (u & v & EP & EL). unfold look at 1. cbn. destruct (inside_dec _ _ x y) as [_|N]; [|destruct N; eapply look_inside; exact L].
    rewrite HB, EP. exact EL.
  - intros [t d] ts' -> HO x y. cbn [fst snd] in HO. cbn [one_by_one] in E. destruct HS as [N [S HS]]. destruct (tv_apply lstsq t d i) as [i1|] eqn:E1; [|discriminate]. specialize (HS _ eq_refl).
    destruct (one_good lstsq t d i i1 eye N (all_nonempty _ _ _ HS) S E1) as (F1 & G1 & EA & [I1 X1] & _).
    destruct (merge_good lstsq ts' i1 i' (mmul F1 eye) HS E) as (F2 & G2 & EM2 & I2 & _ & _ & AD2 & _). destruct (AD2 (HO _ eq_refl)) as [X2 ST2].
    assert (EF : F = mmul F2 F1) by (cbn [merge] in EM; rewrite EA, EM2, mmul_eye_r in EM; injection EM as <-; reflexivity).
    pose proof (exact_trans _ _ _ _ _ X1 X2 ST2) as X. assert (HI' : inverse F (mmul G1 G2)) by (rewrite EF; apply inverse_mmul; assumption).
    pose proof (pil_general F _ b HI' EB (HT _ _ _ EM EB)) as HB'. unfold look at 1. cbn. destruct (inside_dec _ _ x y) as [I|NI].
    + rewrite (X x y I), HB'. reflexivity.
    + unfold look. destruct (inside_dec _ _ x y); [contradiction|reflexivity].
Qed.
Print Assumptions C55_perspective_partial.

(** *** where the pictures differ *)
Ltac sz := cbn; repeat split; try lia; try discriminate.
Definition plain (h w : Z) : image nat := mkImage h w (fun _ _ => Some 0%nat).
Lemma look_plain h w x y : inside h w x y -> look (plain h w) x y = Some 0%nat.
Proof. intros I. unfold look. cbn. destruct (inside_dec h w x y); [reflexivity|contradiction]. Qed.
Lemma look_out {A} (i : image A) x y : ~ inside (im_h i) (im_w i) x y -> look i x y = None.
Proof. intros I. unfold look. destruct (inside_dec _ _ x y); [contradiction|reflexivity]. Qed.
Lemma look_in {A} h w back (i : image A) x y : inside h w x y -> look (resample h w back i) x y = match back x y with Some (u, v) => look i u v | None => None end.
Proof. intros I. unfold look at 1. cbn. destruct (inside_dec _ _ x y); [reflexivity|contradiction]. Qed.

(** merged translations *)
Lemma merged_translate {A} lstsq ts (i : image A) a b m h w : merge lstsq ts eye (im_h i, im_w i) = Some (m, (h, w)) -> m = translate a b ->
  exists o, merged lstsq ts i = Some o /\ im_h o = h /\ im_w o = w /\ forall x y, inside h w x y -> look o x y = look i (x - a) (y - b).
Proof.
  intros E ->. assert (HI : inverse (translate a b) (translate (- a) (- b))) by (exists 1; split; [lra|split; mat_ring]).
  destruct (pil_affine _ _ HI) as (B & EB & HB); [repeat split|repeat split|]. unfold merged. rewrite E, EB. eexists. split; [reflexivity|]. split; [reflexivity|]. split; [reflexivity|].
  intros x y I. rewrite look_in by exact I. rewrite HB, at_point_affine by (repeat split). cbn. f_equal; ring.
Qed.

(** a crop followed by a larger centre crop: one by one the surroundings are filled, merged they show what was cut off *)
Theorem C55_cut_off_shown_refuted : forall lstsq, exists ts (i i' o : image nat) x y, all_supported lstsq ts i /\ existsb is_perspective ts = false /\
  one_by_one lstsq ts i = Some i' /\ merged lstsq ts i = Some o /\ look i' x y = None /\ look o x y = Some 0%nat.
Proof.
  intros lstsq. set (ts := [(RandomCrop (2, 2)%Z false None, DOffset 0 0); (CenterCrop (4, 4)%Z, DNone)]). set (i := plain 4 4).
  assert (HS : all_supported lstsq ts i).
  { split; [sz|]. split; [reflexivity|]. intros i1 [= <-]. split; [sz|]. split; [sz; right; discriminate|]. intros i2 [= <-]. sz. }
  assert (E : one_by_one lstsq ts i = Some (tv_center_crop 4 4 (tv_crop 0 0 2 2 i))) by reflexivity.
  destruct (@merged_translate nat lstsq ts i (IZR 1) (IZR 1) (mmul (translate (IZR 1) (IZR 1)) (mmul (translate (- IZR 0) (- IZR 0)) eye)) 4 4) as (o & EO & _ & _ & HO).
  { cbn [merge ts apply_transform i plain im_h im_w andb]. cbn -[mmul translate eye pyround Rdiv IZR]. rewrite !(pyround_half 2). reflexivity. }
  { mat_ring. }
  exists ts, i, (tv_center_crop 4 4 (tv_crop 0 0 2 2 i)), o, (7 / 2), (7 / 2).
  split; [exact HS|]. split; [reflexivity|]. split; [exact E|]. split; [exact EO|]. split.
  - unfold tv_center_crop. cbn zeta. unfold tv_crop at 1. rewrite look_in by (split; lra). cbn [im_h im_w tv_pad resample tv_crop i plain]. 
    change (im_h (tv_pad (Z.max 0 (4 - 2) / 2) (Z.max 0 (4 - 2) / 2) ((Z.max 0 (4 - 2) + 1) / 2) ((Z.max 0 (4 - 2) + 1) / 2) (tv_crop 0 0 2 2 i)))%Z with 4%Z.
    rewrite !pyround_half. cbn -[look tv_pad IZR]. unfold tv_pad. rewrite look_in by (cbn; split; lra). apply look_out. cbn. intros [[_ X] _]. lra.
  - rewrite HO by (split; lra). apply look_plain. split; lra.
Qed.
Print Assumptions C55_cut_off_shown_refuted.

(** a centre crop that has to add three columns is off by one *)
Theorem C55_center_crop_refuted : forall lstsq, exists (i i' o : image nat) x y,
  nonempty i /\ one_by_one lstsq [(CenterCrop (4, 4)%Z, DNone)] i = Some i' /\ merged lstsq [(CenterCrop (4, 4)%Z, DNone)] i = Some o /\ look i' x y = Some 0%nat /\ look o x y = None.
Proof.
  intros lstsq. set (i := plain 4 1).
  destruct (@merged_translate nat lstsq [(CenterCrop (4, 4)%Z, DNone)] i (IZR 2) (IZR 0) (mmul (translate (IZR 2) (IZR 0)) eye) 4 4) as (o & EO & _ & _ & HO).
  { cbn [merge apply_transform i plain im_h im_w]. rewrite !pyround_half. reflexivity. }
  { mat_ring. }
  exists i, (tv_center_crop 4 4 i), o, (3 / 2), 2. split; [sz|]. split; [reflexivity|]. split; [exact EO|]. split.
  - unfold tv_center_crop. cbn zeta. unfold tv_crop. rewrite look_in by (split; lra). rewrite !pyround_half. cbn -[look tv_pad IZR]. unfold tv_pad. rewrite look_in by (cbn; split; lra).
    apply look_plain. cbn. split; lra.
  - rewrite HO by (split; lra). apply look_out. cbn. intros [[X _] _]. lra.
Qed.
Print Assumptions C55_center_crop_refuted.

(** the padding of RandomCrop is ignored *)
Theorem C55_padding_refuted : forall lstsq, exists (i i' : image nat), let ts := [(RandomCrop (4, 4)%Z false (Some 1%Z), DOffset 0 0)] in
  nonempty i /\ one_by_one lstsq ts i = Some i' /\ merged lstsq ts i = None.
Proof. intros lstsq. exists (plain 2 2). eexists. cbn zeta. split; [sz|]. split; reflexivity. Qed.
Print Assumptions C55_padding_refuted.

(** *** the box of RandomResizedCrop *)
(** it is inside the image if the offsets were drawn from the ranges asked for *)
Lemma try_boxes_ok att : forall height width h w, try_boxes height width att = Some (h, w) -> (0 < h <= height)%Z /\ (0 < w <= width)%Z.
Proof.
  induction att as [|[p a] att IH]; intros height width h w; cbn [try_boxes]; [discriminate|].
  destruct (_ && _ && _ && _)%Z eqn:E; [|apply IH]. intros [= <- <-]. rewrite !andb_true_iff, !Z.ltb_lt, !Z.leb_le in E. lia.
Qed.
Theorem C55_box_inside : forall ratio height width attempts i j top lft h w, (0 < height)%Z -> (0 < width)%Z -> 0 < fst ratio -> 0 < snd ratio ->
  get_params ratio (height, width) attempts i j = (top, lft, h, w) ->
  (forall h' w', try_boxes height width (firstn 10 attempts) = Some (h', w') -> (0 <= i <= height - h')%Z /\ (0 <= j <= width - w')%Z) ->
  (0 <= top)%Z /\ (0 <= lft)%Z /\ (top + h <= height)%Z /\ (lft + w <= width)%Z /\ (0 <= h)%Z /\ (0 <= w)%Z.
Proof.
  intros ratio height width att i j top lft h w Hh Hw R1 R2. unfold get_params. destruct (try_boxes height width (firstn 10 att)) as [[h' w']|] eqn:E.
  - intros [= <- <- <- <-] HR. specialize (HR _ _ eq_refl). apply try_boxes_ok in E. lia.
  - intros EQ _. set (lo := Rmin (fst ratio) (snd ratio)) in *. set (hi := Rmax (fst ratio) (snd ratio)) in *.
    assert (LO : 0 < lo) by (unfold lo, Rmin; destruct (Rle_dec _ _); assumption). assert (HI : 0 < hi) by (unfold hi, Rmax; destruct (Rle_dec _ _); assumption).
    pose proof (IZR_pos _ Hh) as Ph. pose proof (IZR_pos _ Hw) as Pw.
    assert (FIN : forall h' w', (0 <= h' <= height)%Z -> (0 <= w' <= width)%Z -> ((height - h') / 2, (width - w') / 2, h', w')%Z = (top, lft, h, w) ->
      (0 <= top)%Z /\ (0 <= lft)%Z /\ (top + h <= height)%Z /\ (lft + w <= width)%Z /\ (0 <= h)%Z /\ (0 <= w)%Z).
    { intros h' w' B1 B2 [= <- <- <- <-]. pose proof (Z.div_mod (height - h') 2 ltac:(lia)). pose proof (Z.div_mod (width - w') 2 ltac:(lia)).
      pose proof (Z.mod_pos_bound (height - h') 2 ltac:(lia)). pose proof (Z.mod_pos_bound (width - w') 2 ltac:(lia)). lia. }
    destruct (Rlt_dec (IZR width / IZR height) lo) as [L|L]; [|destruct (Rlt_dec hi (IZR width / IZR height)) as [L'|L']].
    + refine (FIN _ _ _ _ EQ); [|lia]. split.
      * apply pyround_ge. apply Rlt_le, Rdiv_lt_0_compat; lra.
      * apply pyround_le. apply Rmult_le_reg_r with lo; [exact LO|]. replace (IZR width / lo * lo) with (IZR width) by (field; lra).
        apply Rlt_le in L. apply (Rmult_le_compat_r (IZR height)) in L; [|lra]. replace (IZR width / IZR height * IZR height) with (IZR width) in L by (field; lra). lra.
    + refine (FIN _ _ _ _ EQ); [lia|]. split.
      * apply pyround_ge. apply Rlt_le, Rmult_lt_0_compat; lra.
      * apply pyround_le. apply Rlt_le in L'. apply (Rmult_le_compat_r (IZR height)) in L'; [|lra]. replace (IZR width / IZR height * IZR height) with (IZR width) in L' by (field; lra). lra.
    + refine (FIN _ _ _ _ EQ); lia.
Qed.
Print Assumptions C55_box_inside.

(** it can be empty: then there is no merged image (a division by zero) *)
Theorem C55_box_empty_refuted : forall i j, get_params (3, 4) (1, 1)%Z [] i j = (0, 0, 0, 1)%Z.
Proof.
  intros i j. unfold get_params. cbn [firstn try_boxes]. cbn [fst snd]. rewrite Rmin_left by lra. destruct (Rlt_dec (1 / 1) 3) as [L|L]; [|lra].
  assert (E : pyround (1 / 3) = 0%Z) by (apply Z.le_antisymm; [|apply pyround_ge; lra]; unfold pyround; assert (I0 : Int_part (1 / 3) = 0%Z) by (apply Int_part_uniq; lra); rewrite I0; destruct (Rlt_dec _ _); [lia|lra]).
  rewrite E. reflexivity.
Qed.
Print Assumptions C55_box_empty_refuted.

(** *** tensors *)
Definition pos (s : size) : Prop := (0 < fst s)%Z /\ (0 < snd s)%Z.
Definition norm_out (dst : size) : mat := mmul (translate (-1) (-1)) (scale (2 / IZR (snd dst)) (2 / IZR (fst dst))).
Definition norm_in (src : size) : mat := mmul (scale (IZR (snd src) / 2) (IZR (fst src) / 2)) (translate 1 1).
Lemma norm_inverse s : pos s -> inverse (norm_out s) (norm_in s) /\ inverse (norm_in s) (norm_out s).
Proof.
  intros [H1 H2]. apply IZR_pos in H1, H2. split; exists 1; (split; [lra|]); split; apply mat_ext; cbn; field; lra.
Qed.
Lemma torch_inverse F G src dst : pos src -> pos dst -> inverse F G ->
  exists k, k <> 0 /\ torch_matrix F src dst = Some (mscale k (mmul (norm_out src) (mmul G (norm_in dst)))).
Proof.
  intros Hs Hd HI. destruct (norm_inverse _ Hs) as [S1 S2], (norm_inverse _ Hd) as [D1 D2].
  assert (X : inverse (mmul (norm_out dst) (mmul F (norm_in src))) (mmul (norm_out src) (mmul G (norm_in dst)))).
  { rewrite <- (mmul_assoc (norm_out src)). apply inverse_mmul; [apply inverse_mmul; assumption|assumption]. }
  apply minv_inverse in X. unfold torch_matrix. unfold norm_out at 1, norm_in at 1 in X. rewrite !mmul_assoc in X. rewrite !mmul_assoc. exact X.
Qed.
Lemma norm_in_point dst x y : at_point (norm_in dst) x y = Some ((x + 1) * IZR (snd dst) / 2, (y + 1) * IZR (fst dst) / 2).
Proof. rewrite at_point_affine by (unfold affine; cbn; repeat split; ring). cbn. do 2 f_equal; field. Qed.
Lemma norm_out_point src u v : pos src -> exists g, at_point (norm_out src) u v = Some g /\ grid_sample src g = (u, v).
Proof.
  intros [H1 H2]. apply IZR_pos in H1, H2. rewrite at_point_affine by (unfold affine; cbn; repeat split; ring). eexists. split; [reflexivity|]. unfold grid_sample. cbn. f_equal; field; lra.
Qed.

Lemma minv_affine F G : inverse F G -> affine F -> affine G -> minv F = Some G.
Proof.
  intros HI (A1 & A2 & A3) (B1 & B2 & B3). destruct (minv_inverse F G HI) as (k & K & E). rewrite E. f_equal.
  assert (D : det F <> 0) by (apply (inverse_det F G HI)). unfold minv in E. destruct (Req_EM_T (det F) 0) as [Z|_]; [contradiction|]. injection E as _ _ _ _ _ _ _ _ E.
  assert (KD : k = 1).
  { rewrite B3, Rmult_1_r in E. rewrite <- E. apply Rmult_eq_reg_r with (det F); [|exact D]. transitivity (m00 F * m11 F - m01 F * m10 F); [field; exact D|].
    unfold det. rewrite A1, A2, A3. ring. }
  rewrite KD. apply mscale_1.
Qed.
Lemma torch_affine F G src dst i j : pos src -> pos dst -> inverse F G -> affine F -> affine G ->
  exists b, torch_matrix F src dst = Some b /\ at_point G (IZR j + 1 / 2) (IZR i + 1 / 2) = Some (torch_point b src dst i j).
Proof.
  intros Hs Hd HI AF AG. destruct (norm_inverse _ Hs) as [S1 S2], (norm_inverse _ Hd) as [D1 D2]. set (B := mmul (norm_out src) (mmul G (norm_in dst))).
  assert (AN : forall s, affine (norm_out s) /\ affine (norm_in s)) by (intros s; split; repeat apply affine_mmul; repeat split).
  assert (AB : affine B) by (unfold B; apply affine_mmul; [apply AN|apply affine_mmul; [exact AG|apply AN]]).
  exists B. split.
  { assert (X : inverse (mmul (norm_out dst) (mmul F (norm_in src))) B) by (unfold B; rewrite <- (mmul_assoc (norm_out src)); apply inverse_mmul; [apply inverse_mmul; assumption|assumption]).
    apply minv_affine in X; [|apply affine_mmul; [apply AN|apply affine_mmul; [exact AF|apply AN]]|exact AB]. unfold torch_matrix. rewrite <- X. unfold norm_out, norm_in. rewrite !mmul_assoc. reflexivity. }
  unfold torch_point. destruct AB as (B1 & B2 & B3). rewrite B1, B2, tiny_0. cbn [andb].
  set (x := (2 * IZR j + 1) / IZR (snd dst) - 1). set (y := (2 * IZR i + 1) / IZR (fst dst) - 1).
  assert (EN : at_point (norm_in dst) x y = Some (IZR j + 1 / 2, IZR i + 1 / 2)).
  { rewrite norm_in_point. destruct Hd as [H1 H2]. apply IZR_pos in H1, H2. unfold x, y. do 2 f_equal; field; lra. }
  destruct (at_point G (IZR j + 1 / 2) (IZR i + 1 / 2)) as [[u v]|] eqn:EG; [|rewrite at_point_affine in EG by exact AG; discriminate].
  destruct (norm_out_point src u v Hs) as (g & Eg & GS).
  assert (EB : at_point B x y = Some g) by (unfold B; rewrite <- mmul_assoc, (at_point_mmul _ _ _ _ _ _ EN), (at_point_mmul _ _ _ _ _ _ EG); exact Eg).
  rewrite at_point_affine in EB by (repeat split; assumption). apply (f_equal (fun o => match o with Some p => p | None => g end)) in EB; cbv beta iota in EB. cbv zeta. rewrite EB, GS. reflexivity.
Qed.

(** without perspective, what the transforms one by one show at the centre of a pixel is what the tensor has at the point sampled for it *)
Theorem C55_tensor_partial : forall A lstsq ts (im im' : image A), all_supported lstsq ts im -> existsb is_perspective ts = false ->
  one_by_one lstsq ts im = Some im' ->
  exists m b, merge lstsq ts eye (im_h im, im_w im) = Some (m, (im_h im', im_w im')) /\ torch_matrix m (im_h im, im_w im) (im_h im', im_w im') = Some b /\
    forall i j c, look im' (IZR j + 1 / 2) (IZR i + 1 / 2) = Some c ->
      let (u, v) := torch_point b (im_h im, im_w im) (im_h im', im_w im') i j in look im u v = Some c.
Proof.
  intros A lstsq ts im im' HS HP E. destruct (merge_good lstsq ts im im' eye HS E) as (F & G & EM & HI & SH & AF & _). destruct (AF HP) as [AFF AFG].
  rewrite mmul_eye_r in EM. assert (P1 : pos (im_h im, im_w im)) by (apply all_nonempty in HS; exact HS).
  assert (P2 : pos (im_h im', im_w im')).
  { clear - HS E. revert im HS E. induction ts as [|[t d] ts IH]; intros im HS E; [injection E as <-; apply all_nonempty in HS; exact HS|].
    cbn [one_by_one] in E. destruct HS as [_ [_ HS]]. destruct (tv_apply lstsq t d im) as [i1|] eqn:E1; [|discriminate]. eapply IH; eauto. }
  destruct (torch_affine F G (im_h im, im_w im) (im_h im', im_w im') 0 0 P1 P2 HI AFF AFG) as (b & EB & _). exists F, b. split; [exact EM|]. split; [exact EB|].
  intros i j c L. destruct (torch_affine F G (im_h im, im_w im) (im_h im', im_w im') i j P1 P2 HI AFF AFG) as (b' & EB' & EP). rewrite EB in EB'. injection EB' as <-.
  destruct (SH _ _ _ L) as (u & v & EU & EL). rewrite EU in EP. apply (f_equal (fun o => match o with Some p => p | None => (u, v) end)) in EP. cbv beta iota in EP. rewrite <- EP. exact EL.
Qed.
Print Assumptions C55_tensor_partial.

(** with perspective, the first pixel shows the corner of the picture instead of the point for its centre (linspace(-1, 1, n) is not
    where grid_sample has the centres of the pixels) *)
Lemma at_point_back F G x y u v : inverse F G -> at_point G x y = Some (u, v) -> at_point F u v = Some (x, y).
Proof.
  intros (k & K & _ & E) EG. rewrite <- (at_point_mmul F G _ _ _ _ EG), E, at_point_scale by exact K. rewrite at_point_affine by apply affine_eye. cbn. do 2 f_equal; ring.
Qed.
Theorem C55_tensor_perspective_refuted : forall F G src dst b u v, pos src -> (1 < fst dst)%Z -> (1 < snd dst)%Z -> inverse F G ->
  torch_matrix F src dst = Some b -> tiny (m20 b) && tiny (m21 b) = false -> at_point G 0 0 = Some (u, v) ->
  torch_point b src dst 0 0 = (u, v) /\ at_point G (1 / 2) (1 / 2) <> Some (torch_point b src dst 0 0).
Proof.
  intros F G src dst b u v Hs D1 D2 HI EB T EG. assert (Hd : pos dst) by (split; lia). destruct (torch_inverse F G src dst Hs Hd HI) as (k & K & E). rewrite EB in E. injection E as ->.
  set (B := mmul (norm_out src) (mmul G (norm_in dst))) in *.
  assert (EP : torch_point (mscale k B) src dst 0 0 = (u, v)).
  { unfold torch_point. rewrite T. set (x := -1 + 2 * 0 / IZR (snd dst - 1)). set (y := -1 + 2 * 0 / IZR (fst dst - 1)).
    assert (x = -1) as -> by (unfold x; field; apply not_0_IZR; lia). assert (y = -1) as -> by (unfold y; field; apply not_0_IZR; lia).
    assert (EN : at_point (norm_in dst) (-1) (-1) = Some (0, 0)) by (rewrite norm_in_point; do 2 f_equal; field).
    destruct (norm_out_point src u v Hs) as (g & Eg & GS).
    assert (EB' : at_point (mscale k B) (-1) (-1) = Some g) by (rewrite at_point_scale by exact K; unfold B; rewrite <- mmul_assoc, (at_point_mmul _ _ _ _ _ _ EN), (at_point_mmul _ _ _ _ _ _ EG); exact Eg).
    unfold at_point in EB'. cbv zeta in EB'. destruct (Req_EM_T _ 0) as [|NZ]; [discriminate|]. apply (f_equal (fun o => match o with Some p => p | None => g end)) in EB'; cbv beta iota in EB'. cbv zeta. rewrite EB'. exact GS. }
  split; [exact EP|]. rewrite EP. intros EH. apply (at_point_back F G _ _ _ _ HI) in EH. apply (at_point_back F G _ _ _ _ HI) in EG. rewrite EG in EH. injection EH as EH. lra.
Qed.
Print Assumptions C55_tensor_perspective_refuted.
(** there is such a perspective *)
Example C55_tensor_perspective_nonvacuous : exists F G b u v, inverse F G /\ torch_matrix F (2, 2)%Z (2, 2)%Z = Some b /\ tiny (m20 b) && tiny (m21 b) = false /\ at_point G 0 0 = Some (u, v).
Proof.
  set (F := Mat 1 0 0 0 1 0 1 0 1). set (G := Mat 1 0 0 0 1 0 (-1) 0 1).
  assert (HI : inverse F G) by (exists 1; split; [lra|split; mat_ring]). assert (P : pos (2, 2)%Z) by (split; cbn; lia).
  destruct (torch_inverse F G (2, 2)%Z (2, 2)%Z P P HI) as (k & K & E). exists F, G. do 3 eexists. split; [exact HI|]. split; [exact E|]. split.
  - assert (DN : exists M, torch_matrix F (2, 2)%Z (2, 2)%Z = minv M /\ det M = 1 /\ m20 (adj M) = -1).
    { eexists. split; [unfold torch_matrix; reflexivity|]. split; unfold det, adj; cbn; field. }
    destruct DN as (M & EM & DM & AM). rewrite EM in E. unfold minv in E. destruct (Req_EM_T (det M) 0) as [Z|_]; [lra|]. assert (E' : mscale (/ det M) (adj M) = mscale k (mmul (norm_out (2, 2)%Z) (mmul G (norm_in (2, 2)%Z)))) by congruence.
    rewrite <- E'. cbn [m20 mscale]. rewrite DM, AM. unfold tiny. destruct (Rle_dec (Rabs (/ 1 * -1)) _) as [L|L]; [|reflexivity]. exfalso. replace (/ 1 * -1) with (- (1)) in L by field. rewrite Rabs_Ropp, Rabs_R1 in L. lra.
  - unfold at_point. cbn. destruct (Req_EM_T _ 0) as [Z|_]; [lra|reflexivity].
Qed.

(** *** the common fill value and interpolation: all that is given must be equal *)
Theorem C55_common : forall A eqb (l : list (option A)), (forall x y : A, eqb x y = true <-> x = y) ->
  (common eqb None l <> None <-> forall x y, In (Some x) l -> In (Some y) l -> x = y) /\
  (forall r x, common eqb None l = Some r -> In (Some x) l -> r = Some x) /\ (common eqb None l = Some None -> forall x, ~ In (Some x) l).
Proof.
  intros A eqb l HE.
  assert (H : forall l f, (common eqb f l <> None <-> (forall x y, In (Some x) l -> (In (Some y) l \/ f = Some y) -> x = y)) /\
                          (forall r, common eqb f l = Some r -> (forall x, In (Some x) l \/ f = Some x -> r = Some x) /\ (r = None -> f = None /\ forall x, ~ In (Some x) l))).
  { clear l. induction l as [|[x|] l IH]; intros f; cbn [common].
    - split; [split; [intros _ x y []|discriminate]|]. intros r [= <-]. split; [intros x [[]|E]; exact E|]. intros ->. split; [reflexivity|intros x []].
    - destruct f as [y|].
      + destruct (eqb x y) eqn:EQ.
        * apply HE in EQ as ->. destruct (IH (Some y)) as [I1 I2]. split.
          { rewrite I1. split.
            - intros H a b [[= <-]|Ha] Hb.
              + destruct Hb as [[[= <-]|Hb]|[= <-]]; try reflexivity. symmetry. apply H; [exact Hb|right; reflexivity].
              + apply H; [exact Ha|]. destruct Hb as [[[= <-]|Hb]|[= <-]]; auto.
            - intros H a b Ha Hb. apply H; [right; exact Ha|]. destruct Hb as [Hb|Hb]; [left; right; exact Hb|right; exact Hb]. }
          { intros r Er. destruct (I2 r Er) as [J1 J2]. split; [|intros Hn; destruct (J2 Hn); discriminate]. intros a [[[= <-]|Ha]|[= <-]]; apply J1; auto. }
        * split; [split; [intros H; contradiction|]|discriminate]. intros H _. assert (x = y) by (apply H; [left; reflexivity|right; reflexivity]). apply HE in H0. congruence.
      + destruct (IH (Some x)) as [I1 I2]. split.
        { rewrite I1. split.
          - intros H a b [[= <-]|Ha] [[[= <-]|Hb]|Hb]; try discriminate; auto. symmetry. apply H; [exact Hb|right; reflexivity].
          - intros H a b Ha Hb. apply H; [right; exact Ha|]. left. destruct Hb as [Hb|[= <-]]; [right; exact Hb|left; reflexivity]. }
        { intros r Er. destruct (I2 r Er) as [J1 J2]. split; [|intros Hn; destruct (J2 Hn); discriminate]. intros a [[[= <-]|Ha]|Ha]; try discriminate; apply J1; auto. }
    - destruct (IH f) as [I1 I2]. split.
      { rewrite I1. split.
        - intros H a b [Ha|Ha] Hb; [discriminate|]. apply H; [exact Ha|]. destruct Hb as [[Hb|Hb]|Hb]; [discriminate|auto|auto].
        - intros H a b Ha Hb. apply H; [right; exact Ha|]. destruct Hb; [left; right|right]; assumption. }
      { intros r Er. destruct (I2 r Er) as [J1 J2]. split.
        - intros a [[Ha|Ha]|Ha]; [discriminate| |]; apply J1; auto.
        - intros Hn. destruct (J2 Hn) as [K1 K2]. split; [exact K1|]. intros a [Ha|Ha]; [discriminate|apply (K2 _ Ha)]. } }
  destruct (H l None) as [I1 I2]. split; [|split].
  - rewrite I1. split; intros HH x y Hx; [intros Hy; apply HH; auto|intros [Hy|Hy]; [apply HH; auto|discriminate]].
  - intros r x Er Hx. apply (I2 r Er). left. exact Hx.
  - intros Er x. apply (I2 None Er). reflexivity.
Qed.
Print Assumptions C55_common.

(** non-vacuity: a list with every kind of affine transform *)
Definition ex_ts : list (transform * draw) :=
  [(RandomRotation true, DAngle 90); (RandomHorizontalFlip, DFlip true); (Resize None (40, 60)%Z None, DNone); (RandomCrop (20, 30)%Z true None, DOffset 3 4);
   (RandomVerticalFlip, DFlip true); (CenterCrop (10, 12)%Z, DNone)].
Lemma rceil_eq x z : IZR z - 1 < x <= IZR z -> rceil x = z.
Proof. intros H. unfold rceil. rewrite (Int_part_uniq (- x) (- z)); [lia|]. rewrite opp_IZR. lra. Qed.
Lemma turned_90 h w : (0 <= h)%Z -> (0 <= w)%Z -> Z.even (h + w) = true -> turned_size (90 * PI / 180) h w = (w, h).
Proof.
  intros Hh Hw EV. rewrite turned_size_eq by assumption. replace (90 * PI / 180) with (PI / 2) by field. rewrite sin_PI2, cos_PI2, Rabs_R1, Rabs_R0.
  apply Z.even_spec in EV as [k EV]. assert (EK : IZR h + IZR w = 2 * IZR k) by (rewrite <- plus_IZR, EV, mult_IZR; reflexivity).
  f_equal.
  - rewrite (rceil_eq _ k) by lra. unfold rfloor. rewrite (Int_part_uniq _ (h - k)) by (rewrite minus_IZR; lra). lia.
  - rewrite (rceil_eq _ k) by lra. unfold rfloor. rewrite (Int_part_uniq _ (w - k)) by (rewrite minus_IZR; lra). lia.
Qed.
Example C55_nonvacuous : forall lstsq, let i := mkImage 50 100 (fun x y => Some (x, y)) in
  all_supported lstsq ex_ts i /\ orderly lstsq ex_ts i /\ existsb is_perspective ex_ts = false /\ exists i', one_by_one lstsq ex_ts i = Some i' /\ im_h i' = 10%Z /\ im_w i' = 12%Z.
Proof.
  intros lstsq i.
  assert (SZ : im_h (tv_rotate true 90 i) = 100%Z /\ im_w (tv_rotate true 90 i) = 50%Z).
  { unfold tv_rotate. cbn [im_h im_w i]. rewrite turned_90 by (lia || reflexivity). split; reflexivity. }
  destruct SZ as [S1 S2].
  split; [|split; [|split; [reflexivity|]]].
  - split; [sz|]. split; [exact I|]. intros i1 [= <-]. split; [split; [rewrite S1|rewrite S2]; lia|]. split; [exact I|]. intros i2 [= <-]. split; [split; cbn [im_h im_w tv_hflip resample]; rewrite ?S1, ?S2; lia|].
    split; [exact I|]. intros i3 [= <-]. split; [sz|]. split; [reflexivity|]. intros i4 [= <-]. split; [sz|]. split; [exact I|]. intros i5 [= <-]. split; [sz|]. split; [sz; left; lia|]. intros i6 [= <-]. sz.
  - intros i1 [= <-]. right. split; [exact I|]. intros i2 [= <-]. right. split; [exact I|]. intros i3 [= <-]. left. split; [cbn; lia|]. intros i4 [= <-]. split; [exact I|]. intros i5 [= <-]. split; [cbn; lia|]. intros i6 [= <-]. exact I.
  - eexists. split; [reflexivity|]. split; reflexivity.
Qed.

(** *** the size asked for with one number: the smaller edge gets it and the aspect ratio is kept up to rounding down; with max_size the larger edge
    is at most that, and then the smaller one is made smaller in proportion *)
Theorem C55_resized : forall h w edge mx both h' w', (0 < h)%Z -> (0 < w)%Z -> (0 < edge)%Z ->
  compute_resized (h, w) (Some edge) both mx = Some (h', w') -> let long := Z.max h w in let short := Z.min h w in
  ((h <= w -> h' <= w') /\ (w <= h -> w' <= h') /\
   match mx with Some m => edge < m /\ Z.max h' w' <= m | None => True end /\
   ((Z.min h' w' = edge /\ 0 <= edge * long - Z.max h' w' * short < short) \/
    exists m n, mx = Some m /\ Z.max h' w' = m /\ 0 <= edge * long - n * short < short /\ m < n /\ 0 <= m * edge - Z.min h' w' * n < n))%Z.
Proof.
  intros h w edge mx both h' w' Hh Hw He E long short. unfold compute_resized in E.
  assert (Hlong : (if (w <=? h)%Z then h else w) = long) by (unfold long; destruct (Z.leb_spec w h); lia).
  assert (Hshort : (if (w <=? h)%Z then w else h) = short) by (unfold short; destruct (Z.leb_spec w h); lia).
  rewrite Hlong, Hshort in E. set (n := (edge * long / short)%Z) in *.
  assert (Hs : (0 < short <= long)%Z) by (unfold short, long; lia).
  assert (Hn : (0 <= edge * long - n * short < short)%Z).
  { subst n. pose proof (Z.div_mod (edge * long) short ltac:(lia)). pose proof (Z.mod_pos_bound (edge * long) short ltac:(lia)). lia. }
  assert (Hen : (edge <= n)%Z) by (subst n; apply Z.div_le_lower_bound; nia).
  destruct mx as [m|].
  - destruct (Z.leb_spec m edge) as [Hm|Hm]; [discriminate|]. destruct (Z.ltb_spec m n) as [Hl|Hl].
    + assert (Hd : (0 <= m * edge - (m * edge / n) * n < n)%Z).
      { pose proof (Z.div_mod (m * edge) n ltac:(lia)). pose proof (Z.mod_pos_bound (m * edge) n ltac:(lia)). lia. }
      assert (Hdm : (m * edge / n <= m)%Z) by (apply Z.div_le_upper_bound; nia).
      assert (Hd0 : (0 <= m * edge / n)%Z) by (apply Z.div_pos; nia).
      destruct (Z.leb_spec w h); injection E as <- <-.
      * split; [intros; exfalso; assert (long = short) by (unfold long, short in *; lia); nia|]. split; [lia|]. split; [lia|].
        right. exists m, n. rewrite Z.max_l, Z.min_r by lia. repeat split; try lia.
      * split; [lia|]. split; [lia|]. split; [lia|]. right. exists m, n. rewrite Z.max_r, Z.min_l by lia. repeat split; try lia.
    + destruct (Z.leb_spec w h); injection E as <- <-.
      * split; [intros; assert (long = short) by (unfold long, short in *; lia); nia|]. split; [lia|]. split; [lia|]. left. rewrite Z.max_l, Z.min_r by lia. lia.
      * split; [lia|]. split; [lia|]. split; [lia|]. left. rewrite Z.max_r, Z.min_l by lia. lia.
  - destruct (Z.leb_spec w h); injection E as <- <-.
    + split; [intros; assert (long = short) by (unfold long, short in *; lia); nia|]. split; [lia|]. split; [exact I|]. left. rewrite Z.max_l, Z.min_r by lia. lia.
    + split; [lia|]. split; [lia|]. split; [exact I|]. left. rewrite Z.max_r, Z.min_l by lia. lia.
Qed.
Print Assumptions C55_resized.
(** and it is an error just when max_size is not larger *)
Theorem C55_resize_error : forall sz edge both mx, compute_resized sz (Some edge) both mx = None <-> exists m, mx = Some m /\ (m <= edge)%Z.
Proof.
  intros [h w] edge both mx. unfold compute_resized. destruct mx as [m|]; [|split; [discriminate|intros (m & E & _); discriminate E]].
  destruct (Z.leb_spec m edge); [split; [eauto|reflexivity]|]. destruct (m <? _)%Z; (split; [discriminate|]); intros (m' & E & H'); injection E as <-; lia.
Qed.
Print Assumptions C55_resize_error.
Example C55_resized_nonvacuous : compute_resized (100, 250)%Z (Some 50%Z) (0, 0)%Z (Some 100%Z) = Some (40, 100)%Z /\ compute_resized (250, 100)%Z (Some 50%Z) (0, 0)%Z None = Some (125, 50)%Z.
Proof. split; reflexivity. Qed.
