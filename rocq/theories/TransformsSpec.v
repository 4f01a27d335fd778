(** Specification for C55, independent of matrices: ideal images and what the torchvision transforms do to them, one after the
    other. *)
From Coq Require Import ZArith List Bool Reals.
From Verif Require Import Transforms.
Import ListNotations.
Local Open Scope R_scope.

(** an ideal image: a size and a colour for each point; what is outside is the fill colour, [None] *)
Record image (A : Type) := mkImage { im_h : Z; im_w : Z; im_at : R -> R -> option A }.
Arguments mkImage {A}. Arguments im_h {A}. Arguments im_w {A}. Arguments im_at {A}.
Definition inside (h w : Z) (x y : R) : Prop := 0 <= x <= IZR w /\ 0 <= y <= IZR h.
Definition inside_dec h w x y : {inside h w x y} + {~ inside h w x y}.
Proof.
  unfold inside. destruct (Rle_dec 0 x), (Rle_dec x (IZR w)), (Rle_dec 0 y), (Rle_dec y (IZR h)); (left; tauto) || (right; tauto).
Defined.
Definition look {A} (i : image A) (x y : R) : option A := if inside_dec (im_h i) (im_w i) x y then im_at i x y else None.

(** a new image of size h x w that shows at each point what [i] shows at the point given by [back] *)
Definition resample {A} (h w : Z) (back : R -> R -> option (R * R)) (i : image A) : image A :=
  mkImage h w (fun x y => match back x y with Some (u, v) => look i u v | None => None end).

(** *** the geometric operations *)
Definition tv_resize {A} (h w : Z) (i : image A) : image A :=
  resample h w (fun x y => Some (x * IZR (im_w i) / IZR w, y * IZR (im_h i) / IZR h)) i.
Definition tv_crop {A} (top lft h w : Z) (i : image A) : image A := resample h w (fun x y => Some (x + IZR lft, y + IZR top)) i.
Definition tv_pad {A} (lft top rgt bottom : Z) (i : image A) : image A :=
  resample (im_h i + top + bottom) (im_w i + lft + rgt) (fun x y => Some (x - IZR lft, y - IZR top)) i.
Definition tv_hflip {A} (i : image A) : image A := resample (im_h i) (im_w i) (fun x y => Some (IZR (im_w i) - x, y)) i.
Definition tv_vflip {A} (i : image A) : image A := resample (im_h i) (im_w i) (fun x y => Some (x, IZR (im_h i) - y)) i.
(** turning the vector (x, y) counter-clockwise; the y axis points down *)
Definition ccw (a x y : R) : R * R := (x * cos a + y * sin a, y * cos a - x * sin a).
(** the extent of a rectangle turned about its centre *)
Definition max4 (a b c d : R) : R := Rmax (Rmax a b) (Rmax c d).
Definition min4 (a b c d : R) : R := Rmin (Rmin a b) (Rmin c d).
Definition turned_size (a : R) (h w : Z) : Z * Z :=
  let W := IZR w / 2 in let H := IZR h / 2 in
  let corner f s t := f (ccw a (s * W) (t * H)) in
  let over (g : R -> R -> R -> R -> R) f := g (corner f 1 1) (corner f 1 (-1)) (corner f (-1) 1) (corner f (-1) (-1)) in
  ((rceil (H + over max4 snd) - rfloor (H + over min4 snd))%Z, (rceil (W + over max4 fst) - rfloor (W + over min4 fst))%Z).
(** each point is shown where the counter-clockwise turn about the centre takes it *)
Definition tv_rotate {A} (expand : bool) (degrees : R) (i : image A) : image A :=
  let a := degrees * PI / 180 in
  let (h, w) := if expand then turned_size a (im_h i) (im_w i) else (im_h i, im_w i) in
  resample h w (fun x y => let (u, v) := ccw (- a) (x - IZR w / 2) (y - IZR h / 2) in Some (u + IZR (im_w i) / 2, v + IZR (im_h i) / 2)) i.
(** a homography, and the one that takes four points to four points *)
Definition maps (m : mat) (p q : R * R) : Prop :=
  let W := m20 m * fst p + m21 m * snd p + m22 m in
  W <> 0 /\ m00 m * fst p + m01 m * snd p + m02 m = W * fst q /\ m10 m * fst p + m11 m * snd p + m12 m = W * snd q.
Definition maps4 (m : mat) (p q : quad) : Prop :=
  match p, q with (p1, p2, p3, p4), (q1, q2, q3, q4) => maps m p1 q1 /\ maps m p2 q2 /\ maps m p3 q3 /\ maps m p4 q4 end.
Definition at_point (m : mat) (x y : R) : option (R * R) :=
  let W := m20 m * x + m21 m * y + m22 m in
  if Req_EM_T W 0 then None else Some ((m00 m * x + m01 m * y + m02 m) / W, (m10 m * x + m11 m * y + m12 m) / W).
(** what was at the startpoints is shown at the endpoints *)
Definition tv_perspective {A} (back : mat) (i : image A) : image A := resample (im_h i) (im_w i) (at_point back) i.
Definition tv_center_crop {A} (th tw : Z) (i : image A) : image A :=
  let dx := Z.max 0 (tw - im_w i) in
  let dy := Z.max 0 (th - im_h i) in
  let i' := tv_pad (dx / 2) (dy / 2) ((dx + 1) / 2) ((dy + 1) / 2) i in
  tv_crop (pyround (IZR (im_h i' - th) / 2)) (pyround (IZR (im_w i' - tw) / 2)) th tw i'.
Definition tv_random_crop {A} (th tw : Z) (pad_if_needed : bool) (padding : option Z) (di dj : Z) (i : image A) : option (image A) :=
  let i1 := match padding with Some p => tv_pad p p p p i | None => i end in
  let i2 := if pad_if_needed && (im_w i1 <? tw)%Z then tv_pad (tw - im_w i1) 0 (tw - im_w i1) 0 i1 else i1 in
  let i3 := if pad_if_needed && (im_h i2 <? th)%Z then tv_pad 0 (th - im_h i2) 0 (th - im_h i2) i2 else i2 in
  if ((im_h i3 <? th) || (im_w i3 <? tw))%Z then None
  else if ((im_w i3 =? tw) && (im_h i3 =? th))%Z then Some (tv_crop 0 0 th tw i3)
  else Some (tv_crop di dj th tw i3).

(** no three of four points are on one line *)
Definition det3 (p q r : R * R) : R := fst p * (snd q - snd r) - snd p * (fst q - fst r) + (fst q * snd r - fst r * snd q).
Definition general_position (q : quad) : Prop :=
  match q with (p1, p2, p3, p4) => det3 p1 p2 p3 <> 0 /\ det3 p4 p2 p3 <> 0 /\ det3 p1 p4 p3 <> 0 /\ det3 p1 p2 p4 <> 0 end.
(** *** the transforms, with the same random numbers.  [lstsq p q]: the homography that takes the
    points q to the points p (torchvision computes it as MergeTransform does, with startpoints and endpoints exchanged) *)
Definition tv_apply {A} (lstsq : quad -> quad -> mat) (t : transform) (d : draw) (i : image A) : option (image A) :=
  match t, d with
  | Resize edge both mx, _ =>
      match compute_resized (im_h i, im_w i) edge both mx with Some (h, w) => Some (tv_resize h w i) | None => None end
  | RandomResizedCrop (sh, sw) _ ratio, DBoxes attempts di dj =>
      match get_params ratio (im_h i, im_w i) attempts di dj with (top, lft, h, w) => Some (tv_resize sh sw (tv_crop top lft h w i)) end
  | RandomHorizontalFlip, DFlip b => Some (if b then tv_hflip i else i)
  | RandomVerticalFlip, DFlip b => Some (if b then tv_vflip i else i)
  | RandomRotation expand, DAngle degrees => Some (tv_rotate expand degrees i)
  | RandomCrop (th, tw) pad padding, DOffset di dj => tv_random_crop th tw pad padding di dj i
  | RandomPerspective, DQuads None => Some i
  | RandomPerspective, DQuads (Some (startpoints, endpoints)) => Some (tv_perspective (lstsq startpoints endpoints) i)
  | CenterCrop (th, tw), _ => Some (tv_center_crop th tw i)
  | _, _ => None
  end.
Fixpoint one_by_one {A} (lstsq : quad -> quad -> mat) (ts : list (transform * draw)) (i : image A) : option (image A) :=
  match ts with
  | [] => Some i
  | (t, d) :: ts' => match tv_apply lstsq t d i with Some i' => one_by_one lstsq ts' i' | None => None end
  end.

(** *** conditions *)
Definition nonempty {A} (i : image A) : Prop := (0 < im_h i)%Z /\ (0 < im_w i)%Z.
(** what MergeTransform does like torchvision: no [padding] of RandomCrop; CenterCrop does not have to add 3, 7, 11... rows or columns;
    the box of RandomResizedCrop is not empty; the equations for the homography are solved *)
Definition supported {A} (lstsq : quad -> quad -> mat) (t : transform) (d : draw) (i : image A) : Prop :=
  match t, d with
  | RandomCrop _ _ padding, _ => padding = None
  | CenterCrop (th, tw), _ => ((th <= im_h i)%Z \/ ((th - im_h i) mod 4 <> 3)%Z) /\ ((tw <= im_w i)%Z \/ ((tw - im_w i) mod 4 <> 3)%Z)
  | RandomResizedCrop _ _ ratio, DBoxes attempts di dj =>
      match get_params ratio (im_h i, im_w i) attempts di dj with (_, _, h, w) => (0 < h)%Z /\ (0 < w)%Z end
  | RandomPerspective, DQuads (Some (s, e)) => general_position s /\ maps4 (lstsq e s) s e /\ maps4 (lstsq s e) e s
  | _, _ => True
  end.
Fixpoint all_supported {A} (lstsq : quad -> quad -> mat) (ts : list (transform * draw)) (i : image A) : Prop :=
  nonempty i /\
  match ts with
  | [] => True
  | (t, d) :: ts' => supported lstsq t d i /\ forall i', tv_apply lstsq t d i = Some i' -> all_supported lstsq ts' i'
  end.
(** every point of the image is in the result *)
Definition loses_nothing (t : transform) (d : draw) (h w : Z) : Prop :=
  match t, d with
  | Resize _ _ _, _ | RandomHorizontalFlip, _ | RandomVerticalFlip, _ | RandomRotation true, _ | RandomPerspective, DQuads None => True
  | CenterCrop (th, tw), _ => (h <= th)%Z /\ (w <= tw)%Z
  | _, _ => False
  end.
(** every point of the result is in the image *)
Definition adds_nothing (t : transform) (d : draw) (h w : Z) : Prop :=
  match t, d with
  | Resize _ _ _, _ | RandomHorizontalFlip, _ | RandomVerticalFlip, _ | RandomPerspective, DQuads None => True
  | RandomResizedCrop _ _ ratio, DBoxes attempts di dj =>
      match get_params ratio (h, w) attempts di dj with (top, lft, h', w') => (0 <= top)%Z /\ (0 <= lft)%Z /\ (top + h' <= h)%Z /\ (lft + w' <= w)%Z end
  | RandomCrop (th, tw) _ _, DOffset di dj => (0 <= di <= h - th)%Z /\ (0 <= dj <= w - tw)%Z
  | CenterCrop (th, tw), _ => (th <= h)%Z /\ (tw <= w)%Z
  | _, _ => False
  end.
(** first only transforms that lose nothing, then any one, then only transforms that add nothing *)
Fixpoint only_adding_nothing {A} (lstsq : quad -> quad -> mat) (ts : list (transform * draw)) (i : image A) : Prop :=
  match ts with
  | [] => True
  | (t, d) :: ts' => adds_nothing t d (im_h i) (im_w i) /\ forall i', tv_apply lstsq t d i = Some i' -> only_adding_nothing lstsq ts' i'
  end.
Fixpoint orderly {A} (lstsq : quad -> quad -> mat) (ts : list (transform * draw)) (i : image A) : Prop :=
  match ts with
  | [] => True
  | (t, d) :: ts' => forall i', tv_apply lstsq t d i = Some i' ->
      only_adding_nothing lstsq ts' i' \/ (loses_nothing t d (im_h i) (im_w i) /\ orderly lstsq ts' i')
  end.

(** what MergeTransform makes of a PIL image *)
Definition merged {A} (lstsq : quad -> quad -> mat) (ts : list (transform * draw)) (i : image A) : option (image A) :=
  match merge lstsq ts eye (im_h i, im_w i) with
  | None => None
  | Some (m, (h, w)) => match pil_matrix m with Some b => Some (resample h w (pil_point b) i) | None => None end
  end.
Definition is_perspective (td : transform * draw) : bool := match td with (RandomPerspective, DQuads (Some _)) => true | _ => false end.
