(** Model of transforms/merge.py and transforms/mappers.py: merging geometric image transforms into one matrix.
    Numbers are exact reals: the rounding errors of floating point arithmetic are not modelled.  An exception is [None]. *)
From Coq Require Import ZArith List Bool Reals.
Import ListNotations.
Local Open Scope R_scope.

(** 3x3 matrices of numpy *)
Record mat := Mat { m00 : R; m01 : R; m02 : R; m10 : R; m11 : R; m12 : R; m20 : R; m21 : R; m22 : R }.
(** np.eye(3) *)
Definition eye : mat := Mat 1 0 0 0 1 0 0 0 1.
(** a @ b *)
Definition mmul (a b : mat) : mat :=
  Mat (m00 a * m00 b + m01 a * m10 b + m02 a * m20 b) (m00 a * m01 b + m01 a * m11 b + m02 a * m21 b) (m00 a * m02 b + m01 a * m12 b + m02 a * m22 b)
      (m10 a * m00 b + m11 a * m10 b + m12 a * m20 b) (m10 a * m01 b + m11 a * m11 b + m12 a * m21 b) (m10 a * m02 b + m11 a * m12 b + m12 a * m22 b)
      (m20 a * m00 b + m21 a * m10 b + m22 a * m20 b) (m20 a * m01 b + m21 a * m11 b + m22 a * m21 b) (m20 a * m02 b + m21 a * m12 b + m22 a * m22 b).
Definition det (a : mat) : R :=
  m00 a * (m11 a * m22 a - m12 a * m21 a) - m01 a * (m10 a * m22 a - m12 a * m20 a) + m02 a * (m10 a * m21 a - m11 a * m20 a).
Definition mscale (k : R) (a : mat) : mat :=
  Mat (k * m00 a) (k * m01 a) (k * m02 a) (k * m10 a) (k * m11 a) (k * m12 a) (k * m20 a) (k * m21 a) (k * m22 a).
Definition adj (a : mat) : mat :=
  Mat (m11 a * m22 a - m12 a * m21 a) (m02 a * m21 a - m01 a * m22 a) (m01 a * m12 a - m02 a * m11 a)
      (m12 a * m20 a - m10 a * m22 a) (m00 a * m22 a - m02 a * m20 a) (m02 a * m10 a - m00 a * m12 a)
      (m10 a * m21 a - m11 a * m20 a) (m01 a * m20 a - m00 a * m21 a) (m00 a * m11 a - m01 a * m10 a).
(** np.linalg.inv: LinAlgError for a singular matrix *)
Definition minv (a : mat) : option mat := if Req_EM_T (det a) 0 then None else Some (mscale (/ det a) (adj a)).

(** mappers.py:27-66 translate, rotate, scale, hflip, vflip (shear is not used) *)
Definition translate (x y : R) : mat := Mat 1 0 x 0 1 y 0 0 1.
Definition rotate (angle : R) : mat := Mat (cos angle) (sin angle) 0 (- sin angle) (cos angle) 0 0 0 1.
Definition scale (x y : R) : mat := Mat x 0 0 0 y 0 0 0 1.
Definition hflip : mat := Mat (-1) 0 0 0 1 0 0 0 1.
Definition vflip : mat := Mat 1 0 0 0 (-1) 0 0 0 1.

(** math.floor, math.ceil, int and round (half to even) of a number *)
Definition rfloor (x : R) : Z := Int_part x.
Definition rceil (x : R) : Z := (- Int_part (- x))%Z.
Definition pyround (x : R) : Z :=
  let f := Int_part x in
  if Rlt_dec (x - IZR f) (1 / 2) then f
  else if Rlt_dec (1 / 2) (x - IZR f) then (f + 1)%Z
  else if Z.even f then f else (f + 1)%Z.

(** sizes: (height, width) *)
Definition size : Type := Z * Z.
(** an angle in radians *)
Definition rads (degrees : R) : R := degrees * PI / 180.
(** four corner points *)
Definition quad : Type := (R * R) * (R * R) * (R * R) * (R * R).

(** the supported torchvision transforms with the attributes that are read *)
Inductive transform :=
| Resize (edge : option Z) (both : size) (max_size : option Z)  (* size an int or a list of one (edge), or two numbers (both) *)
| RandomResizedCrop (sz : size) (scale ratio : R * R)
| RandomHorizontalFlip
| RandomVerticalFlip
| RandomRotation (expand : bool)
| RandomCrop (sz : size) (pad_if_needed : bool) (padding : option Z)
| RandomPerspective
| CenterCrop (sz : size).

(** what the random number generator delivers to a transform *)
Inductive draw :=
| DNone
| DFlip (b : bool)                                   (* torch.rand(1) < p *)
| DAngle (degrees : R)
| DOffset (i j : Z)                                  (* torch.randint(0, h - th + 1), torch.randint(0, w - tw + 1) *)
| DBoxes (attempts : list (R * R)) (i j : Z)         (* up to ten times: part of the area, aspect ratio; then the two offsets *)
| DQuads (q : option (quad * quad)).                 (* torch.rand(1) <= p: startpoints, endpoints *)

(** mappers.py:87-112 _compute_resized_output_size.  int(a * b / c) is the exact quotient (of positive numbers) *)
Definition compute_resized (sz : size) (edge : option Z) (both : size) (max_size : option Z) : option size :=
  match edge with
  | Some requested =>
      let (h, w) := sz in
      let short := if (w <=? h)%Z then w else h in
      let long := if (w <=? h)%Z then h else w in
      let new_long := (requested * long / short)%Z in
      match (match max_size with
             | None => Some (requested, new_long)
             | Some mx =>
                 if (mx <=? requested)%Z then None
                 else if (mx <? new_long)%Z then Some ((mx * requested / new_long)%Z, mx) else Some (requested, new_long)
             end) with
      | None => None
      | Some (new_short, new_long) => Some (if (w <=? h)%Z then (new_long, new_short) else (new_short, new_long))
      end
  | None => Some both
  end.

(** mappers.py:143-186 RandomResizedCropMapper.get_params: (top, lft, height, width).  torch.exp of a number between the
    logarithms of the ratios is the aspect ratio drawn *)
Fixpoint try_boxes (height width : Z) (attempts : list (R * R)) : option size :=
  match attempts with
  | [] => None
  | (part, aspect) :: rest =>
      let target_area := IZR (height * width) * part in
      let w := pyround (sqrt (target_area * aspect)) in
      let h := pyround (sqrt (target_area / aspect)) in
      if ((0 <? w) && (w <=? width) && (0 <? h) && (h <=? height))%Z then Some (h, w) else try_boxes height width rest
  end.
Definition get_params (ratio : R * R) (sz : size) (attempts : list (R * R)) (i j : Z) : Z * Z * Z * Z :=
  let (height, width) := sz in
  match try_boxes height width (firstn 10 attempts) with
  | Some (h, w) => (i, j, h, w)
  | None =>
      let in_ratio := IZR width / IZR height in
      let lo := Rmin (fst ratio) (snd ratio) in
      let hi := Rmax (fst ratio) (snd ratio) in
      let (h, w) :=
        if Rlt_dec in_ratio lo then (pyround (IZR width / lo), width)
        else if Rlt_dec hi in_ratio then (height, pyround (IZR height * hi))
        else (height, width) in
      (((height - h) / 2)%Z, ((width - w) / 2)%Z, h, w)
  end.

(** mappers.py:324-349 compute_homography(startpoints, endpoints): the least squares solution of the equations, which say
    that m maps every endpoint to its startpoint.  The solver is a parameter *)
Section Merge.
  Variable lstsq : quad -> quad -> mat.

  (** the apply_transform methods: the matrix and the size so far give the new matrix and size *)
  Definition apply_transform (t : transform) (d : draw) (matrix : mat) (dst_size : size) : option (mat * size) :=
    let (dh, dw) := dst_size in
    match t, d with
    | Resize edge both mx, _ =>                                                    (* 114-131 *)
        match compute_resized dst_size edge both mx with
        | None => None
        | Some (h, w) => Some (mmul (scale (IZR w / IZR dw) (IZR h / IZR dh)) matrix, (h, w))
        end
    | RandomResizedCrop (sh, sw) _ ratio, DBoxes attempts i j =>                   (* 188-206 *)
        match get_params ratio dst_size attempts i j with
        | (top, lft, height, width) =>
            Some (mmul (scale (IZR sw / IZR width) (IZR sh / IZR height)) (mmul (translate (- IZR lft) (- IZR top)) matrix), (sh, sw))
        end
    | RandomHorizontalFlip, DFlip b =>                                             (* 218-226 *)
        Some (if b then mmul (translate (IZR dw) 0) (mmul hflip matrix) else matrix, dst_size)
    | RandomVerticalFlip, DFlip b =>                                               (* 235-243 *)
        Some (if b then mmul (translate 0 (IZR dh)) (mmul vflip matrix) else matrix, dst_size)
    | RandomRotation expand, DAngle degrees =>                                     (* 252-280 *)
        let r := rads degrees in
        let (h', w') :=
          if expand then
            let w := Rabs (sin r) * IZR dh + Rabs (cos r) * IZR dw in
            let h := Rabs (sin r) * IZR dw + Rabs (cos r) * IZR dh in
            ((rceil (IZR dh / 2 + h / 2) - rfloor (IZR dh / 2 - h / 2))%Z, (rceil (IZR dw / 2 + w / 2) - rfloor (IZR dw / 2 - w / 2))%Z)
          else dst_size in
        Some (mmul (mmul (mmul (translate (IZR w' / 2) (IZR h' / 2)) (rotate r)) (translate (- IZR dw / 2) (- IZR dh / 2))) matrix, (h', w'))
    | RandomCrop (th, tw) pad_if_needed _, DOffset i j =>                          (* 297-336; padding is not read *)
        let (m1, w) := if pad_if_needed && (dw <? tw)%Z then (mmul (translate (IZR (tw - dw)) 0) matrix, (dw + 2 * (tw - dw))%Z) else (matrix, dw) in
        let (m2, h) := if pad_if_needed && (dh <? th)%Z then (mmul (translate 0 (IZR (th - dh))) m1, (dh + 2 * (th - dh))%Z) else (m1, dh) in
        if ((h <? th) || (w <? tw))%Z then None
        else
          let m3 := if ((w =? tw) && (h =? th))%Z then m2 else mmul (translate (- IZR j) (- IZR i)) m2 in
          Some (m3, if pad_if_needed then (th, tw) else (Z.min th h, Z.min tw w))
    | RandomPerspective, DQuads None => Some (matrix, dst_size)                    (* 380-399 *)
    | RandomPerspective, DQuads (Some (startpoints, endpoints)) =>
        Some (mmul (lstsq endpoints startpoints) matrix, dst_size)
    | CenterCrop (th, tw), _ =>                                                    (* 417-435; a single number is taken twice *)
        let shift_y := pyround (IZR (th - dh) / 2) in
        let shift_x := pyround (IZR (tw - dw) / 2) in
        Some (mmul (translate (IZR shift_x) (IZR shift_y)) matrix, (th, tw))
    | _, _ => None
    end.

  (** merge.py:66-74 the loop of forward *)
  Fixpoint merge (ts : list (transform * draw)) (matrix : mat) (dst_size : size) : option (mat * size) :=
    match ts with
    | [] => Some (matrix, dst_size)
    | (t, d) :: ts' =>
        match apply_transform t d matrix dst_size with
        | None => None
        | Some (m, s) => merge ts' m s
        end
    end.

  (** np.allclose(x, 0) *)
  Definition tiny (x : R) : bool := if Rle_dec (Rabs x) (1 / 100000000) then true else false.

  (** merge.py:76-109 for a PIL image: which point of the source the point (x, y) of the output shows.
      PIL.Image.AFFINE takes a x + b y + c and d x + e y + f, PERSPECTIVE divides both by g x + h y + 1 *)
  Definition pil_matrix (matrix : mat) : option mat :=
    match minv matrix with
    | None => None
    | Some b => if Req_EM_T (m22 b) 0 then None else Some (mscale (/ m22 b) b)
    end.
  Definition pil_point (b : mat) (x y : R) : option (R * R) :=
    let X := m00 b * x + m01 b * y + m02 b in
    let Y := m10 b * x + m11 b * y + m12 b in
    if tiny (m20 b) && tiny (m21 b) then Some (X, Y)
    else let W := m20 b * x + m21 b * y + 1 in
         if Req_EM_T W 0 then None else Some (X / W, Y / W).

  (** merge.py:110-156 for a tensor of size (sh, sw): which point of the source the pixel in row i and column j of the output shows.
      grid_sample with align_corners=False takes g from -1 to 1 as 0 to the width *)
  Definition torch_matrix (matrix : mat) (src dst : size) : option mat :=
    minv (mmul (mmul (mmul (mmul (translate (-1) (-1)) (scale (2 / IZR (snd dst)) (2 / IZR (fst dst)))) matrix)
                     (scale (IZR (snd src) / 2) (IZR (fst src) / 2))) (translate 1 1)).
  Definition grid_sample (src : size) (g : R * R) : R * R := ((fst g + 1) * IZR (snd src) / 2, (snd g + 1) * IZR (fst src) / 2).
  Definition torch_point (b : mat) (src dst : size) (i j : Z) : R * R :=
    grid_sample src
      (if tiny (m20 b) && tiny (m21 b) then
         (* affine_grid (align_corners=False): the centres of the pixels *)
         let x := (2 * IZR j + 1) / IZR (snd dst) - 1 in
         let y := (2 * IZR i + 1) / IZR (fst dst) - 1 in
         (m00 b * x + m01 b * y + m02 b, m10 b * x + m11 b * y + m12 b)
       else
         (* torch.linspace(-1, 1, n)[k] *)
         let x := -1 + 2 * IZR j / IZR (snd dst - 1) in
         let y := -1 + 2 * IZR i / IZR (fst dst - 1) in
         let W := m20 b * x + m21 b * y + m22 b in
         ((m00 b * x + m01 b * y + m02 b) / W, (m10 b * x + m11 b * y + m12 b) / W)).
End Merge.

(** merge.py:22-47 the common fill value and interpolation of all transforms *)
Fixpoint common {A} (eqb : A -> A -> bool) (found : option A) (given : list (option A)) : option (option A) :=
  match given with
  | [] => Some found
  | None :: rest => common eqb found rest
  | Some x :: rest =>
      match found with
      | None => common eqb (Some x) rest
      | Some y => if eqb x y then common eqb (Some y) rest else None
      end
  end.
