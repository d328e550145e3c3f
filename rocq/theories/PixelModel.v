(** Model of the pixel coordinate conversions: /repo/opensfm/features.py (normalized_image_coordinates,
    denormalized_image_coordinates), /repo/opensfm/src/geometry/src/camera.cc:344-395, /repo/opensfm/upright.py, and of
    /repo/opensfm/masking.py. Exact real arithmetic; arrays of points are treated point by point. *)
From Coq Require Import Reals.
From stdpp Require Import prelude.
From Verif Require Import Base.
Local Open Scope R_scope.

Notation point := (R * R)%type.

(** features.py:324-331; division by a size of 0 (numpy gives inf or nan) is not modelled: image sizes are positive *)
Definition normalized_image_coordinates (p : point) (width height : Z) : point :=
  let size := IZR (Z.max width height) in
  ((p.1 + 0.5 - IZR width / 2) / size, (p.2 + 0.5 - IZR height / 2) / size).
(** features.py:334-341 *)
Definition denormalized_image_coordinates (p : point) (width height : Z) : point :=
  let size := IZR (Z.max width height) in
  (p.1 * size - 0.5 + IZR width / 2, p.2 * size - 0.5 + IZR height / 2).
(** camera.cc:352-357 *)
Definition pixel_to_normalized (p : point) (width height : Z) : point :=
  let inv_size := 1 / IZR (Z.max width height) in
  ((p.1 + 0.5 - IZR width / 2) * inv_size, (p.2 + 0.5 - IZR height / 2) * inv_size).
(** camera.cc:379-384 *)
Definition normalized_to_pixel (p : point) (width height : Z) : point :=
  let size := IZR (Z.max width height) in
  (p.1 * size + (IZR width - 1) * 0.5, p.2 * size + (IZR height - 1) * 0.5).

(** upright.py:38-43: the rows of the 2x3 part of R[orientation] *)
Definition upright_matrix (orientation : Z) : res ((R * R * R) * (R * R * R)) :=
  if decide (orientation = 1%Z) then Ok ((1, 0, 0), (0, 1, 0))
  else if decide (orientation = 3%Z) then Ok ((-1, 0, 1), (0, -1, 1))
  else if decide (orientation = 6%Z) then Ok ((0, -1, 1), (1, 0, 0))
  else if decide (orientation = 8%Z) then Ok ((0, 1, 0), (-1, 0, 1))
  else Err KeyError.
(** upright.py:9-66: T = R H, p = T[:2,:2] coords + T[:2,2], scaled *)
Definition opensfm_to_upright (p : point) (width height orientation : Z) (new_width new_height : option Z) : res point :=
  try Rm := upright_matrix orientation in
  let '((a, b, c), (d, e, f)) := Rm in
  let w := IZR width in let h := IZR height in let s := Rmax w h in
  let x := (a * (s / w)) * p.1 + (b * (s / h)) * p.2 + (a * 0.5 + b * 0.5 + c) in
  let y := (d * (s / w)) * p.1 + (e * (s / h)) * p.2 + (d * 0.5 + e * 0.5 + f) in
  let uw := if decide (orientation < 6)%Z then width else height in
  let uh := if decide (orientation < 6)%Z then height else width in
  let uw := match new_width with Some n => n | None => uw end in
  let uh := match new_height with Some n => n | None => uh end in
  Ok (IZR uw * x, IZR uh * y).

(** A mask or segmentation image: shape and values (uint8) *)
Record image := Image { im_rows : Z; im_cols : Z; im_at : Z -> Z -> Z }.
(** numpy's [astype(int)]: truncation *)
Definition trunc (x : R) : Z := if Rle_dec 0 x then Int_part x else (- Int_part (- x))%Z.
(** [mask[y, x]] with numpy's negative indices *)
Definition index1 (n i : Z) : res Z := if decide (0 <= i < n)%Z then Ok i else if decide (- n <= i < 0)%Z then Ok (n + i)%Z else Err IndexError.
Definition im_get (m : image) (y x : Z) : res Z :=
  try r := index1 (im_rows m) y in try c := index1 (im_cols m) x in Ok (im_at m r c).
(** masking.py:14-19 *)
Definition mask_from_segmentation (segmentation : image) (ignore_values : list Z) : image :=
  Image (im_rows segmentation) (im_cols segmentation)
    (fun y x => foldl (fun m v => Z.land m (if decide (im_at segmentation y x <> v) then 1 else 0)%Z) 1%Z ignore_values).
(** cv2.resize with INTER_NEAREST: the value at floor(y * rows / new_rows), floor(x * cols / new_cols), at most the last *)
Definition resize_nearest (m : image) (rows cols : Z) : image :=
  Image rows cols (fun y x => im_at m (Z.min (y * im_rows m / rows) (im_rows m - 1)) (Z.min (x * im_cols m / cols) (im_cols m - 1))).
(** masking.py:42-51; [max] of two tuples is lexicographic *)
Definition max_shape (a b : Z * Z) : Z * Z := if decide (a.1 < b.1 \/ (a.1 = b.1 /\ a.2 < b.2))%Z then b else a.
Definition fit (m : image) (s : Z * Z) : image := if decide ((im_rows m, im_cols m) = s) then m else resize_nearest m s.1 s.2.
(** masking.py:22-39 *)
Definition combine_masks (mask1 mask2 : option image) : option image :=
  match mask1, mask2 with
  | None, _ => mask2
  | _, None => mask1
  | Some a, Some b =>
      let s := max_shape (im_rows a, im_cols a) (im_rows b, im_cols b) in
      let a := fit a s in let b := fit b s in
      Some (Image s.1 s.2 (fun y x => Z.land (im_at a y x) (im_at b y x)))
  end.
(** masking.py:54-94; [mask_image] is the mask given or loaded (masking.py:97-124) *)
Definition load_combined_mask (mask : option image) (segmentation : option image) (ignore_values : list Z) : option image :=
  combine_masks mask (match ignore_values, segmentation with [], _ | _, None => None | _, Some s => Some (mask_from_segmentation s ignore_values) end).
Definition feature_masked_in (mask : image) (width height orientation : Z) (p : point) : res bool :=
  try q := opensfm_to_upright p width height orientation (Some (im_cols mask)) (Some (im_rows mask)) in
  try v := im_get mask (trunc q.2) (trunc q.1) in
  Ok (bool_decide (v <> 0%Z)).
Fixpoint features_in (mask : image) (width height orientation : Z) (points : list point) : res (list bool) :=
  match points with
  | [] => Ok []
  | p :: ps => try b := feature_masked_in mask width height orientation p in try bs := features_in mask width height orientation ps in Ok (b :: bs)
  end.
Definition load_features_mask (mask_image : option image) (width height orientation : Z) (points : list point) : res (list bool) :=
  match points, mask_image with
  | [], _ => Ok []
  | _, None => Ok (replicate (length points) true)
  | _, Some m => features_in m width height orientation points
  end.
