(** COLMAP's camera models (colmap/src/colmap/sensor/models.h and the documentation page "Camera Models"), with the meaning of the
    parameters in its order, for a point in front of the camera; its pixels have the centre of the top left pixel at (0.5, 0.5); its
    quaternions are (w, x, y, z) and the coordinates of a point in the camera are R(q) X + t. *)
From stdpp Require Import prelude.
From Coq Require Import Reals.
From Verif Require Import Lin ColmapModel.
Local Open Scope R_scope.

Definition colmap_sees (m : colmap_model) (params : list R) (p : vec) : option (R * R) :=
  let u := vx p / vz p in let v := vy p / vz p in
  let r2 := u ^ 2 + v ^ 2 in
  let r := sqrt r2 in
  let theta := atan r in
  match m, params with
  | M_RADIAL, [f; cx; cy; k1; k2] =>
      let d := 1 + k1 * r2 + k2 * r2 ^ 2 in Some (f * (u * d) + cx, f * (v * d) + cy)
  | M_RADIAL_FISHEYE, [f; cx; cy; k1; k2] =>
      let thetad := theta * (1 + k1 * theta ^ 2 + k2 * theta ^ 4) in Some (f * (u * thetad / r) + cx, f * (v * thetad / r) + cy)
  | M_FULL_OPENCV, [fx; fy; cx; cy; k1; k2; p1; p2; k3; k4; k5; k6] =>
      let d := (1 + k1 * r2 + k2 * r2 ^ 2 + k3 * r2 ^ 3) / (1 + k4 * r2 + k5 * r2 ^ 2 + k6 * r2 ^ 3) in
      Some (fx * (u * d + 2 * p1 * u * v + p2 * (r2 + 2 * u ^ 2)) + cx, fy * (v * d + 2 * p2 * u * v + p1 * (r2 + 2 * v ^ 2)) + cy)
  | M_OPENCV_FISHEYE, [fx; fy; cx; cy; k1; k2; k3; k4] =>
      let thetad := theta * (1 + k1 * theta ^ 2 + k2 * theta ^ 4 + k3 * theta ^ 6 + k4 * theta ^ 8) in
      Some (fx * (u * thetad / r) + cx, fy * (v * thetad / r) + cy)
  | _, _ => None
  end.
(** Normalised OpenSfM coordinates in COLMAP's pixels: the corner of the image is (0, 0) and its centre (width / 2, height / 2) *)
Definition colmap_pixel (width height : Z) (q : R * R) : R * R :=
  (q.1 * IZR (Z.max width height) + IZR width / 2, q.2 * IZR (Z.max width height) + IZR height / 2).
(** COLMAP's numbers of its models (models.h) *)
Definition colmap_number (m : colmap_model) : Z :=
  match m with M_RADIAL => 3 | M_OPENCV_FISHEYE => 5 | M_FULL_OPENCV => 6 | M_RADIAL_FISHEYE => 9 end.
