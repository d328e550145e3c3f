(** Model of the camera angles read from the XMP block of an image: /repo/opensfm/exif.py:485-607 (extract_opk). Exact real arithmetic; Python's
    float(str) is a parameter (infinities and nan are not modelled). *)
From Coq Require Import Reals.
From stdpp Require Import prelude gmap strings.
From Verif Require Import Base Lin GeoModel AnglesModel ExifModel.
Local Open Scope R_scope.

(** exif.py:543-559: the rotation of yaw, pitch, roll *)
Definition ypr_matrix (y p r : R) : mat :=
  Mat (cos y * cos p) (cos y * sin p * sin r - sin y * cos r) (cos y * sin p * cos r + sin y * sin r)
      (sin y * cos p) (sin y * sin p * sin r + cos y * cos r) (sin y * sin p * cos r - cos y * sin r)
      (- sin p) (cos p * sin r) (cos p * cos r).
(** exif.py:568 *)
Definition image_to_body : mat := Mat 0 1 0 1 0 0 0 0 (-1).
(** exif.py:570-588: the unit vector that is taken for the north; None if its divider is zero *)
Definition north_vector (lat lon alt : R) : option vec :=
  let delta := 1 / 10 ^ 7 in
  let d := vsub (ecef_from_lla (lat + delta) lon alt) (ecef_from_lla (lat - delta) lon alt) in
  if Req_EM_T (norm d) 0 then None else Some (vscale (/ norm d) d).
(** exif.py:590-603: omega, phi and kappa in degrees, from the north vector and from yaw, pitch and roll in radians *)
Definition opk_from_ypr (north : vec) (y p r : R) : R * R * R :=
  let down := Vec 0 0 (-1) in
  let cen := columns north (cross down north) down in
  let ceb := mmul (mmul cen (ypr_matrix y p r)) image_to_body in
  (degrees (atan2 (- m23 ceb) (m33 ceb)), degrees (asin (m13 ceb)), degrees (atan2 (- m12 ceb) (m11 ceb))).

Section Parse.
Context (parse_float : string -> option R).
(** exif.py:489-530: yaw, pitch and roll in degrees, if they are there and are numbers *)
Definition read_ypr (x : xmp_block) : option (R * R * R) :=
  match x !! "@Camera:Yaw", x !! "@Camera:Pitch", x !! "@Camera:Roll" with
  | Some y, Some p, Some r => y ← parse_float y; p ← parse_float p; r ← parse_float r; Some (y, p, r)
  | _, _, _ =>
      match x !! "@drone-dji:GimbalYawDegree", x !! "@drone-dji:GimbalPitchDegree", x !! "@drone-dji:GimbalRollDegree" with
      | Some y, Some p, Some r => y ← parse_float y; p ← parse_float p; r ← parse_float r; Some (y, p + 90, r)
      | _, _, _ => None
      end
  end.
(** exif.py:485-607; [latlon] and [altitude] are those of extract_geo *)
Definition extract_opk (xmp : list xmp_block) (latlon : option (R * R)) (altitude : option R) : option (R * R * R) :=
  match xmp, latlon with
  | x :: _, Some (lat, lon) =>
      '(y, p, r) ← read_ypr x;
      n ← north_vector lat lon (default 0 altitude);
      Some (opk_from_ypr n (radians y) (radians p) (radians r))
  | _, _ => None
  end.
End Parse.
