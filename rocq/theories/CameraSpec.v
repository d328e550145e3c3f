(** Specification of the camera models, from /repo/doc/source/geometry.rst: how a point in camera coordinates is seen, with the
    parameters of the camera given by name. *)
From stdpp Require Import prelude.
From Coq Require Import Reals.
From Verif Require Import Base Lin CamModel.
Local Open Scope R_scope.

(** Distance to the optical axis, and angle with it *)
Definition axis_dist (p : vec) : R := sqrt (vx p ^ 2 + vy p ^ 2).
Definition axis_angle (p : vec) : R := acos (vz p / norm p).
(** The image of a point before distortion: on the plane z = 1, or at the distance of its angle to the axis *)
Definition pinhole (p : vec) : R * R := (vx p / vz p, vy p / vz p).
Definition equidistant (p : vec) : R * R := (axis_angle p * (vx p / axis_dist p), axis_angle p * (vy p / axis_dist p)).
Definition mixed (l : R) (p : vec) : R * R :=
  (l * (pinhole p).1 + (1 - l) * (equidistant p).1, l * (pinhole p).2 + (1 - l) * (equidistant p).2).
Definition radius2 (q : R * R) : R := q.1 ^ 2 + q.2 ^ 2.
(** Radial, tangential and thin prism distortions *)
Definition radial_factor (ks : list R) (r2 : R) : R := 1 + foldr (fun k acc => r2 * (k + acc)) 0 ks.
Definition radially (ks : list R) (q : R * R) : R * R := (radial_factor ks (radius2 q) * q.1, radial_factor ks (radius2 q) * q.2).
Definition tangent (p1 p2 : R) (q : R * R) : R * R :=
  (2 * p1 * q.1 * q.2 + p2 * (radius2 q + 2 * q.1 ^ 2), 2 * p2 * q.1 * q.2 + p1 * (radius2 q + 2 * q.2 ^ 2)).
Definition prism (s0 s1 s2 s3 : R) (q : R * R) : R * R := (s0 * radius2 q + s1 * radius2 q ^ 2, s2 * radius2 q + s3 * radius2 q ^ 2).
Definition plus (a b : R * R) : R * R := (a.1 + b.1, a.2 + b.2).
(** Focal lengths and principal point *)
Definition to_image (fx fy cx cy : R) (q : R * R) : R * R := (fx * q.1 + cx, fy * q.2 + cy).

(** The documented models (panoramas are described by [seen_by_panorama]). The documentation writes the distortion of a dual camera
    with the angle of the point instead of its radius: see C45_dual_documentation_refuted. *)
Definition documented (t : ptype) (get : param -> R) (p : vec) : R * R :=
  let f := get Focal in let fx := f in let fy := f * get AspectRatio in let cx := get Cx in let cy := get Cy in
  match t with
  | PERSPECTIVE => to_image f f 0 0 (radially [get K1; get K2] (pinhole p))
  | SIMPLE_RADIAL => to_image fx fy cx cy (radially [get K1] (pinhole p))
  | RADIAL => to_image fx fy cx cy (radially [get K1; get K2] (pinhole p))
  | BROWN => to_image fx fy cx cy (plus (radially [get K1; get K2; get K3] (pinhole p)) (tangent (get P1) (get P2) (pinhole p)))
  | FISHEYE => to_image f f 0 0 (radially [get K1; get K2] (equidistant p))
  | FISHEYE_OPENCV => to_image fx fy cx cy (radially [get K1; get K2; get K3; get K4] (equidistant p))
  | FISHEYE62 => to_image fx fy cx cy (plus (radially [get K1; get K2; get K3; get K4; get K5; get K6] (equidistant p)) (tangent (get P1) (get P2) (equidistant p)))
  | FISHEYE624 => to_image fx fy cx cy (plus (plus (radially [get K1; get K2; get K3; get K4; get K5; get K6] (equidistant p)) (tangent (get P1) (get P2) (equidistant p)))
                                             (prism (get S0) (get S1) (get S2) (get S3) (equidistant p)))
  | DUAL => to_image f f 0 0 (radially [get K1; get K2] (mixed (get Transition) p))
  | SPHERICAL => (0, 0)
  end.
(** The value of a parameter, 0 when the camera has none *)
Definition value_of (c : camera) (p : param) : R := match get_param c p with Ok x => x | Err _ => 0 end.

(** The direction of longitude lon and latitude lat seen by a panorama: y is down, z is forward *)
Definition direction (lat lon : R) : vec := Vec (cos lat * sin lon) (- sin lat) (cos lat * cos lon).

(** Which models are a perspective, which measure angles *)
Definition perspective_like (t : ptype) : Prop := match t with PERSPECTIVE | BROWN | RADIAL | SIMPLE_RADIAL => True | _ => False end.
Definition fisheye_like (t : ptype) : Prop := match t with FISHEYE | FISHEYE_OPENCV | FISHEYE62 | FISHEYE624 => True | _ => False end.
(** Every distortion coefficient is zero *)
Definition undistorted (c : camera) : Prop := forall p, In p [K1; K2; K3; K4; K5; K6; P1; P2; S0; S1; S2; S3] -> value_of c p = 0.
(** The focal lengths are not zero *)
Definition focal_nonzero (c : camera) : Prop := value_of c Focal <> 0 /\ (get_param c AspectRatio = Err RuntimeError \/ value_of c AspectRatio <> 0).
Definition unit_vector (v : vec) : vec := vscale (/ norm v) v.
