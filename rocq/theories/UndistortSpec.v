(** Specification for the accuracy of undistortion: the point of the undistorted image a point is seen at, and how much the distortion
    moves it. *)
From stdpp Require Import prelude.
From Coq Require Import Reals.
From Verif Require Import Base Lin CamModel CameraSpec.
Local Open Scope R_scope.

(** The cameras whose distortion is only radial, and their coefficients *)
Definition radial_camera (t : ptype) : Prop := match t with PERSPECTIVE | SIMPLE_RADIAL | RADIAL | FISHEYE | FISHEYE_OPENCV => True | _ => False end.
Definition coefficients (c : camera) : list R :=
  match cam_type c with
  | SIMPLE_RADIAL => [value_of c K1]
  | FISHEYE_OPENCV => [value_of c K1; value_of c K2; value_of c K3; value_of c K4]
  | _ => [value_of c K1; value_of c K2]
  end.
(** Where the point is in the image before distortion, and its distance to the centre *)
Definition ideal (c : camera) (p : vec) : R * R := match cam_type c with FISHEYE | FISHEYE_OPENCV => equidistant p | _ => pinhole p end.
Definition radius (q : R * R) : R := sqrt (radius2 q).
(** |k1| r^2 + |k2| r^4 + ...: a bound of the relative displacement by the distortion *)
Definition amount (ks : list R) (r2 : R) : R := foldr (fun k acc => r2 * (Rabs k + acc)) 0 ks.
(** The distortions considered small: at most 10 percent (3 percent for the model with four coefficients). *)
Definition limit (c : camera) : R := match cam_type c with FISHEYE_OPENCV => / 30 | _ => / 10 end.
(** Each iteration divides the error by at least 1 / rate *)
Definition rate (c : camera) (u : R) : R := match cam_type c with FISHEYE_OPENCV => 8 * u | _ => 5 * u end.
(** How far the bearing is: 2e-6, or what is left of the displacement after ten iterations. *)
Definition accuracy (c : camera) (r : R) : R := let u := amount (coefficients c) (r * r) in Rmax (2 * / 10 ^ 6) (rate c u ^ 10 * (u * r)).
