(** Model of /repo/opensfm/src/geometry/transformations_functions.h:307-319 (VectorToRotationMatrix,
    RotationMatrixToVector) in exact real arithmetic. The conversions they call are Eigen's (Eigen/src/Geometry/AngleAxis.h
    and Quaternion.h, not in /repo): AngleAxis::toRotationMatrix, AngleAxis(matrix), which goes through the quaternion of
    the matrix. *)
From Coq Require Import Reals Lra.
From Verif Require Import Lin.
Local Open Scope R_scope.

(** AngleAxis::toRotationMatrix *)
Definition angle_axis_matrix (angle : R) (axis : vec) : mat :=
  let s := vscale (sin angle) axis in
  let c := cos angle in
  let k := vscale (1 - c) axis in
  Mat (vx k * vx axis + c) (vx k * vy axis - vz s) (vx k * vz axis + vy s)
      (vx k * vy axis + vz s) (vy k * vy axis + c) (vy k * vz axis - vx s)
      (vx k * vz axis - vy s) (vy k * vz axis + vx s) (vz k * vz axis + c).
(** transformations_functions.h:307-315 *)
Definition vector_to_rotation (r : vec) : mat :=
  let n := norm r in
  if Req_EM_T n 0 then angle_axis_matrix 0 r else angle_axis_matrix n (vscale (/ n) r).

(** Quaternion(matrix): (w, (x, y, z)) *)
Definition quaternion (m : mat) : R * vec :=
  let t := m11 m + m22 m + m33 m in
  if Rlt_dec 0 t then
    let t := sqrt (t + 1) in let u := / 2 / t in
    (t / 2, Vec ((m32 m - m23 m) * u) ((m13 m - m31 m) * u) ((m21 m - m12 m) * u))
  else if Rlt_dec (if Rlt_dec (m11 m) (m22 m) then m22 m else m11 m) (m33 m) then
    let t := sqrt (m33 m - m11 m - m22 m + 1) in let u := / 2 / t in
    ((m21 m - m12 m) * u, Vec ((m13 m + m31 m) * u) ((m23 m + m32 m) * u) (t / 2))
  else if Rlt_dec (m11 m) (m22 m) then
    let t := sqrt (m22 m - m33 m - m11 m + 1) in let u := / 2 / t in
    ((m13 m - m31 m) * u, Vec ((m12 m + m21 m) * u) (t / 2) ((m32 m + m23 m) * u))
  else
    let t := sqrt (m11 m - m22 m - m33 m + 1) in let u := / 2 / t in
    ((m32 m - m23 m) * u, Vec (t / 2) ((m21 m + m12 m) * u) ((m31 m + m13 m) * u)).
(** atan2(y, x) for y > 0 and x >= 0, the only arguments here *)
Definition atan2_pos (y x : R) : R := if Req_EM_T x 0 then PI / 2 else atan (y / x).
(** AngleAxis = quaternion: (angle, axis) *)
Definition quaternion_angle_axis (q : R * vec) : R * vec :=
  let n := norm (snd q) in
  if Req_EM_T n 0 then (0, Vec 1 0 0)
  else (2 * atan2_pos n (Rabs (fst q)), vscale (/ (if Rlt_dec (fst q) 0 then - n else n)) (snd q)).
(** transformations_functions.h:316-319 *)
Definition rotation_to_vector (m : mat) : vec :=
  let '(angle, axis) := quaternion_angle_axis (quaternion m) in vscale angle axis.
