(** Model of the conversions between camera rotations and angles: /repo/opensfm/geometry.py, and camera_up_vector,
    camera_compass_angle, rotation_matrix_from_up_vector_and_compass, plane_horizontalling_rotation and motion_from_plane_homography
    of /repo/opensfm/multiview.py, with what they use of /repo/opensfm/transformations.py. Exact real arithmetic. np.arctan2 is atan2
    of GeoModel.v, np.arcsin is asin (arguments are in [-1, 1] for rotations). *)
From stdpp Require Import prelude.
From Coq Require Import Reals.
From Verif Require Import Base Lin RotModel GeoModel.
Local Open Scope R_scope.

(** DBL_EPSILON *)
Definition dbl_epsilon : R := / 2 ^ 52.
(** geometry.py:10-11; cv2.Rodrigues of a vector (OpenCV, calibration_base.cpp): identity below DBL_EPSILON, then
    cos I + (1 - cos) r r^T + sin [r]x with r of length 1, which is the matrix of RotModel.v *)
Definition rotation_from_angle_axis (r : vec) : mat :=
  let theta := norm r in
  if Rlt_dec theta dbl_epsilon then mI else angle_axis_matrix theta (vscale (/ theta) r).

(** geometry.py:14-19 *)
Definition rotation_from_ptr (pan tilt roll : R) : mat :=
  let R1 := rotation_from_angle_axis (Vec 0 0 roll) in
  let R2 := rotation_from_angle_axis (Vec (tilt + PI / 2) 0 0) in
  let R3 := rotation_from_angle_axis (Vec 0 0 pan) in
  mmul (mmul R1 R2) R3.
(** geometry.py:32-34 *)
Definition pan_from_rotation (m : mat) : R :=
  let Rt_ez := mvec (mT m) (Vec 0 0 1) in atan2 (vx Rt_ez) (vy Rt_ez).
(** geometry.py:37-40 *)
Definition tilt_from_rotation (m : mat) : R :=
  let Rt_ez := mvec (mT m) (Vec 0 0 1) in
  let l := sqrt (vx Rt_ez * vx Rt_ez + vy Rt_ez * vy Rt_ez) in atan2 (- vz Rt_ez) l.
(** geometry.py:43-49; dividing by a zero norm (numpy gives nan) gives 0 here *)
Definition roll_from_rotation (m : mat) : R :=
  let Rt_ex := mvec (mT m) (Vec 1 0 0) in
  let Rt_ez := mvec (mT m) (Vec 0 0 1) in
  let a := cross Rt_ez (Vec 0 0 1) in
  let a := vscale (/ norm a) a in
  let b := cross Rt_ex a in
  asin (dot Rt_ez b).
(** geometry.py:22-29 *)
Definition ptr_from_rotation (m : mat) : R * R * R := (pan_from_rotation m, tilt_from_rotation m, roll_from_rotation m).

(** transformations.py:1113-1175 with the axes "szxz", that is (firstaxis, parity, repetition, frame) = (2, 0, 1, 0): i, j, k = 2, 0, 1 *)
Definition euler_matrix_szxz (ai aj ak : R) : mat :=
  let si := sin ai in let sj := sin aj in let sk := sin ak in
  let ci := cos ai in let cj := cos aj in let ck := cos ak in
  let cc := ci * ck in let cs := ci * sk in let sc := si * ck in let ss := si * sk in
  Mat (- cj * ss + cc) (- cj * cs - sc) (sj * sk)
      (cj * sc + cs) (cj * cc - ss) (- sj * ck)
      (sj * si) (sj * ci) cj.
(** transformations.py:1603 *)
Definition tf_eps : R := dbl_epsilon * 4.
(** transformations.py:1178-1237 with the axes "szxz" *)
Definition euler_from_matrix_szxz (m : mat) : R * R * R :=
  let sy := sqrt (m31 m * m31 m + m32 m * m32 m) in
  if Rlt_dec tf_eps sy then (atan2 (m31 m) (m32 m), atan2 sy (m33 m), atan2 (m13 m) (- m23 m))
  else (atan2 (- m12 m) (m11 m), atan2 sy (m33 m), 0).
(** geometry.py:52-58 *)
Definition rotation_from_ptr_v2 (pan tilt roll : R) : mat := euler_matrix_szxz pan (tilt + PI / 2) roll.
(** geometry.py:61-69 *)
Definition ptr_from_rotation_v2 (m : mat) : R * R * R :=
  let '(pan, tilt, roll) := euler_from_matrix_szxz m in (pan, tilt - PI / 2, roll).

(** geometry.py:82-87, 96 *)
Definition opk_Rc : mat := Mat 1 0 0 0 (-1) 0 0 0 (-1).
(** geometry.py:72-88 *)
Definition rotation_from_opk (omega phi kappa : R) : mat :=
  let Rw := rotation_from_angle_axis (Vec (- omega) 0 0) in
  let Rp := rotation_from_angle_axis (Vec 0 (- phi) 0) in
  let Rk := rotation_from_angle_axis (Vec 0 0 (- kappa)) in
  mmul (mmul (mmul opk_Rc Rk) Rp) Rw.
(** geometry.py:91-113 *)
Definition opk_from_rotation (m : mat) : R * R * R :=
  let r := mmul (mT m) opk_Rc in
  (atan2 (- m23 r) (m33 r), asin (m13 r), atan2 (- m12 r) (m11 r)).

(** multiview.py:305-310 *)
Definition camera_up_vector (m : mat) : vec := Vec (m13 m) (m23 m) (m33 m).
(** multiview.py:313-323 *)
Definition camera_compass_angle (m : mat) : R := degrees (atan2 (m31 m) (m32 m)).
(** np.column_stack([a, b, c]) *)
Definition columns (a b c : vec) : mat := Mat (vx a) (vx b) (vx c) (vy a) (vy b) (vy c) (vz a) (vz b) (vz c).
(** multiview.py:326-363 *)
Definition rotation_matrix_from_up_vector_and_compass (up_vector : vec) (compass_angle : R) : mat :=
  let r3 := vscale (/ norm up_vector) up_vector in
  let ez := Vec 0 0 1 in
  let r2 := vsub ez (vscale (dot ez r3) r3) in
  let r2n := norm r2 in
  let '(r1, r2) := if Rlt_dec (1 / 10 ^ 8) r2n then let r2 := vscale (/ r2n) r2 in (cross r2 r3, r2)
                   else let r1 := Vec 1 0 0 in (r1, cross r3 r1) in
  mmul (columns r1 r2 r3) (rotation_from_angle_axis (Vec 0 0 (radians compass_angle))).
(** reconstruction_helpers.py:15-39 *)
Definition guess_gravity_up_from_orientation_tag (orientation : Z) : res vec :=
  match orientation with
  | 1 | 2 => Ok (Vec 0 (-1) 0) | 3 | 4 => Ok (Vec 0 1 0) | 5 | 6 => Ok (Vec (-1) 0 0) | 7 | 8 => Ok (Vec 1 0 0) | _ => Err RuntimeError
  end%Z.

(** transformations.py: unit_vector of a direction (a direction of length 0 gives nan; 0 here), and rotation_matrix (298-350) without a point *)
Definition tf_unit (d : vec) : vec := vscale (/ norm d) d.
Definition tf_rotation (angle : R) (direction : vec) : mat :=
  let d := tf_unit direction in
  let s := sin angle in let c := cos angle in
  madd (madd (mscale c mI) (mscale (1 - c) (Mat (vx d * vx d) (vx d * vy d) (vx d * vz d) (vy d * vx d) (vy d * vy d) (vy d * vz d) (vz d * vx d) (vz d * vy d) (vz d * vz d))))
       (mscale s (Mat 0 (- vz d) (vy d) (vz d) 0 (- vx d) (- vy d) (vx d) 0)).
(** transformations.py: angle_between_vectors with directed = True *)
Definition tf_angle_between_vectors (u v : vec) : R := acos (dot u v / (norm u * norm v)).
(** multiview.py:178-211; [None] when nothing is returned *)
Definition plane_horizontalling_rotation (p : vec) : option mat :=
  let v1 := Vec 0 0 1 in
  let angle := tf_angle_between_vectors p v1 in
  let axis := cross p v1 in
  if Rlt_dec 0 (norm axis) then Some (tf_rotation angle axis)
  else if Rlt_dec angle 1 then Some mI
  else if Rlt_dec 3 angle then Some (Mat 1 0 0 0 (-1) 0 0 0 (-1))
  else None.

(** multiview.py:366-441, given the singular value decomposition (u, (d1, d2, d3), vh) of H. [d1 / d2 < 1.0001] with a zero singular
    value (numpy gives inf or nan) is not modelled: see the theorem. The solutions in the order of the code. *)
Definition motion_solution (u vh : mat) (d1 d2 d3 s : R) (x : R * R) : list (mat * vec * vec * R) :=
  let (x1, x3) := x in
  let sin_term := x1 * x3 / d2 in
  let sin_theta := (d1 - d3) * sin_term in
  let sin_phi := (d1 + d3) * sin_term in
  let d1_x3_2 := d1 * x3 ^ 2 in
  let d3_x1_2 := d3 * x1 ^ 2 in
  let cos_theta := (d3_x1_2 + d1_x3_2) / d2 in
  let cos_phi := (d3_x1_2 - d1_x3_2) / d2 in
  let Rp_p := Mat cos_theta 0 (- sin_theta) 0 1 0 sin_theta 0 cos_theta in
  let Rp_n := Mat cos_phi 0 sin_phi 0 (-1) 0 sin_phi 0 (- cos_phi) in
  let np_ := Vec x1 0 x3 in
  let tp_p := vscale (d1 - d3) (Vec x1 0 (- x3)) in
  let tp_n := vscale (d1 + d3) np_ in
  let R_p := mscale s (mmul (mmul u Rp_p) vh) in
  let R_n := mscale s (mmul (mmul u Rp_n) vh) in
  let t_p := mvec u tp_p in
  let t_n := mvec u tp_n in
  let n := vopp (mvec (mT vh) np_) in
  let d := s * d2 in
  [(R_p, t_p, n, d); (R_n, t_n, n, - d)].
Definition motion_from_plane_homography (u : mat) (l : R * R * R) (vh : mat) : option (list (mat * vec * vec * R)) :=
  let '(d1, d2, d3) := l in
  let s := det u * det vh in
  if Rlt_dec (d1 / d2) 1.0001 then None else if Rlt_dec (d2 / d3) 1.0001 then None else
  let abs_x1 := sqrt ((d1 ^ 2 - d2 ^ 2) / (d1 ^ 2 - d3 ^ 2)) in
  let abs_x3 := sqrt ((d2 ^ 2 - d3 ^ 2) / (d1 ^ 2 - d3 ^ 2)) in
  Some (mjoin (motion_solution u vh d1 d2 d3 s <$> [(abs_x1, abs_x3); (abs_x1, - abs_x3); (- abs_x1, abs_x3); (- abs_x1, - abs_x3)])).
