(** Model of /repo/opensfm/actions/export_geocoords.py:68-163. The projection (pyproj.Proj) is any function; text output is not modelled. *)
From stdpp Require Import prelude gmap strings.
From Coq Require Import Reals.
From Verif Require Import Base JsonModel CamModel Lin RotModel TracksModel MapModel PoseModel RecModel GeoModel MetaModel.
Local Open Scope R_scope.

(** 96-102: [to_lla] is [reference.to_lla] (latitude, longitude, altitude), [projection] takes the longitude and the latitude *)
Definition _transform (to_lla : vec -> R * R * R) (projection : R -> R -> R * R) (point : vec) : vec :=
  let '(lat, lon, altitude) := to_lla point in
  let '(easting, northing) := projection lon lat in
  Vec easting northing altitude.
(** 68-83 *)
Definition _get_transformation (to_lla : vec -> R * R * R) (projection : R -> R -> R * R) : affine :=
  let q0 := _transform to_lla projection (Vec 1 0 0) in
  let q1 := _transform to_lla projection (Vec 0 1 0) in
  let q2 := _transform to_lla projection (Vec 0 0 1) in
  let q3 := _transform to_lla projection (Vec 0 0 0) in
  Affine (Mat (vx q0 - vx q3) (vx q1 - vx q3) (vx q2 - vx q3)
              (vy q0 - vy q3) (vy q1 - vy q3) (vy q2 - vy q3)
              (vz q0 - vz q3) (vz q1 - vz q3) (vz q2 - vz q3)) q3.

Section Geocoords.
Context {O : Type}.
Notation shot := (shot shot_data mesh O). Notation instance := (instance pose).
Notation rec := (@map camera similarity pose vec shot_data mesh O (R * R * R)).
(** The ids of [reconstruction.shots] in its order *)
Variable enumS : gmap shot_key shot -> list (shot_key * shot).
Definition shots_of (m : rec) : list string := omap (fun e : shot_key * shot => if e.1.1 then None else Some e.1.2) (enumS (m_shots m)).

(** shot.cc:161-167 GetPose *)
Definition GetPose (m : rec) (k : shot_key) : res pose :=
  try s := of_option KeyError (m_shots m !! k) in
  try i := of_option KeyError (m_instances m !! sh_instance s) in
  try rc := of_option KeyError (m_rig_cameras m !! sh_rig_camera s) in
  if is_identity rc && (size (in_members i) =? 1)%nat then Ok (in_pose i) else Ok (compose rc (in_pose i)).

(** 105-121: the rows of the table *)
Definition _transform_image_positions (reconstructions : list rec) (T : affine) : res (list (string * vec)) :=
  try rows := mapR (fun m => mapR (fun id => try p := GetPose m (false, id) in Ok (id, vadd (mvec (af_mat T) (get_origin p)) (af_vec T))) (shots_of m)) reconstructions in
  Ok (concat rows).

(** 131-134 *)
Definition transform_shot (A A1 : mat) (b : vec) (m : rec) (id : string) : res rec :=
  try p := GetPose m (false, id) in
  let Rm := w_rot p in
  try m := modify_pose m (false, id) (fun p => set_rotation_matrix p (mmul Rm A1)) in
  try p := GetPose m (false, id) in
  modify_pose m (false, id) (fun q => set_origin q (vadd (mvec A (get_origin p)) b)).
Fixpoint transform_shots (A A1 : mat) (b : vec) (ids : list string) (m : rec) : res rec :=
  match ids with [] => Ok m | id :: ids => try m := transform_shot A A1 b m id in transform_shots A A1 b ids m end.
(** 124-137. np.linalg.inv of a singular matrix raises LinAlgError, here ValueError *)
Definition _transform_reconstruction (m : rec) (T : affine) : res rec :=
  let A := af_mat T in let b := af_vec T in
  if Req_EM_T (det A) 0 then Err ValueError else
  let A1 := minv A in
  try m := transform_shots A A1 b (shots_of m) m in
  Ok (set_landmarks m ((fun l => Landmark (vadd (mvec A (lm_pos l)) b) (lm_color l) (lm_obs l)) <$> m_landmarks m)).
(** io.py pose_to_json and pose_from_json: what a saved pose is when loaded again: the rotation vector and the translation *)
Definition saved_and_loaded (p : pose) : pose := pose_of_vector (get_rotation p) (get_translation p).
End Geocoords.

(** 140-163: the lines of the cloud split into fields; the lines written, or the error. [np.dot(A, map(...))] multiplies the matrix by the
    map object itself: TypeError *)
Fixpoint _transform_dense_point_cloud (i : nat) (lines : list (string * list string)) : res (list string) :=
  match lines with
  | [] => Ok []
  | (line, fields) :: rest =>
      if decide (i < 13)%nat then try out := _transform_dense_point_cloud (S i) rest in Ok (line :: out)
      else if decide (length fields = 9%nat) then Err TypeError else Err ValueError
  end.
