(** Model of the reconstruction that is initialised from metadata: /repo/opensfm/reconstruction_helpers.py:42-193 (the
    rotation of a shot from its metadata, reconstruction_from_metadata, exif_to_metadata), on the reconstruction of RecModel.v,
    the conversions of GeoModel.v and the angles of AnglesModel.v. Exact real arithmetic; the logs are not modelled. *)
From Coq Require Import Reals.
From stdpp Require Import prelude gmap strings.
From Verif Require Import Base JsonModel CamModel Lin RotModel TracksModel MapModel PoseModel RecModel GeoModel AnglesModel.
Local Open Scope R_scope.

(** The dictionary of the metadata of an image (written by exif.py and the overrides): [gps] with latitude and longitude, altitude
    and dop; [opk] with the three angles and accuracy; [compass] with angle and accuracy *)
Record gps_dict := GpsDict { gp_latlon : option (R * R); gp_altitude : option R; gp_dop : option R }.
Record opk_dict := OpkDict { op_angles : option (R * R * R); op_accuracy : option R }.
Record compass_dict := CompassDict { co_angle : option R; co_accuracy : option R }.
Record exif := Exif {
  ex_camera : string; ex_gps : option gps_dict; ex_opk : option opk_dict; ex_orientation : option Z; ex_gravity_down : option vec;
  ex_compass : option compass_dict; ex_capture_time : option R; ex_skey : option string }.

(** exif.py:31 *)
Definition maximum_altitude : R := 10000.
(** reconstruction_helpers.py:145-152: the altitude that is used *)
Definition used_altitude (use_altitude : bool) (g : gps_dict) : R :=
  if use_altitude then Rmin maximum_altitude (default 2 (gp_altitude g)) else 2.
(** reconstruction_helpers.py:138-186; types.TopocentricConverter.to_topocentric is topocentric_from_lla. A compass without an angle is a
    KeyError. *)
Definition exif_to_metadata (e : exif) (use_altitude : bool) (reference : R * R * R) : res measurements :=
  let '(reflat, reflon, refalt) := reference in
  let '(position, accuracy) :=
    match ex_gps e with
    | Some g =>
        match gp_latlon g with
        | Some (lat, lon) =>
            let a := default 15 (gp_dop g) in
            (Some (topocentric_from_lla lat lon (used_altitude use_altitude g) reflat reflon refalt), Some (if Req_EM_T a 0 then 15 else a))
        | None => (None, None)
        end
    | None => (None, None)
    end in
  let '(angles, angles_accuracy) :=
    match ex_opk e with
    | Some o => match op_angles o with Some (w, p, k) => (Some (Vec w p k), Some (default 1 (op_accuracy o))) | None => (None, None) end
    | None => (None, None)
    end in
  try compass := match ex_compass e with Some c => try a := of_option KeyError (co_angle c) in Ok (Some a) | None => Ok None end in
  Ok (Measurements (ex_capture_time e) position accuracy (c ← ex_compass e; co_accuracy c) compass (ex_gravity_down e)
        angles_accuracy angles (Some (default 1%Z (ex_orientation e))) (ex_skey e) ∅).

(** reconstruction_helpers.py:42-57 *)
Definition shot_gravity_up_in_image_axis (m : measurements) : res (option vec) :=
  match ms_gravity_down m with
  | Some g => Ok (Some (vopp g))
  | None =>
      match ms_orientation m with
      | None => Ok None
      | Some o => let o := if decide (1 <= o <= 8)%Z then o else 1%Z in try v := guess_gravity_up_from_orientation_tag o in Ok (Some v)
      end
  end.
(** reconstruction_helpers.py:67-75 *)
Definition rotation_from_orientation_compass (m : measurements) : res (option mat) :=
  try up := shot_gravity_up_in_image_axis m in
  Ok (match up with None => None | Some up => Some (rotation_matrix_from_up_vector_and_compass up (default 0 (ms_compass_angle m))) end).
(** reconstruction_helpers.py:78-83 *)
Definition rotation_from_angles (m : measurements) : option mat :=
  match ms_opk_angles m with None => None | Some v => Some (rotation_from_opk (radians (vx v)) (radians (vy v)) (radians (vz v))) end.
(** reconstruction_helpers.py:60-64 *)
Definition rotation_from_shot_metadata (m : measurements) : res (option mat) :=
  match rotation_from_angles m with Some r => Ok (Some r) | None => rotation_from_orientation_compass m end.

Section Init.
Context {O : Type} (enumO : gmap string O -> list (string * O)).
Notation shot := (shot shot_data mesh O). Notation instance := (instance pose).
Notation rec := (@map camera similarity pose vec shot_data mesh O (R * R * R)).
Notation remove_shot := (remove_shot enumO).

(** [f] applied through the reference that [shot.pose] returns (shot.cc:161-167): to the pose of the instance if the shot is alone in it and its
    rig camera is the identity, else to the cached pose of the shot, which the next access overwrites *)
Definition modify_pose (m : rec) (k : shot_key) (f : pose -> pose) : res rec :=
  try s := of_option KeyError (m_shots m !! k) in
  try i := of_option KeyError (m_instances m !! sh_instance s) in
  try rc := of_option KeyError (m_rig_cameras m !! sh_rig_camera s) in
  if is_identity rc && (size (in_members i) =? 1)%nat
  then Ok (set_instances m (<[sh_instance s := Instance (f (in_pose i)) (in_members i)]> (m_instances m)))
  else Ok m.

(** reconstruction_helpers.py:92, 95-103: the rig instance and rig camera of an image *)
Definition image_rig (rigs : gmap string (string * string * list string)) (image camera_id : string) : string * string :=
  match rigs !! image with Some (i, c, _) => (i, c) | None => (image, camera_id) end.
(** reconstruction_helpers.py:98-127, one round of the loop *)
Definition add_image (use_altitude : bool) (reference : R * R * R) (rigs : gmap string (string * string * list string))
    (m : rec) (image : string) (e : exif) : res rec :=
  let '(inst, rc) := image_rig rigs image (ex_camera e) in
  try m := rec_add_rig_camera m rc pose0 in
  try m := rec_add_rig_instance m inst in
  try m := rec_create_shot m image (ex_camera e) pose0 (Some rc) (Some inst) in
  try meta := exif_to_metadata e use_altitude reference in
  try m := assign_shot m (false, image) (ShotData meta 1 [] 0) in
  match ms_gps_position meta with
  | None => remove_shot m (false, image)
  | Some p =>
      try r := rotation_from_shot_metadata meta in
      try m := match r with Some r => modify_pose m (false, image) (fun q => set_rotation_matrix q r) | None => Ok m end in
      modify_pose m (false, image) (fun q => set_origin q p)
  end.
Fixpoint add_images (use_altitude : bool) (reference : R * R * R) (rigs : gmap string (string * string * list string))
    (m : rec) (images : list (string * exif)) : res rec :=
  match images with
  | [] => Ok m
  | (image, e) :: l => try m := add_image use_altitude reference rigs m image e in add_images use_altitude reference rigs m l
  end.
(** reconstruction_helpers.py:86-128: the images with their metadata (data.load_exif), the cameras by name, the reference *)
Definition reconstruction_from_metadata (cameras : gmap string camera) (use_altitude : bool) (reference : R * R * R)
    (rigs : gmap string (string * string * list string)) (images : list (string * exif)) : res rec :=
  let m : rec := Map cameras ((fun _ => bias0) <$> cameras) ∅ ∅ ∅ ∅ (Some reference) in
  add_images use_altitude reference rigs m images.
End Init.
