(** Model of /repo/opensfm/undistort.py: undistort_reconstruction and the functions it calls, the geometry of
    render_perspective_view_of_a_panorama (where each pixel of a view is read in the panorama) and the sizes of scale_image.
    Reconstructions are those of RecModel.v, cameras those of CamModel.v and ProjModel.v, tracks managers those of TracksModel.v.
    Exact real arithmetic. What is written to disk (udata.save_...) is what is returned here. Resampling images is not modelled. *)
From Coq Require Import Reals.
From stdpp Require Import prelude gmap strings pretty.
From Verif Require Import Base CamModel ProjModel Lin RotModel TracksModel MapModel PoseModel RecModel PixelModel.
Local Close Scope R_scope.

Notation urec := (@map camera similarity pose vec shot_data mesh (observation R) (R * R * R)).
Notation utm := (@tm (observation R)).
Notation ushot := (shot shot_data mesh (observation R)).

(** [s.endswith(suffix)] *)
Fixpoint ends_with (suffix s : string) : bool :=
  bool_decide (s = suffix) || match s with EmptyString => false | String _ s' => ends_with suffix s' end.
(** undistort.py:230-234 *)
Definition add_image_format_extension (shot_id image_format : string) : string :=
  if ends_with ("." +:+ image_format) shot_id then shot_id else shot_id +:+ "." +:+ image_format.

(** undistort.py:249-309: [camera.id = ], [camera.width = ], [camera.height = ] on a new perspective camera *)
Definition like (c : camera) (focal : R) : camera :=
  let p := create_perspective focal 0 0 in Camera (cam_id c) (cam_width c) (cam_height c) (cam_type p) (cam_params p) (cam_values p).
Definition perspective_camera_from_perspective (c : camera) : res camera := try f := get_param c Focal in Ok (like c f).
Definition perspective_camera_from_brown (c : camera) : res camera :=
  try f := get_param c Focal in try a := get_param c AspectRatio in Ok (like c (f * (1 + a) / 2)%R).
Definition perspective_camera_from_fisheye (c : camera) : res camera := try f := get_param c Focal in Ok (like c f).
Definition perspective_camera_from_fisheye_opencv (c : camera) : res camera :=
  try f := get_param c Focal in try a := get_param c AspectRatio in Ok (like c (f * (1 + a) / 2)%R).
Definition perspective_camera_from_fisheye62 (c : camera) : res camera :=
  try f := get_param c Focal in try a := get_param c AspectRatio in Ok (like c (f * (1 + a) / 2)%R).

(** [shot.metadata = m] (shot.h: SetShotMeasurements) *)
Definition set_metadata (m : urec) (id : string) (x : measurements) : res urec :=
  try s := of_option KeyError (m_shots m !! (false, id)) in
  assign_shot m (false, id) (ShotData x (sd_scale (sh_data s)) (sd_covariance (sh_data s)) (sd_merge_cc (sh_data s))).

(** undistort.py:237-246; [pose] and [meta] are those of the shot, [camera] the id of its camera *)
Definition get_shot_with_different_camera (m : urec) (shot_id camera : string) (p : pose) (meta : measurements) (image_format : string)
    : res (urec * string) :=
  let new_shot_id := add_image_format_extension shot_id image_format in
  try m := rec_create_shot m new_shot_id camera p None None in
  try m := set_metadata m new_shot_id meta in
  Ok (m, new_shot_id).

(** transformations.py:298-350 with a direction of length 1 and no point: the upper left 3x3 block *)
Definition tf_rotation_matrix (angle : R) (d : vec) : mat :=
  let s := sin angle in let c := cos angle in
  madd (madd (mscale c mI) (mscale (1 - c) (Mat (vx d * vx d) (vx d * vy d) (vx d * vz d)
                                              (vy d * vx d) (vy d * vy d) (vy d * vz d)
                                              (vz d * vx d) (vz d * vy d) (vz d * vz d))))
       (mscale s (Mat 0 (- vz d) (vy d) (vz d) 0 (- vx d) (- vy d) (vx d) 0)).
(** undistort.py:326-334 *)
Definition views : list (string * mat) :=
  [("front", tf_rotation_matrix (- 0 * PI / 2) (Vec 0 1 0)); ("left", tf_rotation_matrix (- 1 * PI / 2) (Vec 0 1 0));
   ("back", tf_rotation_matrix (- 2 * PI / 2) (Vec 0 1 0)); ("right", tf_rotation_matrix (- 3 * PI / 2) (Vec 0 1 0));
   ("top", tf_rotation_matrix (- PI / 2) (Vec 1 0 0)); ("bottom", tf_rotation_matrix (PI / 2) (Vec 1 0 0))]%R.
Definition pano_camera_id : string := "perspective_panorama_camera".
(** undistort.py:320-324 *)
Definition pano_camera (width : Z) : camera :=
  let p := create_perspective (1 / 2)%R 0 0 in Camera pano_camera_id width width (cam_type p) (cam_params p) (cam_values p).
(** undistort.py:341-357: the body of the loop *)
Definition add_view (shot_id instance image_format : string) (meta : measurements) (acc : urec * list string) (v : string * mat)
    : res (urec * list string) :=
  let (m, shots) := acc in
  try m := rec_add_rig_camera m v.1 (set_rotation_matrix pose0 v.2) in
  let id := add_image_format_extension (shot_id +:+ "_perspective_view_" +:+ v.1) image_format in
  try m := rec_create_shot m id pano_camera_id pose0 (Some v.1) (Some instance) in
  try m := set_metadata m id meta in
  Ok (m, shots ++ [id]).
(** undistort.py:312-360; [count] is what [next(rig_instance_count)] gives *)
Definition perspective_views_of_a_panorama (m : urec) (shot_id : string) (p : pose) (meta : measurements) (width : Z)
    (image_format : string) (count : nat) : res (urec * list string) :=
  let m := rec_add_camera m (pano_camera width) in
  let instance := pretty count in
  try m := rec_add_rig_instance m instance in
  try (m, shots) := foldR (add_view shot_id instance image_format meta) views (m, []) in
  try m := instance_set_pose m instance p in
  Ok (m, shots).

(** undistort.py:423-453: the observation of a panorama seen in a view, if any. [rview] and [rpano] are the rotation matrices of the
    two shots. [np.dot(bearing, rotation.T)] is [rotation * bearing]. Bearings and projections that are not numbers ([None]) do not
    happen: panoramas are spherical and the views are perspective. *)
Definition pano_observation (pano view : camera) (rpano rview : mat) (o : observation R) : option (observation R) :=
  match Bearing pano (o_x o, o_y o) with
  | None => None
  | Some bearing =>
      let rotated_bearing := mvec (mmul rview (mT rpano)) bearing in
      if Rle_dec (vz rotated_bearing) 0 then None else
      match Project view rotated_bearing with
      | None => None
      | Some f =>
          if Rlt_dec f.1 (- (1 / 2)) then None else if Rlt_dec (1 / 2) f.1 then None else
          if Rlt_dec f.2 (- (1 / 2)) then None else if Rlt_dec (1 / 2) f.2 then None else
          Some (Obs f.1 f.2 (o_scale o) (o_r o) (o_g o) (o_b o) (o_feature o) (o_segm o) (o_inst o) (o_depth o))
      end
  end.

Section Undistort.
(** Iteration orders of hash maps *)
Variable enumS : gmap shot_key ushot -> list (shot_key * ushot).
Variable enumL : gmap string (landmark vec) -> list (string * landmark vec).
Variable enumO : gmap string (observation R) -> list (string * observation R).

(** undistort.py:405-420 and 430-431, 452-453. [get_shot_observations] gives copies: writing to [obs.point] changes nothing else.
    [view] says where an observation of the shot is seen in the subshot, if it is. *)
Definition add_subshot_tracks (tracks ut : utm) (shot_id subshot : string) (view : observation R -> option (observation R)) : utm :=
  match tracks_per_shot tracks !! shot_id with
  | None => ut
  | Some obs =>
      foldl (fun ut '(t, o) => match view o with Some o' => tm_add ut subshot t o' | None => ut end) ut (enumO obs)
  end.

(** What is read of a subshot just created: its camera and its pose *)
Definition read_shot (m : urec) (id : string) : res (camera * pose) :=
  try s := of_option KeyError (m_shots m !! (false, id)) in
  try c := of_option KeyError (m_cameras m !! sh_camera s) in
  try p := of_option KeyError (get_pose m (false, id)) in
  Ok (c, p).
(** undistort.py:68-70 *)
Definition add_all_tracks (tracks : option utm) (m : urec) (ut : utm) (c : camera) (p : pose) (shot_id : string) (subshots : list string) : res utm :=
  match tracks with
  | None => Ok ut
  | Some tracks =>
      foldR (fun ut sub =>
        if is_panorama (projection_string (cam_type c)) then
          try (vc, vp) := read_shot m sub in
          Ok (add_subshot_tracks tracks ut shot_id sub (pano_observation c vc (w_rot p) (w_rot vp)))
        else Ok (add_subshot_tracks tracks ut shot_id sub Some)) subshots ut
  end.

(** The state of the loop of undistort.py:42-71: the new reconstruction, its tracks, the counter of rig instances and the dictionary
    from shots to subshots (its keys are new: the ids of the shots of a reconstruction are different) *)
Record ustate := UState { us_rec : urec; us_tracks : utm; us_count : nat; us_shots : list (string * list string) }.
(** undistort.py:42-71: the body of the loop. The chain of tests on the projection type is a match here. *)
Definition undistort_shot (tracks : option utm) (r : urec) (images : gset string) (image_format : string) (width : Z)
    (st : ustate) (e : shot_key * ushot) : res ustate :=
  let '((_, id), s) := e in
  if decide (id ∉ images) then Ok st else
  try c := of_option KeyError (m_cameras r !! sh_camera s) in
  try p := of_option KeyError (get_pose r (false, id)) in
  let meta := sd_metadata (sh_data s) in
  let single (make : camera -> res camera) :=
    try c' := make c in
    try (m, sub) := get_shot_with_different_camera (rec_add_camera (us_rec st) c') id (cam_id c) p meta image_format in
    Ok (Some (m, us_count st, [sub])) in
  try next :=
    match cam_type c with
    | PERSPECTIVE => single perspective_camera_from_perspective
    | BROWN => single perspective_camera_from_brown
    | FISHEYE => single perspective_camera_from_fisheye
    | FISHEYE_OPENCV => single perspective_camera_from_fisheye_opencv
    | FISHEYE62 => single perspective_camera_from_fisheye62
    | t =>
        if is_panorama (projection_string t) then
          try (m, subs) := perspective_views_of_a_panorama (us_rec st) id p meta width image_format (us_count st) in
          Ok (Some (m, S (us_count st), subs))
        else Ok None
    end in
  match next with
  | None => Ok st
  | Some (m, count, subs) =>
      try ut := add_all_tracks tracks m (us_tracks st) c p id subs in
      Ok (UState m ut count (us_shots st ++ [(id, subs)]))
  end.

(** types.py:113-116, 293-308: [urec.points = reconstruction.points], on a new reconstruction *)
Definition copy_points (m : urec) (points : list (string * landmark vec)) : res urec :=
  foldR (fun m '(id, l) => try m := create_landmark m id (lm_pos l) in set_landmark m id (lm_pos l) (lm_color l)) points m.
(** undistort.py:25-86. The reference of a reconstruction that has none is (0, 0, 0). *)
Definition undistort_reconstruction (tracks : option utm) (r : urec) (images : list string) (image_format : string) (width : Z)
    : res ustate :=
  try m := copy_points map_empty (enumL (m_landmarks r)) in
  let m := set_reference m (Some (default (0, 0, 0)%R (m_reference r))) in
  foldR (undistort_shot tracks r (list_to_set images) image_format width)
        (List.filter (fun e => negb e.1.1) (enumS (m_shots r))) (UState m tm_empty 0 []).
End Undistort.

(** undistort.py:363-402: the place of the panorama image (of [iw] x [ih] pixels) where pixel (x, y) of the view is read *)
Definition render_source (pano view : camera) (rpano rview : mat) (iw ih : Z) (x y : Z) : option (R * R) :=
  let dst := normalized_image_coordinates (IZR x, IZR y) (cam_width view) (cam_height view) in
  match Bearing view dst with
  | None => None
  | Some dst_bearing =>
      let rotated_bearing := mvec (mmul rpano (mT rview)) dst_bearing in
      match Project pano rotated_bearing with
      | None => None
      | Some src => Some (denormalized_image_coordinates src iw ih)
      end
  end.
(** undistort.py:200-203: the size the panorama is resized to *)
Definition pano_image_size (subshot_width : Z) : Z * Z := (4 * subshot_width, (4 * subshot_width) `div` 2)%Z.

(** [int(round(x))]: to the nearest integer, halves to the even one *)
Definition py_round (x : R) : Z :=
  let f := Int_part x in
  let d := (x - IZR f)%R in
  if Rlt_dec d (1 / 2) then f else if Rlt_dec (1 / 2) d then (f + 1)%Z else if Z.even f then f else (f + 1)%Z.
(** undistort.py:218-227: the size (height, width) of the result *)
Definition scale_image_size (height width max_size : Z) : Z * Z :=
  let factor := (IZR max_size / IZR (Z.max height width))%R in
  if Rle_dec 1 factor then (height, width) else (py_round (IZR height * factor), py_round (IZR width * factor)).
