(** Model of /repo/opensfm/actions/export_colmap.py: camera_to_colmap_params, export_cameras, export_features, export_matches,
    export_images_reconstruction, export_points_reconstruction, angle_axis_to_quaternion, the pair ids and the tables of the database
    (rows inserted with automatic ids). Exact real arithmetic; what is modelled is the data, not the SQL, the text or the binary encoding.
    Not modelled: overrides of camera models, descriptors (never exported), the ini file, float32 rounding of keypoints. *)
From stdpp Require Import prelude gmap strings.
From Coq Require Import Reals.
From Verif Require Import Base JsonModel CamModel ProjModel Lin RotModel TracksModel PoseModel PixelModel BundlerModel NvmModel.
Local Open Scope R_scope.

(** 364-370: the names and numbers of the models *)
Inductive colmap_model := M_FULL_OPENCV | M_RADIAL | M_RADIAL_FISHEYE | M_OPENCV_FISHEYE.
Definition COLMAP_TYPES_MAP (t : ptype) : res colmap_model :=
  match t with
  | BROWN => Ok M_FULL_OPENCV | PERSPECTIVE => Ok M_RADIAL | FISHEYE => Ok M_RADIAL_FISHEYE | FISHEYE_OPENCV => Ok M_OPENCV_FISHEYE
  | _ => Err KeyError
  end.
Definition COLMAP_ID_MAP (t : ptype) : res Z :=
  match t with BROWN => Ok 6%Z | PERSPECTIVE => Ok 3%Z | FISHEYE => Ok 9%Z | FISHEYE_OPENCV => Ok 5%Z | _ => Err KeyError end.

(** 373-404. [camera.focal] of a camera without one raises. *)
Definition camera_to_colmap_params (c : camera) : res (list R) :=
  let w := IZR (cam_width c) in
  let h := IZR (cam_height c) in
  let normalizer := IZR (Z.max (cam_width c) (cam_height c)) in
  try focal := get_param c Focal in
  let f := focal * normalizer in
  match cam_type c with
  | PERSPECTIVE | FISHEYE =>
      try k1 := get_param c K1 in
      try k2 := get_param c K2 in
      Ok [f; w * 0.5; h * 0.5; k1; k2]
  | BROWN =>
      try ar := get_param c AspectRatio in
      let fy := f * ar in
      try cx := get_param c Cx in
      try cy := get_param c Cy in
      let c_x := w * 0.5 + normalizer * cx in
      let c_y := h * 0.5 + normalizer * cy in
      try k1 := get_param c K1 in
      try k2 := get_param c K2 in
      try k3 := get_param c K3 in
      try p1 := get_param c P1 in
      try p2 := get_param c P2 in
      Ok [f; fy; c_x; c_y; k1; k2; p1; p2; k3; 0; 0; 0]
  | FISHEYE_OPENCV =>
      try ar := get_param c AspectRatio in
      let fy := f * ar in
      try px := get_param c Cx in
      try py := get_param c Cy in
      let cx := w * 0.5 + px in
      let cy := h * 0.5 + py in
      try k1 := get_param c K1 in
      try k2 := get_param c K2 in
      try k3 := get_param c K3 in
      try k4 := get_param c K4 in
      Ok [f; fy; cx; cy; k1; k2; k3; k4]
  | _ => Err ValueError
  end.

(** 668-680. [None]: not numbers (0 / 0) *)
Definition angle_axis_to_quaternion (angle_axis : vec) : option vec4 :=
  let angle := norm angle_axis in
  if Req_EM_T angle 0 then None else
  let x := vx angle_axis / angle in
  let y := vy angle_axis / angle in
  let z := vz angle_axis / angle in
  let qw := cos (angle / 2) in
  Some (Vec4 qw (x * sqrt (1 - qw * qw)) (y * sqrt (1 - qw * qw)) (z * sqrt (1 - qw * qw))).

(** 114, 187-196 *)
Definition MAX_IMAGE_ID : Z := (2 ^ 31 - 1)%Z.
Definition image_ids_to_pair_id (image_id1 image_id2 : Z) : Z :=
  let '(image_id1, image_id2) := if decide (image_id1 > image_id2)%Z then (image_id2, image_id1) else (image_id1, image_id2) in
  (image_id1 * MAX_IMAGE_ID + image_id2)%Z.
Definition pair_id_to_image_ids (pair_id : Z) : Z * Z :=
  let image_id2 := (pair_id mod MAX_IMAGE_ID)%Z in
  (((pair_id - image_id2) / MAX_IMAGE_ID)%Z, image_id2).
(** 315-327, 329-361: the row of the tables matches and two_view_geometries *)
Definition add_matches (image_id1 image_id2 : Z) (matches : list (Z * Z)) : Z * list (Z * Z) :=
  let matches := if decide (image_id1 > image_id2)%Z then map (fun m => (m.2, m.1)) matches else matches in
  (image_ids_to_pair_id image_id1 image_id2, matches).

(** 407-434: AUTOINCREMENT ids are 1, 2, ... in the order of insertion. [cameras] are the camera models in the order of the dict,
    [image_cameras] the images with the camera model of their metadata *)
Fixpoint number_from (i : Z) (l : list string) (m : gmap string Z) : gmap string Z :=
  match l with [] => m | k :: l => number_from (i + 1)%Z l (<[k := i]> m) end.
Definition export_cameras (cameras : list (string * camera)) (image_cameras : list (string * string))
    : res (list (Z * list R) * list Z * gmap string Z * gmap string Z) :=
  try rows := mapR (fun nc => try ps := camera_to_colmap_params nc.2 in try ty := COLMAP_ID_MAP (cam_type nc.2) in Ok (ty, ps)) cameras in
  let camera_map := number_from 1 (cameras.*1) ∅ in
  try images := mapR (fun ic => of_option KeyError (camera_map !! ic.2)) image_cameras in
  Ok (rows, images, number_from 1 (image_cameras.*1) ∅, camera_map).

(** 437-452: the keypoints of an image of that size *)
Definition export_features (points : list (R * R)) (width height : Z) : list (R * R) :=
  map (fun p => denormalized_image_coordinates p width height) points.

(** 455-489. [ltb] is the order of strings. [load_matches] is the content of the matches file of each image, in order. The matches of a pair
    are the keys of a dict: a set. *)
Section Matches.
Variable ltb : string -> string -> bool.
Definition pair_key (image1 image2 : string) : string * string := if ltb image2 image1 then (image2, image1) else (image1, image2).
Definition add_pair_matches (image1 image2 : string) (image_matches : list (Z * Z)) (d : gmap (string * string) (gset (Z * Z))) : gmap (string * string) (gset (Z * Z)) :=
  let k := pair_key image1 image2 in
  <[k := foldl (fun s m => if ltb image1 image2 then s ∪ {[(m.1, m.2)]} else s ∪ {[(m.2, m.1)]}) (default ∅ (d !! k)) image_matches]> d.
Definition matches_per_pair (load_matches : list (string * list (string * list (Z * Z)))) : gmap (string * string) (gset (Z * Z)) :=
  foldl (fun d f => foldl (fun d im => add_pair_matches f.1 im.1 im.2 d) d f.2) ∅ load_matches.
(** The rows written for a pair with those matches; [robust] is robust_match_fundamental on them *)
Definition export_pair (images_map : gmap string Z) (robust : string -> string -> list (Z * Z) -> list (Z * Z)) (enum : gset (Z * Z) -> list (Z * Z))
    (pair : string * string) (matches : gset (Z * Z)) : res (option (Z * list (Z * Z))) :=
  let matches_numpy := enum matches in
  if (length matches_numpy <? 10)%nat then Ok None else
  let inliers := robust pair.1 pair.2 matches_numpy in
  if (10 <? length inliers)%nat then
    try id1 := of_option KeyError (images_map !! pair.1) in
    try id2 := of_option KeyError (images_map !! pair.2) in
    Ok (Some (add_matches id1 id2 inliers))
  else Ok None.
End Matches.

(** 608-665, one reconstruction at a time: point i of the file; [points_map] *)
Record colmap_point := ColmapPoint { cp_id : nat; cp_position : vec; cp_color : color; cp_track : list (Z * Z) }.
Section Recs.
Variable enumO : gmap string obs -> list (string * obs).
Variables (images_map camera_map : gmap string Z) (tracks : @tm obs).
Definition colmap_track (s : scene) (l : list (string * obs)) : res (list (Z * Z)) :=
  foldr (fun io r =>
    try rest := r in
    if decide (is_Some (sc_shots s !! io.1)) then
      try image := of_option KeyError (images_map !! io.1) in Ok ((image, o_feature io.2) :: rest)
    else Ok rest) (Ok []) l.
Definition colmap_point_step (s : scene) (st : list colmap_point * gmap string nat * nat) (pt : string * (vec * color)) : res (list colmap_point * gmap string nat * nat) :=
  let '(out, points_map, i) := st in
  try os := tm_track_obs tracks pt.1 in
  try track := colmap_track s (enumO os) in
  Ok (out ++ [ColmapPoint i pt.2.1 pt.2.2 track], <[pt.1 := i]> points_map, S i).
Definition foldRes {A S} (f : S -> A -> res S) : list A -> S -> res S :=
  fix go l s := match l with [] => Ok s | a :: l => try s := f s a in go l s end.
Definition export_points (recs : list scene) : res (list colmap_point * gmap string nat * nat) :=
  foldRes (fun st s => foldRes (colmap_point_step s) (sc_points s) st) recs ([], ∅, 0%nat).

(** 528-605: the line of a shot and its points: [points_tuple] *)
Record colmap_image := ColmapImage { ci_id : Z; ci_q : option vec4; ci_t : vec; ci_camera : Z; ci_name : string; ci_points : list (R * R * nat) }.
(** [{obs.id: k for k, obs in get_shot_observations(shot_id).items()}] *)
Definition point_per_feat (l : list (string * obs)) : gmap Z string := foldl (fun d ko => <[o_feature ko.2 := ko.1]> d) ∅ l.
Fixpoint image_points (ppf : gmap Z string) (points_map : gmap string nat) (i : Z) (features : list (R * R)) : list (R * R * nat) :=
  match features with
  | [] => []
  | xy :: features =>
      let rest := image_points ppf points_map (i + 1)%Z features in
      match (k ← ppf !! i; points_map !! k) with Some id => (xy, id) :: rest | None => rest end
  end.
Definition export_image (points_map : gmap string nat) (features_map : gmap string (list (R * R))) (shot_id : string) (c : camera) (p : pose) : res colmap_image :=
  try cam := of_option KeyError (camera_map !! cam_id c) in
  try id := of_option KeyError (images_map !! shot_id) in
  let t := get_translation p in
  let q := angle_axis_to_quaternion (get_rotation p) in
  try os := tm_shot_obs tracks shot_id in
  try feats := of_option KeyError (features_map !! shot_id) in
  Ok (ColmapImage id q t cam shot_id (image_points (point_per_feat (enumO os)) points_map 0 feats)).
End Recs.
