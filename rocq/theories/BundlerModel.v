(** Model of /repo/opensfm/actions/export_bundler.py:46-127 (export_bundler), one reconstruction. What is modelled is the data of the
    file: the numbers are exact reals, their decimal writing and the text of the list file are not modelled. *)
From stdpp Require Import prelude gmap strings.
From Coq Require Import Reals.
From Verif Require Import Base JsonModel CamModel ProjModel Lin RotModel TracksModel PoseModel.
Local Open Scope R_scope.

Notation obs := (observation R).
Notation color := (Z * Z * Z)%type.
(** What the exporters read of a types.Reconstruction: the camera and the pose of each shot (shot.camera, shot.pose), and the points
    (id, coordinates, color) in the order of [reconstruction.points] *)
Record scene := Scene { sc_shots : gmap string (camera * pose); sc_points : list (string * (vec * color)) }.

(** [{key: i for i, key in enumerate(l)}]: the last position of a name wins *)
Fixpoint enumerate_from (i : nat) (l : list string) (d : gmap string nat) : gmap string nat :=
  match l with [] => d | k :: l => enumerate_from (S i) l (<[k := i]> d) end.
(** [max(camera.width, camera.height)] *)
Definition camera_scale (c : camera) : R := IZR (Z.max (cam_width c) (cam_height c)).

Record bundler_camera := BundlerCamera { bc_focal : R; bc_k1 : R; bc_k2 : R; bc_rotation : mat; bc_translation : vec }.
Record bundler_view := BundlerView { bv_camera : nat; bv_key : Z; bv_x : R; bv_y : R }.
Record bundler_point := BundlerPoint { bp_position : vec; bp_color : color; bp_views : list bundler_view }.
(** [None] is the five lines of zeros *)
Record bundler_file := BundlerFile { bf_num_shot : nat; bf_num_point : nat; bf_cameras : list (option bundler_camera); bf_points : list bundler_point }.

(** export_bundler.py:72-92. [camera.focal_x] is not an attribute of pygeometry.Camera (src/geometry/python/pybind.cc): an
    AttributeError, here RuntimeError like the missing parameters *)
Definition bundler_focal (c : camera) : res R :=
  match cam_type c with BROWN => Err RuntimeError | _ => get_param c Focal end.
Definition flip_rows (m : mat) : mat := Mat (m11 m) (m12 m) (m13 m) (- m21 m) (- m22 m) (- m23 m) (- m31 m) (- m32 m) (- m33 m).
Definition flip (v : vec) : vec := Vec (vx v) (- vy v) (- vz v).
Definition bundler_camera_of (c : camera) (p : pose) : res bundler_camera :=
  try focal_normalized := bundler_focal c in
  let scale := camera_scale c in
  let focal := focal_normalized * scale in
  try k1 := get_param c K1 in
  try k2 := get_param c K2 in
  Ok (BundlerCamera focal k1 k2 (flip_rows (w_rot p)) (flip (get_translation p))).
(** 71-98 *)
Definition bundler_camera_line (s : scene) (shot_id : string) : res (option bundler_camera) :=
  match sc_shots s !! shot_id with
  | Some (c, p) => try b := bundler_camera_of c p in Ok (Some b)
  | None => Ok None
  end.

Section Bundler.
(** The order of [get_track_observations] *)
Variable enumO : gmap string obs -> list (string * obs).
(** 108-117 *)
Definition bundler_views (s : scene) (shots_order : gmap string nat) (l : list (string * obs)) : res (list bundler_view) :=
  foldr (fun so r =>
    try vs := r in
    match sc_shots s !! so.1 with
    | Some (c, _) =>
        try shot_index := of_option KeyError (shots_order !! so.1) in
        let scale := camera_scale c in
        Ok (BundlerView shot_index (o_feature so.2) (o_x so.2 * scale) (- o_y so.2 * scale) :: vs)
    | None => Ok vs
    end) (Ok []) l.
(** 101-119 *)
Definition bundler_point_of (s : scene) (tracks : @tm obs) (shots_order : gmap string nat) (pt : string * (vec * color)) : res bundler_point :=
  try view_list := tm_track_obs tracks pt.1 in
  try vs := bundler_views s shots_order (enumO view_list) in
  Ok (BundlerPoint pt.2.1 pt.2.2 vs).
(** 60-119 *)
Definition export_bundler (image_list : list string) (s : scene) (tracks : @tm obs) : res bundler_file :=
  let shots_order := enumerate_from 0 image_list ∅ in
  try cams := mapR (bundler_camera_line s) image_list in
  try pts := mapR (bundler_point_of s tracks shots_order) (sc_points s) in
  Ok (BundlerFile (length image_list) (length (sc_points s)) cams pts).
End Bundler.
