(** Specification of the undistorted reconstruction: which shots it has, under which names, how they see. *)
From Coq Require Import Reals.
From stdpp Require Import prelude gmap strings.
From Verif Require Import Base CamModel CamSpec CameraSpec ProjModel Lin TracksModel TracksSpec MapModel MapSpec PoseModel PoseSpec RecModel UndistRecModel.
Local Open Scope R_scope.

(** Camera models turned into one perspective image, into the six sides of a cube, or left out *)
Definition flat (t : ptype) : Prop := match t with PERSPECTIVE | BROWN | FISHEYE | FISHEYE_OPENCV | FISHEYE62 => True | _ => False end.
Global Instance flat_dec t : Decision (flat t). Proof. destruct t; apply _. Defined.
Definition supported (t : ptype) : Prop := flat t \/ t = SPHERICAL.

(** The name of an undistorted image: that of the image, to which the extension is added unless it is there *)
Definition named (image_format id n : string) : Prop :=
  (exists stem, id = stem +:+ "." +:+ image_format /\ n = id) \/
  (~ (exists stem, id = stem +:+ "." +:+ image_format) /\ n = id +:+ "." +:+ image_format).
(** The six views: their names and, in the frame of the panorama (x right, y down, z forward), the directions of the right, of the
    bottom and of the axis of each image. The view called left looks to the right and conversely. *)
Definition sides : list (string * (vec * vec * vec)) :=
  [("front", (Vec 1 0 0, Vec 0 1 0, Vec 0 0 1)); ("left", (Vec 0 0 (-1), Vec 0 1 0, Vec 1 0 0));
   ("back", (Vec (-1) 0 0, Vec 0 1 0, Vec 0 0 (-1))); ("right", (Vec 0 0 1, Vec 0 1 0, Vec (-1) 0 0));
   ("top", (Vec 1 0 0, Vec 0 0 1, Vec 0 (-1) 0)); ("bottom", (Vec 1 0 0, Vec 0 0 (-1), Vec 0 1 0))].
Definition rows (a : vec * vec * vec) : mat := let '(r, d, f) := a in Mat (vx r) (vy r) (vz r) (vx d) (vy d) (vz d) (vx f) (vy f) (vz f).
(** The names given to the images of a shot *)
Definition outputs (image_format id : string) (t : ptype) : list string :=
  if decide (flat t) then [add_image_format_extension id image_format]
  else if decide (t = SPHERICAL) then (fun side => add_image_format_extension (id +:+ "_perspective_view_" +:+ side.1) image_format) <$> sides
  else [].

(** The shots that are undistorted: those of the dataset whose camera model is supported *)
Definition kept (r : urec) (images : list string) (id : string) (s : ushot) (c : camera) : Prop :=
  m_shots r !! (false, id) = Some s /\ id ∈ images /\ m_cameras r !! sh_camera s = Some c /\ supported (cam_type c).

(** A perspective camera without distortion, of the size of [c] and of focal length the mean of its two *)
Definition flattened (c c' : camera) : Prop :=
  cam_id c' = cam_id c /\ cam_width c' = cam_width c /\ cam_height c' = cam_height c /\ made c' /\ cam_type c' = PERSPECTIVE /\ undistorted c' /\
  value_of c' Focal = (value_of c Focal + value_of c Focal * param_or c AspectRatio 1) / 2.
(** The camera of a view: square, of half angle 45 degrees *)
Definition quarter (width : Z) (c' : camera) : Prop :=
  cam_width c' = width /\ cam_height c' = width /\ made c' /\ cam_type c' = PERSPECTIVE /\ undistorted c' /\ value_of c' Focal = 1 / 2.

(** What is seen at shot [n] of the new reconstruction: no observations, the measurements [meta], camera [c'], pose [q] *)
Definition shot_of (m : urec) (n : string) (meta : measurements) (c' : camera) (q : pose) : Prop :=
  exists x, m_shots m !! (false, n) = Some x /\ sd_metadata (sh_data x) = meta /\ sh_obs x = ∅ /\
    m_cameras m !! sh_camera x = Some c' /\ get_pose m (false, n) = Some q.

(** Reconstructions that can be undistorted: every reference in it exists, poses are rigid motions, cameras are stored under their
    id, and no camera bears one of the seven names that the views of panoramas use *)
Record well_formed (r : urec) : Prop := {
  wf_refs : no_dangling r;
  wf_poses : poses_valid r;
  wf_cameras : forall id c, m_cameras r !! id = Some c -> cam_id c = id /\ made c /\ id ∉ "perspective_panorama_camera" :: sides.*1 }.
(** No two images of the result have the same name *)
Definition no_clash (r : urec) (images : list string) (image_format : string) : Prop :=
  forall id1 s1 c1 id2 s2 c2 i j, kept r images id1 s1 c1 -> kept r images id2 s2 c2 ->
    outputs image_format id1 (cam_type c1) !! i = outputs image_format id2 (cam_type c2) !! j ->
    is_Some (outputs image_format id1 (cam_type c1) !! i) -> id1 = id2 /\ i = j.
