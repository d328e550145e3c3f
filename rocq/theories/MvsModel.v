(** Model of the OpenMVS and PMVS exports: /repo/opensfm/actions/export_openmvs.py:28-80, /repo/opensfm/src/dense/openmvs_exporter.h
    and /repo/opensfm/actions/export_pmvs.py:71-164. Numbers are exact reals; the binary and text encodings, the images themselves and
    cv2.undistort are not modelled. *)
From stdpp Require Import prelude gmap strings.
From Coq Require Import Reals.
From Verif Require Import Base JsonModel CamModel ProjModel Lin RotModel TracksModel PoseModel BundlerModel.
Local Open Scope R_scope.

(** MVS::Interface: a platform with its one camera (R = identity, C = 0 in every platform written here, left out) and its poses *)
Record mvs_platform := MvsPlatform { pl_name : string; pl_width : Z; pl_height : Z; pl_K : mat; pl_poses : list (mat * vec) }.
Record mvs_image := MvsImage { mi_name : string; mi_mask : string; mi_platform : nat; mi_pose : nat }.
Record mvs_vertex := MvsVertex { ve_X : vec; ve_views : list nat }.
(** openmvs_exporter.h:72-76: platform_ids_, image_ids_ and scene_ *)
Record exporter := Exporter { ex_platform_ids : gmap string nat; ex_image_ids : gmap string nat;
  ex_platforms : list mvs_platform; ex_images : list mvs_image; ex_vertices : list mvs_vertex }.
Definition new_exporter : exporter := Exporter ∅ ∅ [] [] [].
(** std::map<std::string, int>::operator[]: a missing key is inserted with 0 *)
Definition brackets (m : gmap string nat) (k : string) : nat * gmap string nat :=
  match m !! k with Some n => (n, m) | None => (0%nat, <[k := 0%nat]> m) end.

(** openmvs_exporter.h:9-24 *)
Definition AddCamera (e : exporter) (camera_id : string) (K : mat) (width height : Z) : exporter :=
  Exporter (<[camera_id := length (ex_platforms e)]> (ex_platform_ids e)) (ex_image_ids e)
    (ex_platforms e ++ [MvsPlatform camera_id width height K []]) (ex_images e) (ex_vertices e).
(** openmvs_exporter.h:26-50. [scene_.platforms[platform_id]] is out of bounds when there is no platform: IndexError here *)
Definition AddShot (e : exporter) (path maskPath shot_id camera_id : string) (Rm : mat) (C : vec) : res exporter :=
  let '(platform_id, ids) := brackets (ex_platform_ids e) camera_id in
  try platform := of_option IndexError (ex_platforms e !! platform_id) in
  let pose_id := length (pl_poses platform) in
  let platform := MvsPlatform (pl_name platform) (pl_width platform) (pl_height platform) (pl_K platform) (pl_poses platform ++ [(Rm, C)]) in
  Ok (Exporter ids (<[shot_id := length (ex_images e)]> (ex_image_ids e)) (<[platform_id := platform]> (ex_platforms e))
        (ex_images e ++ [MvsImage path maskPath platform_id pose_id]) (ex_vertices e)).
(** openmvs_exporter.h:52-65 *)
Fixpoint add_views (ids : gmap string nat) (shot_ids : list string) : list nat * gmap string nat :=
  match shot_ids with
  | [] => ([], ids)
  | k :: l => let '(n, ids) := brackets ids k in let '(ns, ids) := add_views ids l in (n :: ns, ids)
  end.
Definition AddPoint (e : exporter) (coordinates : vec) (shot_ids : list string) : exporter :=
  let '(views, ids) := add_views (ex_image_ids e) shot_ids in
  Exporter (ex_platform_ids e) ids (ex_platforms e) (ex_images e) (ex_vertices e ++ [MvsVertex coordinates views]).

Section OpenMVS.
(** The order of [get_track_observations]; the names in the image list, if given; os.path.isfile, os.path.abspath and the two file names of
    an undistorted image *)
Variable enumO : gmap string obs -> list (string * obs).
Variable export_only : option (gset string).
Variables (isfile : string -> bool) (abspath : string -> string) (image_file mask_file : string -> string).
Definition exported (id : string) : bool := match export_only with None => true | Some l => bool_decide (id ∈ l) end.
(** export_openmvs.py:35-45 *)
Definition openmvs_K (c : camera) : res mat :=
  let w := IZR (cam_width c) in let h := IZR (cam_height c) in
  try focal := get_param c Focal in
  Ok (Mat (focal * Rmax w h) 0 ((w - 1) / 2)
          0 (focal * Rmax w h) ((h - 1) / 2)
          0 0 1).
Definition openmvs_camera (e : exporter) (ic : string * camera) : res exporter :=
  if decide (cam_type ic.2 = PERSPECTIVE) then try K := openmvs_K ic.2 in Ok (AddCamera e ic.1 K (cam_width ic.2) (cam_height ic.2)) else Ok e.
(** 47-64. A shot: its id, the id of its camera, its camera, its pose *)
Definition openmvs_shot (e : exporter) (sh : string * (string * camera * pose)) : res exporter :=
  let '(id, (cid, c, p)) := sh in
  if exported id then
    if decide (cam_type c = PERSPECTIVE) then
      let image_path := image_file id in
      let mask_path := if isfile (mask_file id) then mask_file id else "" in
      AddShot e (abspath image_path) (abspath mask_path) id cid (w_rot p) (get_origin p)
    else Ok e
  else Ok e.
(** 66-77 *)
Definition openmvs_point (tracks : @tm obs) (e : exporter) (pt : string * (vec * color)) : res exporter :=
  try observations := tm_track_obs tracks pt.1 in
  let shots := filter (fun k => exported k = true) ((enumO observations).*1) in
  Ok (match shots with [] => e | _ => AddPoint e pt.2.1 shots end).
Fixpoint foldE {A} (f : exporter -> A -> res exporter) (l : list A) (e : exporter) : res exporter :=
  match l with [] => Ok e | a :: l => try e := f e a in foldE f l e end.
(** 28-80 *)
Definition export_openmvs (cameras : list (string * camera)) (shots : list (string * (string * camera * pose))) (points : list (string * (vec * color)))
    (tracks : @tm obs) : res exporter :=
  try e := foldE openmvs_camera cameras new_exporter in
  try e := foldE openmvs_shot shots e in
  foldE (openmvs_point tracks) points e.
End OpenMVS.

(** PMVS *)
(** features.py:281-289: the size of the image after resizing *)
Definition resized_size (w h max_size : Z) : Z * Z :=
  let size := Z.max w h in
  if decide (0 < max_size < size)%Z then (w * max_size / size, h * max_size / size)%Z else (w, h).
(** export_pmvs.py:141-143: the three rows of the projection matrix, as the 3x3 block and the last column *)
Definition pmvs_matrix (c : camera) (p : pose) (resized_w resized_h : Z) : mat * vec :=
  let resized_K := GetProjectionMatrixScaled c resized_w resized_h in
  (mmul resized_K (w_rot p), mvec resized_K (get_translation p)).
(** networkx's graph: for each node, its neighbours with the weight of the edge (an integer here, [float] of a count). 95-117: the lines
    of vis.dat; an empty graph is false *)
Definition vis_line (enumA : gmap string Z -> list (string * Z)) (graph : gmap string (gmap string Z)) (shot_index : gmap string nat) (image : string) (i : nat)
    : res (list (nat * list nat)) :=
  if decide (graph = ∅) then Ok [] else
  try adjacent := of_option KeyError (graph !! image) in
  Ok [(i, omap (fun aw => if decide (0 < aw.2)%Z then shot_index !! aw.1 else None) (enumA adjacent))].
(** 83-117: the header count and the lines, in the order of the shots *)
Definition vis_data (enumA : gmap string Z -> list (string * Z)) (graph : gmap string (gmap string Z)) (shots : list string) : res (nat * list (nat * list nat)) :=
  let shot_index := enumerate_from 0 shots ∅ in
  try lines := mapR (fun ii => vis_line enumA graph shot_index ii.2 ii.1) (imap (fun i s => (i, s)) shots) in
  Ok (size shot_index, concat lines).
