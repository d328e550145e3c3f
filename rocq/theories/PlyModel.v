(** Model of the PLY files: /repo/opensfm/io.py:1093-1244. Coordinates are exact reals, written by [fmt] (Python's
    "{}".format of a float) and, for point clouds, by "{:.4f}" and "{:.3f}". *)
From Coq Require Import Reals Ascii.
From stdpp Require Import prelude strings pretty.
From Verif Require Import Base TextModel PyText JsonModel Lin PoseModel.
Local Close Scope R_scope.
Local Open Scope string_scope.
Local Open Scope list_scope.

(** io.py:1093-1129 *)
Definition ply_header (count_vertices : nat) (with_normals point_num_views : bool) : list string :=
  ["ply"; "format ascii 1.0"; "element vertex " +:+ pretty (Z.of_nat count_vertices);
   "property float x"; "property float y"; "property float z"] ++
  (if with_normals then ["property float nx"; "property float ny"; "property float nz"] else []) ++
  ["property uchar red"; "property uchar green"; "property uchar blue"] ++
  (if point_num_views then ["property uchar views"] else []) ++ ["end_header"].
(** io.py:1132-1134 *)
Definition points_to_ply_string (vertices : list string) (point_num_views : bool) : string :=
  join (String NL "") (ply_header (length vertices) false point_num_views ++ vertices ++ [""]).

(** A landmark: id, coordinates, colour (0 to 255) and number of observations in the map *)
Record ply_point := PlyPoint { pp_id : string; pp_xyz : vec; pp_color : Z * Z * Z; pp_nobs : nat }.

Section Ply.
Context (fmt : R -> string).
(** "{} {} {} {} {} {}".format(p[0], p[1], p[2], int(c[0]), int(c[1]), int(c[2])) *)
Definition vertex (p : vec) (c : Z * Z * Z) : string :=
  fmt (vx p) +:+ " " +:+ fmt (vy p) +:+ " " +:+ fmt (vz p) +:+ " " +:+ pretty c.1.1 +:+ " " +:+ pretty c.1.2 +:+ " " +:+ pretty c.2.
(** io.py:1147-1160; [tracks] is the tracks manager: the number of observations of a track, an exception if it is not there *)
Definition point_vertex (tracks : option (string -> res nat)) (point_num_views : bool) (p : ply_point) : res string :=
  let s := vertex (pp_xyz p) (pp_color p) in
  match point_num_views, tracks with
  | true, Some t =>
      try n := (if decide (pp_nobs p = 0%nat) then t (pp_id p) else Ok (pp_nobs p)) in
      Ok (s +:+ " " +:+ pretty (Z.of_nat n))
  | _, _ => Ok s
  end.
(** The rows of a matrix *)
Definition rows (m : mat) : list vec := [Vec (m11 m) (m12 m) (m13 m); Vec (m21 m) (m22 m) (m23 m); Vec (m31 m) (m32 m) (m33 m)].
(** np.eye(3)[axis] * 255 *)
Definition axis_colors : list (Z * Z * Z) := [(255, 0, 0); (0, 255, 0); (0, 0, 255)]%Z.
(** np.linspace(0, 2, 10) *)
Definition depths : list R := map (fun i => (2 * INR i / 9)%R) (seq 0 10).
(** io.py:1162-1180 *)
Definition shot_vertices (point_num_views : bool) (pose : pose) : list string :=
  concat (map (fun rc : vec * (Z * Z * Z) =>
    map (fun depth => vertex (vadd (get_origin pose) (vscale depth rc.1)) rc.2 +:+ (if point_num_views then " 0" else "")) depths)
    (zip (rows (w_rot pose)) axis_colors)).
(** io.py:1137-1181; the points and the shots in the order of the reconstruction's containers *)
Definition reconstruction_to_ply (points : list ply_point) (shots : list pose) (tracks : option (string -> res nat))
    (no_cameras no_points point_num_views : bool) : res string :=
  try vs := if no_points then Ok [] else mapR (point_vertex tracks point_num_views) points in
  let cs := if no_cameras then [] else concat (map (shot_vertices point_num_views) shots) in
  Ok (points_to_ply_string (vs ++ cs) point_num_views).

(** A row of a point cloud: position, normal, colour and label *)
Record cloud_row := CloudRow { cr_xyz : vec; cr_normal : vec; cr_color : Z * Z * Z; cr_label : Z }.
Context (fmt4 fmt3 : R -> string).
(** io.py:1209-1244 *)
Definition cloud_line (r : cloud_row) : string :=
  fmt4 (vx (cr_xyz r)) +:+ " " +:+ fmt4 (vy (cr_xyz r)) +:+ " " +:+ fmt4 (vz (cr_xyz r)) +:+ " " +:+
  fmt3 (vx (cr_normal r)) +:+ " " +:+ fmt3 (vy (cr_normal r)) +:+ " " +:+ fmt3 (vz (cr_normal r)) +:+ " " +:+
  pretty (cr_color r).1.1 +:+ " " +:+ pretty (cr_color r).1.2 +:+ " " +:+ pretty (cr_color r).2 +:+ " " +:+ pretty (cr_label r).
Fixpoint write_lines (l : list string) : string := match l with [] => "" | x :: l' => x +:+ String NL (write_lines l') end.
Definition point_cloud_to_ply (cloud : list cloud_row) : string :=
  write_lines (["ply"; "format ascii 1.0"; "element vertex " +:+ pretty (Z.of_nat (length cloud));
    "property float x"; "property float y"; "property float z"; "property float nx"; "property float ny"; "property float nz";
    "property uchar red"; "property uchar green"; "property uchar blue"; "property uchar class"; "end_header"] ++ map cloud_line cloud).
(** io.py:1184-1206. [float(word)] and [int(word)], with the conversion to the type of the array (float32, uint8), which is
    a ValueError or an OverflowError outside of it, are the arguments. *)
Context (parse_float : string -> res R) (parse_uint8 : string -> res Z).
Definition cloud_row_of (row : string) : res cloud_row :=
  let words := py_words row in
  try w9 := of_option IndexError (words !! 9%nat) in
  try label := parse_uint8 w9 in
  match words with
  | w0 :: w1 :: w2 :: w3 :: w4 :: w5 :: w6 :: w7 :: w8 :: _ =>
      try x := parse_float w0 in try y := parse_float w1 in try z := parse_float w2 in
      try nx := parse_float w3 in try ny := parse_float w4 in try nz := parse_float w5 in
      try r := parse_uint8 w6 in try g := parse_uint8 w7 in try b := parse_uint8 w8 in
      Ok (CloudRow (Vec x y z) (Vec nx ny nz) (r, g, b) label)
  | _ => Err IndexError
  end.
(** [all_lines.index("end_header")], a ValueError when absent; then the lines after it *)
Fixpoint after_header (l : list string) : res (list string) :=
  match l with [] => Err ValueError | x :: l' => if decide (x = "end_header") then Ok l' else after_header l' end.
(** [splitlines] is modelled as cutting at newlines only. *)
Definition point_cloud_from_ply (text : string) : res (list cloud_row) :=
  try lines := after_header (getlines NL text) in mapR cloud_row_of lines.
End Ply.
