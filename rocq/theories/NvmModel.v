(** Model of /repo/opensfm/actions/export_visualsfm.py:34-130 (export) and of /repo/opensfm/transformations.py:1361-1439
    (quaternion_from_matrix with isprecise = False), in exact real arithmetic. What is modelled is the data of the file, not its text.
    numpy.linalg.eigh is an oracle: it is given the lower triangle and returns the eigenvalues with their eigenvectors. *)
From stdpp Require Import prelude gmap strings.
From Coq Require Import Reals.
From Verif Require Import Base JsonModel CamModel ProjModel Lin RotModel TracksModel PoseModel BundlerModel.
Local Open Scope R_scope.

(** Vectors of four numbers, and the lower triangle of a 4x4 matrix, row by row *)
Record vec4 := Vec4 { q0 : R; q1 : R; q2 : R; q3 : R }.
Record lower4 := Lower4 { l00 : R; l10 : R; l11 : R; l20 : R; l21 : R; l22 : R; l30 : R; l31 : R; l32 : R; l33 : R }.

(** transformations.py:1412-1428 *)
Definition davenport (M : mat) : lower4 :=
  let m00 := m11 M in let m01 := m12 M in let m02 := m13 M in
  let m10 := m21 M in let m11 := m22 M in let m12 := m23 M in
  let m20 := m31 M in let m21 := m32 M in let m22 := m33 M in
  Lower4 ((m00 - m11 - m22) / 3)
         ((m01 + m10) / 3) ((m11 - m00 - m22) / 3)
         ((m02 + m20) / 3) ((m12 + m21) / 3) ((m22 - m00 - m11) / 3)
         ((m21 - m12) / 3) ((m02 - m20) / 3) ((m10 - m01) / 3) ((m00 + m11 + m22) / 3).
(** numpy.argmax over the eigenvalues: the first largest *)
Definition argmax (l : list (R * vec4)) : option (R * vec4) :=
  foldl (fun best e => match best with None => Some e | Some b => if Rlt_dec b.1 e.1 then Some e else Some b end) None l.
(** 1430-1435; numpy.argmax of an empty array raises ValueError (a 4x4 matrix has four eigenvalues) *)
Definition quaternion_from_matrix (eigh : lower4 -> list (R * vec4)) (M : mat) : res vec4 :=
  try e := of_option ValueError (argmax (eigh (davenport M))) in
  let v := e.2 in
  let q := Vec4 (q3 v) (q0 v) (q1 v) (q2 v) in
  Ok (if Rlt_dec (q0 q) 0 then Vec4 (- q0 q) (- q1 q) (- q2 q) (- q3 q) else q).

Record nvm_camera := NvmCamera { nc_name : string; nc_focal : R; nc_q : vec4; nc_origin : vec }.
Record nvm_view := NvmView { nv_camera : nat; nv_feature : Z; nv_x : R; nv_y : R }.
Record nvm_point := NvmPoint { np_position : vec; np_color : color; np_views : list nvm_view }.
Record nvm_file := NvmFile { nf_num_cameras : Z; nf_cameras : list nvm_camera; nf_num_points : Z; nf_points : list nvm_point }.

Section Nvm.
Variable eigh : lower4 -> list (R * vec4).
Variable enumO : gmap string obs -> list (string * obs).
(** The items of [reconstruction.shots] in order, udata.undistorted_image_size (height and width), the names in the image list if given *)
Variables (shots : list (string * (camera * pose))) (image_size : string -> Z * Z) (export_only : option (gset string)).
Definition selected (id : string) : bool := match export_only with None => true | Some l => bool_decide (id ∈ l) end.

(** 58-63. [focal_x] and [focal_y] are not attributes of pygeometry.Camera: AttributeError, here RuntimeError *)
Definition nvm_focal (c : camera) : res R := match cam_type c with BROWN => Err RuntimeError | _ => get_param c Focal end.
(** 46-79. State: the lines written, the next index, shot_size_cache and shot_index (one map), skipped_shots *)
Definition nvm_shot_step (st : list nvm_camera * nat * gmap string (Z * Z * nat) * Z) (sh : string * (camera * pose))
    : res (list nvm_camera * nat * gmap string (Z * Z * nat) * Z) :=
  let '(lines, i, cache, skipped) := st in
  let '(id, (c, p)) := sh in
  if selected id then
    try q := quaternion_from_matrix eigh (w_rot p) in
    let o := get_origin p in
    let size := image_size id in
    try focal_normalized := nvm_focal c in
    Ok (lines ++ [NvmCamera id (focal_normalized * IZR (Z.max size.1 size.2)) q o], S i, <[id := (size, i)]> cache, skipped)
  else Ok (lines, i, cache, (skipped + 1)%Z).
Fixpoint nvm_shots (st : list nvm_camera * nat * gmap string (Z * Z * nat) * Z) (l : list (string * (camera * pose)))
    : res (list nvm_camera * nat * gmap string (Z * Z * nat) * Z) :=
  match l with [] => Ok st | sh :: l => try st := nvm_shot_step st sh in nvm_shots st l end.

(** 97-110 *)
Definition nvm_views (cache : gmap string (Z * Z * nat)) (l : list (string * obs)) : res (list nvm_view) :=
  foldr (fun so r =>
    try vs := r in
    if selected so.1 then
      if bool_decide (so.1 ∈ shots.*1) then
        try e := of_option KeyError (cache !! so.1) in
        let '(size, index) := e in
        Ok (NvmView index (o_feature so.2) ((0.5 + o_x so.2) * IZR size.2) ((0.5 + o_y so.2) * IZR size.1) :: vs)
      else Ok vs
    else Ok vs) (Ok []) l.
(** 91-126: the points written and the number of points skipped *)
Definition nvm_points (tracks : @tm obs) (cache : gmap string (Z * Z * nat)) (l : list (string * (vec * color))) : res (list nvm_point * Z) :=
  foldl (fun r pt =>
    try acc := r in
    try os := tm_track_obs tracks pt.1 in
    try vs := nvm_views cache (enumO os) in
    if (1 <? length vs)%nat then Ok (acc.1 ++ [NvmPoint pt.2.1 pt.2.2 vs], acc.2) else Ok (acc.1, (acc.2 + 1)%Z)) (Ok ([], 0%Z)) l.

(** 41-131. Without points the file says 0 points *)
Definition export_nvm (tracks : @tm obs) (points : list (string * (vec * color))) (with_points : bool) : res nvm_file :=
  try st := nvm_shots ([], 0%nat, ∅, 0%Z) shots in
  let '(lines, _, cache, skipped) := st in
  let count := (Z.of_nat (length shots) - skipped)%Z in
  if with_points then
    try ps := nvm_points tracks cache points in
    Ok (NvmFile count lines (Z.of_nat (length points) - ps.2)%Z ps.1)
  else Ok (NvmFile count lines 0 []).
End Nvm.
