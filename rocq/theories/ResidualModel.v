(** Model of the residuals a bundle adjustment minimises, beside the reprojection errors (C44): /repo/opensfm/src/bundle/error and
    /repo/opensfm/src/bundle/data, and of how bundle_adjuster.cc (Run) hands the parameters to them. Exact real arithmetic; the
    functions of ceres/rotation.h are those of SubAlignModel.v; the derivatives that automatic differentiation gives are not modelled. *)
From stdpp Require Import prelude strings.
From Coq Require Import Reals.
From Verif Require Import Base Lin RotModel GeoModel PoseModel SubAlignModel.
Local Open Scope R_scope.

(** data/pose.h:17: the parameters RX RY RZ, TX TY TZ *)
Record block := Block { b_r : vec; b_t : vec }.
(** data/pose.h:35-45, 47-55, with CAM_TO_WORLD; pose.h:103-106 *)
Definition pose_to_block (p : pose) : block := Block (rotation_cam_to_world_min p) (c_tr p).
Definition block_to_pose (b : block) : pose := from_cam_to_world (vector_to_rotation (b_r b)) (b_t b).
(** the same with WORLD_TO_CAM; pose.h:184-188 (RotationWorldToCameraMin is the opposite of the other) *)
Definition pose_to_block_w (p : pose) : block := Block (get_rotation p) (w_tr p).
Definition block_to_pose_w (b : block) : pose := pose_of_vector (b_r b) (b_t b).

(** error_utils.h:15-25, 27-40 *)
Definition mult_rotations (r1 r2 : vec) : vec := quaternion_to_aa (quaternion_product (aa_to_quaternion r1) (aa_to_quaternion r2)).
Definition mult_rotations3 (r1 r2 r3 : vec) : vec :=
  quaternion_to_aa (quaternion_product (quaternion_product (aa_to_quaternion r1) (aa_to_quaternion r2)) (aa_to_quaternion r3)).
(** 55-72 *)
Definition world_to_local (scale : R) (shot : block) (x : vec) : vec := aa_rotate_point (vopp (b_r shot)) (vsub (vscale scale x) (b_t shot)).
(** 78-92; no rig camera is a null pointer *)
Definition world_to_camera_rig (scale : R) (inst : block) (rc : option block) (x : vec) : vec :=
  match rc with
  | Some c => world_to_local 1 c (world_to_local scale inst x)
  | None => world_to_local scale inst x
  end.
(** 94-104 *)
Definition diff_between_angles (a b : R) : R :=
  let d := a - b in
  if Rlt_dec PI d then d - 2 * PI else if Rlt_dec d (- PI) then d + 2 * PI else d.

(** position_functors.h:19-36, 48-64; [None] for an index that is not set *)
Definition shot_position (inst : block) (rc : option block) : vec :=
  match rc with Some c => vadd (b_t inst) (aa_rotate_point (b_r inst) (b_t c)) | None => b_t inst end.
Definition shot_rotation (inst : block) (rc : option block) : vec :=
  match rc with Some c => mult_rotations (b_r inst) (b_r c) | None => b_r inst end.

(** absolute_motion_errors.h:14-23, 25-38. The functors of this file always get a rig camera. *)
Definition up_vector_error (acceleration : vec) (sd : R) (inst rc : block) : res vec :=
  if Rlt_dec (norm acceleration) (/ 10 ^ 10) then Err RuntimeError
  else
    let a := vscale (/ norm acceleration) acceleration in
    let z_world := aa_rotate_point (shot_rotation inst (Some rc)) a in
    Ok (vscale (1 / sd) (vsub z_world (Vec 0 0 1))).
(** 48-66 *)
Definition pan_angle_error (angle sd : R) (inst rc : block) : R :=
  let z_world := aa_rotate_point (shot_rotation inst (Some rc)) (Vec 0 0 1) in
  if Rlt_dec (Rabs (vx z_world)) (/ 10 ^ 8) then
    if Rlt_dec (Rabs (vy z_world)) (/ 10 ^ 8) then 0
    else 1 / sd * diff_between_angles (atan2 (vx z_world) (vy z_world)) angle
  else 1 / sd * diff_between_angles (atan2 (vx z_world) (vy z_world)) angle.
(** 76-91 *)
Definition tilt_angle_error (angle sd : R) (inst rc : block) : R :=
  let rt_ez := aa_rotate_point (shot_rotation inst (Some rc)) (Vec 0 0 1) in
  let l := sqrt (vx rt_ez * vx rt_ez + vy rt_ez * vy rt_ez) in
  1 / sd * diff_between_angles (- atan2 (vz rt_ez) l) angle.
(** 101-138 *)
Definition roll_angle_error (angle sd : R) (inst rc : block) : R :=
  let r := shot_rotation inst (Some rc) in
  let rt_ex := aa_rotate_point r (Vec 1 0 0) in
  let rt_ez := aa_rotate_point r (Vec 0 0 1) in
  let la := sqrt (vy rt_ez * vy rt_ez + - vx rt_ez * - vx rt_ez) in
  if Rlt_dec la (/ 10 ^ 5) then 0
  else
    let a := Vec (vy rt_ez / la) (- vx rt_ez / la) 0 in
    let b := cross rt_ex a in
    let sin_roll := vx rt_ez * vx b + vy rt_ez * vy b + vz rt_ez * vz b in
    if Rle_dec sin_roll (- (1 - / 10 ^ 5)) then 0
    else 1 / sd * diff_between_angles (asin sin_roll) angle.
(** 144-175; [interpolate row col] is the interpolator of the heatmap, its own height and width as given *)
Definition heatmap_error (interpolate : R -> R -> R) (x_offset y_offset height width resolution sd : R) (inst rc : block) : R :=
  let position := shot_position inst (Some rc) in
  let x := vx position - x_offset in let y := vy position - y_offset in
  interpolate (height / 2 - y / resolution) (width / 2 + x / resolution) * (1 / sd).
(** 179-201 *)
Definition eps_sq : R := / 10 ^ 20.
Definition translation_prior_error (prior : R) (a b : block) : R :=
  let d := vsub (b_t a) (b_t b) in
  ln (sqrt (dot d d + eps_sq) / Rmax prior eps_sq).

(** motion_prior_errors.h:19-66: the residuals of the position and of the rotation *)
Definition linear_motion_error (alpha position_sd orientation_sd : R) (i0 i1 i2 : block) (c0 c1 c2 : option block) : vec * vec :=
  let r0 := shot_rotation i0 c0 in let t0 := shot_position i0 c0 in
  let r1 := shot_rotation i1 c1 in let t1 := shot_position i1 c1 in
  let r2 := shot_rotation i2 c2 in let t2 := shot_position i2 c2 in
  let t20 := vsub t2 t0 in let t10 := vsub t1 t0 in
  let position :=
    if Rlt_dec (/ 10 ^ 15) (norm t20) then
      let e := 1 / position_sd * (alpha - norm t10 / norm t20) in Vec e e e
    else vscale (1 / position_sd) (vsub (vscale alpha t20) t10) in
  let r20 := vscale alpha (mult_rotations r2 (vopp r0)) in
  let r01 := mult_rotations r0 (vopp r1) in
  (position, vscale (1 / orientation_sd) (mult_rotations r20 r01)).

(** parameters_errors.h:11-16 *)
Definition std_deviation_error (sd : R) : R := ln (1 / sqrt (2 * PI * (sd * sd + / 10 ^ 20))).
(** 23-31 *)
Definition parameter_barrier (lower upper value : R) : R :=
  let eps := / 10 ^ 10 in
  let zero := 2 * ln ((upper - lower) * (1 / 2)) in
  let penalty := ln (value - lower + eps) + ln (upper - value + eps) in
  penalty + zero.

(** prior_error.h:20-105. A vector is the list of its coefficients. [indexes] is the order in which the set of the constrained
    indexes is read; [logarithmic] the indexes of that scale; [transform] what the transform makes of the prior. *)
Definition nthR (l : list R) (i : nat) : R := nth i l 0.
Definition prior_scale (sigma : list R) (i : nat) : R := 1 / Rmax (nthR sigma i) (/ 2 ^ 52).
Definition data_prior_error (sigma prior : list R) (indexes : list nat) (logarithmic : nat -> bool) (transform : list R -> list R)
    (adjust : option R) (parameters : list R) : list R :=
  let prior := transform prior in
  (fun i =>
    let error := if logarithmic i then ln (nthR parameters i / nthR prior i) else nthR parameters i - nthR prior i in
    let scale := match adjust with Some s => prior_scale sigma i / s | None => prior_scale sigma i end in
    scale * error) <$> indexes.
(** the six parameters of a pose as a vector, and back *)
Definition list_of_block (b : block) : list R := [vx (b_r b); vy (b_r b); vz (b_r b); vx (b_t b); vy (b_t b); vz (b_t b)].
(** data/bias.h:19-33, 41-58: the parameters of a similarity, and the transform of a prior: only its translation is changed *)
Record sim_block := SimBlock { sb_r : vec; sb_t : vec; sb_scale : R }.
Definition similarity_prior_transform (bias : sim_block) (prior : list R) : list R :=
  let point := Vec (nthR prior 3) (nthR prior 4) (nthR prior 5) in
  let point := vadd (vscale (sb_scale bias) (aa_rotate_point (sb_r bias) point)) (sb_t bias) in
  [nthR prior 0; nthR prior 1; nthR prior 2; vx point; vy point; vz point].
(** bundle_adjuster.cc:166-184 (AddRigInstancePositionPrior), 741-778: the residual of the GPS position of a rig instance *)
Definition pose_at (o : vec) : pose := set_origin pose0 o.
Definition instance_position_error (position sd : vec) (bias : sim_block) (adjust : option R) (inst : block) : list R :=
  data_prior_error (list_of_block (pose_to_block (pose_at sd))) (list_of_block (pose_to_block (pose_at position))) [3; 4; 5]%nat
    (fun _ => false) (similarity_prior_transform bias) adjust (list_of_block inst).
(** 252-265, 689-709: the residual of the prior of a point; without an altitude only the first two coordinates *)
Definition list_of_vec (v : vec) : list R := [vx v; vy v; vz v].
Definition point_prior_error (position sd : vec) (has_altitude : bool) (point : vec) : list R :=
  data_prior_error (list_of_vec sd) (list_of_vec position) (if has_altitude then [0; 1; 2] else [0; 1])%nat (fun _ => false) (fun p => p) None (list_of_vec point).
(** 780-792: the residual of the prior of a rig camera; [sigma] are its six standard deviations *)
Definition rig_camera_prior_error (sigma : block) (prior : pose) (rc : block) : list R :=
  data_prior_error (list_of_block sigma) (list_of_block (pose_to_block prior)) [0; 1; 2; 3; 4; 5]%nat (fun _ => false) (fun p => p) None (list_of_block rc).
(** 568-592, 794-798: the residual of the priors of a camera; [logarithmic i]: the parameter i is a focal length or an aspect ratio *)
Definition camera_prior_error (logarithmic : nat -> bool) (sigma prior parameters : list R) : list R :=
  data_prior_error sigma prior (seq 0 (length sigma)) logarithmic (fun p => p) None parameters.

(** relative_depth_error.h:22-41 *)
Definition relative_depth_error (depth sd : R) (use_rig_camera is_radial : bool) (inst rc : block) (point : vec) : R :=
  let x := world_to_camera_rig 1 inst (if use_rig_camera then Some rc else None) point in
  1 / sd * ((if is_radial then norm x else vz x) - depth).

(** relative_motion_errors.h:21-62: the seven residuals before the scale matrix, and after it (a list of rows); [None] when the
    functor returns false *)
Definition mul_rows (m : list (list R)) (v : list R) : list R := (fun row => foldr Rplus 0 (zip_with Rmult row v)) <$> m.
Definition relative_motion_residual (rij tij : vec) (sij : R) (observed_scale : bool) (i j : block) (scale_i scale_j : R) : list R :=
  let r := mult_rotations3 rij (vopp (b_r i)) (b_r j) in
  let t := vsub tij (vscale scale_j (aa_rotate_point (vopp (b_r j)) (vsub (b_t i) (b_t j)))) in
  list_of_vec r ++ list_of_vec t ++ [if observed_scale then sij - scale_j / scale_i else 0].
Definition relative_motion_error (rij tij : vec) (sij : R) (scale_matrix : list (list R)) (observed_scale : bool) (i j : block) (scale_i scale_j : R) : option (list R) :=
  if Req_EM_T scale_i 0 then None else if Req_EM_T scale_j 0 then None
  else Some (mul_rows scale_matrix (relative_motion_residual rij tij sij observed_scale i j scale_i scale_j)).
(** 77-92 *)
Definition relative_rotation_error (rij : vec) (scale_matrix : mat) (i j : block) (ci cj : option block) : vec :=
  mvec scale_matrix (mult_rotations3 rij (vopp (shot_rotation i ci)) (shot_rotation j cj)).
(** 107-124 *)
Definition common_position_error (margin sd : R) (i j : block) (ci cj : option block) : vec :=
  let e := vsub (shot_position i ci) (shot_position j cj) in
  vscale (1 / sd) (Vec (Rmax 0 (Rabs (vx e) - margin)) (Rmax 0 (Rabs (vy e) - margin)) (vz e)).

(** ** bundle_adjuster.cc: which rig camera a functor of several shots reads. A rig camera is named by the identity of its block. *)
(** 17-20: [blocks rc] are the parameters, [constant rc]: nothing of them is optimised *)
Section Wiring.
Context (blocks : string -> block) (constant : string -> bool).
Definition is_zero_block (b : block) : bool := if Req_EM_T (norm (b_r b)) 0 then (if Req_EM_T (norm (b_t b)) 0 then true else false) else false.
Definition useful (rc : string) : bool := negb (constant rc && is_zero_block (blocks rc)).
(** 864-893 (relative rotations), 907-940 (common positions): the rig cameras after the blocks of the instances, the index of that
    of each shot among them *)
Definition wire_two (rc_i rc_j : string) : list string * option nat * option nat :=
  let '(l, ix_i) := if useful rc_i then ([rc_i], Some 0%nat) else ([], None) in
  if useful rc_j then
    if decide (rc_j <> rc_i) then (l ++ [rc_j], ix_i, Some (length l)) else (l, ix_i, ix_i)
  else (l, ix_i, None).
(** 1031-1081 (linear motions) *)
Definition wire_three (rc_0 rc_1 rc_2 : string) : list string * option nat * option nat * option nat :=
  let '(l, ix_0, ix_1) := wire_two rc_0 rc_1 in
  if useful rc_2 then
    if decide (rc_2 <> rc_0 /\ rc_2 <> rc_1) then (l ++ [rc_2], ix_0, ix_1, Some (length l)) else (l, ix_0, ix_1, ix_0)
  else (l, ix_0, ix_1, None).
(** the block a functor reads at an index *)
Definition read (l : list string) (ix : option nat) : option block := i ← ix; blocks <$> l !! i.
(** 820-850 (relative motions): the scales are those of the reconstructions of the two instances; one block when they are the same *)
(** 864-893 *)
Definition relative_rotation_residual (rij : vec) (scale_matrix : mat) (i j : block) (rc_i rc_j : string) : vec :=
  let '(l, a, b) := wire_two rc_i rc_j in relative_rotation_error rij scale_matrix i j (read l a) (read l b).
(** 907-940 *)
Definition common_position_residual (margin sd : R) (i j : block) (rc_i rc_j : string) : vec :=
  let '(l, a, b) := wire_two rc_i rc_j in common_position_error margin sd i j (read l a) (read l b).
(** 1031-1081 *)
Definition linear_motion_residual (alpha position_sd orientation_sd : R) (i0 i1 i2 : block) (rc_0 rc_1 rc_2 : string) : vec * vec :=
  let '(l, a, b, c) := wire_three rc_0 rc_1 rc_2 in linear_motion_error alpha position_sd orientation_sd i0 i1 i2 (read l a) (read l b) (read l c).
(** 512-522 *)
Definition depth_residual (depth sd : R) (is_radial : bool) (inst : block) (rc : string) (point : vec) : R :=
  relative_depth_error depth sd (useful rc) is_radial inst (blocks rc) point.
End Wiring.
(** bundle_adjuster.h:25-51: the scale an instance uses, that of its reconstruction's first instance when it is shared
    ([scales] is ordered by instance) *)
Definition get_scale (shared : bool) (scales : list (string * R)) (instance : string) : res R :=
  if shared then match scales with [] => Err RuntimeError | (_, s) :: _ => Ok s end
  else of_option KeyError (list_find (fun x => x.1 = instance) scales ≫= fun x => Some x.2.2).
(** 1083-1099 (gauge): the distance of the two instances before the adjustment is the prior *)
Definition gauge_residual (start_1 start_2 : pose) (a b : block) : R :=
  translation_prior_error (norm (vsub (get_origin start_1) (get_origin start_2))) a b.
