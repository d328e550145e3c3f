(** Model of how a bundle adjustment problem is set up from a map, and of what is written back:
    opensfm/src/sfm/src/ba_helpers.cc (Bundle, BundleLocal, BundleShotPoses, BundleToMap) and the construction methods of
    opensfm/src/bundle/src/bundle_adjuster.cc.

    The map is the record [scene]: the landmarks a shot observes with the observations, its camera, rig camera, rig
    instance, GPS position and accuracy; the shots of an instance and the observers of a landmark are computed from it
    (C08, C09: the map keeps both directions consistent). Ground control points are not modelled: the list [gcp] is
    empty, which is what the pipeline passes to the local adjustment. Neither are the standard deviations of the
    priors on the parameters of the cameras, the up vector, the reports, nor the minimisation itself: it is an
    arbitrary function of the problem that leaves the constant blocks as they are. *)
From stdpp Require Import prelude gmap strings sorting.
From Coq Require Import Reals.
From Verif Require Import Base Lin NeighModel.
Open Scope nat_scope.

(** a loop that may raise *)
Fixpoint foldM {A X} (f : A -> X -> res A) (a : A) (l : list X) : res A :=
  match l with [] => Ok a | x :: l => try a := f a x in foldM f a l end.

Section Bundle.
(** cameras, GPS biases, poses, coordinates, reprojection errors, observations *)
Context {C B P V E O : Type}.
(** geometry::Similarity(0, 0, 1) *)
Context (bias0 : B).
(** the value of an accuracy that was not given (foundation/optional_value.h: Value() does not check) *)
Context (accuracy0 : R).

Record shot := Shot { s_camera : string; s_rig_camera : string; s_instance : string; s_obs : gmap string O; s_gps : option vec; s_accuracy : option R }.
Record scene := Scene { cameras : gmap string C; biases : gmap string B; rig_cameras : gmap string P; instances : gmap string P; shots : gmap string shot; landmarks : gmap string (V * E) }.

(** The state of a BundleAdjuster. A parameter block is its value and whether it is constant
    ([SetParametersToOptimize({})], SetParameterBlockConstant in Run, 603-669). *)
Record problem := Problem {
  p_cameras : gmap string (C * bool); p_biases : gmap string (B * bool); p_rig_cameras : gmap string (P * bool);
  p_instances : gmap string (P * bool); p_priors : gmap string (vec * R); p_shots : gmap string (string * string * string);
  p_points : gmap string (V * bool); p_obs : list (string * string * O) }.
Definition empty_problem : problem := Problem ∅ ∅ ∅ ∅ ∅ ∅ ∅ [].
Definition set_cameras p x b := Problem x b (p_rig_cameras p) (p_instances p) (p_priors p) (p_shots p) (p_points p) (p_obs p).
Definition set_rig_cameras p x := Problem (p_cameras p) (p_biases p) x (p_instances p) (p_priors p) (p_shots p) (p_points p) (p_obs p).
Definition set_instances p x s := Problem (p_cameras p) (p_biases p) (p_rig_cameras p) x (p_priors p) s (p_points p) (p_obs p).
Definition set_priors p x := Problem (p_cameras p) (p_biases p) (p_rig_cameras p) (p_instances p) x (p_shots p) (p_points p) (p_obs p).
Definition set_points p x := Problem (p_cameras p) (p_biases p) (p_rig_cameras p) (p_instances p) (p_priors p) (p_shots p) x (p_obs p).
Definition set_obs p x := Problem (p_cameras p) (p_biases p) (p_rig_cameras p) (p_instances p) (p_priors p) (p_shots p) (p_points p) x.

(** emplace, then SetParametersToOptimize({}) if constant *)
Definition emplace_block {T} (id : string) (v : T) (constant : bool) (m : gmap string (T * bool)) : gmap string (T * bool) :=
  match m !! id with
  | None => <[id := (v, constant)]> m
  | Some (v', c) => <[id := (v', c || constant)]> m
  end.
(** bundle_adjuster.cc:76-98 *)
Definition add_camera (p : problem) (id : string) (c : C) (constant : bool) : problem :=
  set_cameras p (emplace_block id c constant (p_cameras p)) (emplace_block id bias0 true (p_biases p)).
(** 100-107: the bias set is free *)
Definition set_camera_bias (p : problem) (id : string) (b : B) : res problem :=
  match p_biases p !! id with
  | None => Err RuntimeError
  | Some _ => Ok (set_cameras p (p_cameras p) (<[id := (b, false)]> (p_biases p)))
  end.
(** 109-142; [members]: (shot, camera, rig camera) *)
Definition add_rig_instance (p : problem) (id : string) (pose : P) (members : list (string * string * string)) (constant : bool) : res problem :=
  let p := set_instances p (emplace_block id pose constant (p_instances p)) (p_shots p) in
  foldM (fun p '(shot_id, camera_id, rig_camera_id) =>
    if decide (is_Some (p_cameras p !! camera_id)) then
      if decide (is_Some (p_rig_cameras p !! rig_camera_id)) then
        Ok (set_instances p (p_instances p)
              (match p_shots p !! shot_id with Some _ => p_shots p | None => <[shot_id := (camera_id, rig_camera_id, id)]> (p_shots p) end))
      else Err RuntimeError
    else Err RuntimeError) p members.
(** 144-163 *)
Definition add_rig_camera (p : problem) (id : string) (pose : P) (constant : bool) : res problem :=
  match p_rig_cameras p !! id with
  | Some _ => Err RuntimeError
  | None => Ok (set_rig_cameras p (<[id := (pose, constant)]> (p_rig_cameras p)))
  end.
(** 165-182 *)
Definition add_position_prior (p : problem) (id : string) (position : vec) (std : R) : res problem :=
  match p_instances p !! id with
  | None => Err RuntimeError
  | Some _ => Ok (set_priors p (<[id := (position, std)]> (p_priors p)))
  end.
(** 211-222 *)
Definition add_point (p : problem) (id : string) (v : V) (constant : bool) : problem :=
  set_points p (emplace_block id v constant (p_points p)).
(** 238-250: [at] raises out_of_range *)
Definition add_observation (p : problem) (shot_id point_id : string) (o : O) : res problem :=
  match p_shots p !! shot_id, p_points p !! point_id with
  | Some _, Some _ => Ok (set_obs p (p_obs p ++ [(shot_id, point_id, o)]))
  | _, _ => Err IndexError
  end.

(** the order in which sets and maps are visited, and the sort of the neighbours (see NeighModel) *)
Context (enum : gset string -> list string) (sort_counts : gmap string nat -> list (string * nat)).
(** BundleAdjuster::Run and the reprojection errors it computes for a point *)
Context (solve : problem -> problem) (errors : problem -> string -> E).
(** the poses and points without NaN or infinite values *)
Context (pose_valid : P -> bool) (bias_valid : B -> bool) (point_valid : V -> bool).
(** the keys of camera_priors and rig_camera_priors; bundle_use_gps *)
Context (camera_priors rig_camera_priors : gset string) (use_gps : bool).

Definition shot_obs (s : scene) : gmap string (gset string) := (fun x => dom (s_obs x)) <$> shots s.
Definition shot_instances (s : scene) : gmap string string := s_instance <$> shots s.
Definition members_of (s : scene) (i : string) : gset string := members (shot_instances s) i.

(** [for (cam : map.GetCameras()) ba.AddCamera(cam.id, cam, camera_priors.at(cam.id), fix)] *)
Definition add_cameras (s : scene) (constant : bool) (ids : gset string) (p : problem) : res problem :=
  foldM (fun p id =>
    try c := of_option RuntimeError (cameras s !! id) in
    if decide (id ∈ camera_priors) then Ok (add_camera p id c constant) else Err IndexError) p (enum ids).
Definition add_rig_cameras (s : scene) (constant : string -> bool) (ids : gset string) (p : problem) : res problem :=
  foldM (fun p id =>
    try pose := of_option RuntimeError (rig_cameras s !! id) in
    if decide (id ∈ rig_camera_priors) then add_rig_camera p id pose (constant id) else Err IndexError) p (enum ids).

(** the accumulation of the GPS positions of the shots of an instance *)
Record gps_sum := GpsSum { g_position : vec; g_std : R; g_count : nat }.
Definition gps0 : gps_sum := GpsSum v0 0%R 0.
Definition gps_add (g : gps_sum) (position : vec) (std : R) : gps_sum := GpsSum (vadd (g_position g) position) (g_std g + std)%R (S (g_count g)).
Definition gps_divide (g : gps_sum) : gps_sum := GpsSum (vscale (/ INR (g_count g)) (g_position g)) (g_std g / INR (g_count g))%R (g_count g).

(** BundleLocal, 161-217: one instance *)
Definition local_member (s : scene) (boundary : gset string) (a : gps_sum * bool * list (string * string * string)) (shot_id : string) : res (gps_sum * bool * list (string * string * string)) :=
  let '(g, fixed, l) := a in
  try x := of_option RuntimeError (shots s !! shot_id) in
  let l := l ++ [(shot_id, s_camera x, s_rig_camera x)] in
  if decide (shot_id ∈ boundary) then Ok (g, true, l) else
  match (if use_gps then s_gps x else None) with
  | Some position => Ok (gps_add g position (default accuracy0 (s_accuracy x)), fixed, l)
  | None => Ok (g, fixed, l)
  end.
Definition local_instance (s : scene) (boundary : gset string) (p : problem) (i : string) : res problem :=
  try pose := of_option RuntimeError (instances s !! i) in
  try (g, fixed, l) := foldM (local_member s boundary) (gps0, false, []) (enum (members_of s i)) in
  try p := add_rig_instance p i pose l fixed in
  if decide (fixed = false /\ 0 < g_count g) then let g := gps_divide g in add_position_prior p i (g_position g) (g_std g) else Ok p.
(** 219-235: the points and observations of a shot of the interior *)
Definition local_interior (s : scene) (a : problem * gset string) (shot_id : string) : res (problem * gset string) :=
  try x := of_option RuntimeError (shots s !! shot_id) in
  foldM (fun '(p, points) lm =>
    try o := of_option RuntimeError (s_obs x !! lm) in
    try (p, points) := (if decide (lm ∈ points) then Ok (p, points) else
      try v := of_option RuntimeError (landmarks s !! lm) in Ok (add_point p lm v.1 false, {[lm]} ∪ points)) in
    try p := add_observation p shot_id lm o in Ok (p, points)) a (enum (dom (s_obs x))).
(** 236-244 *)
Definition local_boundary (s : scene) (points : gset string) (p : problem) (shot_id : string) : res problem :=
  try x := of_option RuntimeError (shots s !! shot_id) in
  foldM (fun p lm =>
    try o := of_option RuntimeError (s_obs x !! lm) in
    if decide (lm ∈ points) then add_observation p shot_id lm o else Ok p) p (enum (dom (s_obs x))).

Definition instances_of (s : scene) (l : gset string) : res (gset string) :=
  foldM (fun acc id => try x := of_option RuntimeError (shots s !! id) in Ok ({[s_instance x]} ∪ acc)) ∅ (enum l).
Definition rig_cameras_of (s : scene) (l : gset string) : res (gset string) :=
  foldM (fun acc id => try x := of_option RuntimeError (shots s !! id) in Ok ({[s_rig_camera x]} ∪ acc)) ∅ (enum l).

(** BundleLocal, 121-244: the problem, the instances and the points adjusted *)
Definition local_problem (s : scene) (interior boundary : gset string) : res (problem * gset string * gset string) :=
  try p := add_cameras s true (dom (cameras s)) empty_problem in
  let int_and_bound := interior ∪ boundary in
  try rig_camera_ids := rig_cameras_of s int_and_bound in
  try rig_instance_ids := instances_of s int_and_bound in
  try p := add_rig_cameras s (fun _ => true) rig_camera_ids p in
  try p := foldM (local_instance s boundary) p (enum rig_instance_ids) in
  try (p, points) := foldM (local_interior s) (p, ∅) (enum interior) in
  try p := foldM (local_boundary s points) p (enum boundary) in
  Ok (p, rig_instance_ids, points).
(** 277-287: what is written back: poses of the instances, positions and errors of the points *)
Definition write_instances (s : scene) (p : problem) (ids : gset string) : res scene :=
  foldM (fun s i => try z := of_option RuntimeError (p_instances p !! i) in
    try _ := of_option RuntimeError (instances s !! i) in
    Ok (Scene (cameras s) (biases s) (rig_cameras s) (<[i := z.1]> (instances s)) (shots s) (landmarks s))) s (enum ids).
Definition write_points (s : scene) (p : problem) (ids : gset string) : res scene :=
  foldM (fun s id => try z := of_option RuntimeError (p_points p !! id) in
    Ok (Scene (cameras s) (biases s) (rig_cameras s) (instances s) (shots s) (<[id := (z.1, errors p id)]> (landmarks s)))) s (enum ids).
(** BundleLocal: the map after it, and the ids of the points adjusted *)
Definition bundle_local (s : scene) (central : string) (radius min_common max_shots : nat) : res (scene * gset string) :=
  try (interior, boundary) := shot_neighborhood (shot_obs s) (shot_instances s) enum sort_counts central radius min_common max_shots in
  try (p, ids, points) := local_problem s interior boundary in
  let z := solve p in
  try s := write_instances s z ids in
  try s := write_points s z points in
  Ok (s, points).

(** BundleShotPoses, 454-506: one instance. The call to AddRigInstance and the division of the sums are inside the loop
    over the shots of the instance. *)
Definition poses_member (s : scene) (shot_ids : gset string) (i : string) (pose : P) (a : problem * gps_sum * bool * list (string * string * string)) (shot_id : string)
    : res (problem * gps_sum * bool * list (string * string * string)) :=
  let '(p, g, fixed, l) := a in
  try x := of_option RuntimeError (shots s !! shot_id) in
  let l := l ++ [(shot_id, s_camera x, s_rig_camera x)] in
  let '(g, fixed) := (if decide (shot_id ∈ shot_ids) then
      match use_gps, s_gps x, s_accuracy x with
      | true, Some position, Some accuracy => (gps_add g position accuracy, fixed)
      | _, _, _ => (g, fixed)
      end else (g, true)) in
  try p := add_rig_instance p i pose l fixed in
  if decide (fixed = false /\ 0 < g_count g) then
    let g := gps_divide g in
    try p := add_position_prior p i (g_position g) (g_std g) in Ok (p, g, fixed, l)
  else Ok (p, g, fixed, l).
Definition poses_instance (s : scene) (shot_ids : gset string) (p : problem) (i : string) : res problem :=
  try pose := of_option RuntimeError (instances s !! i) in
  try (p, _, _, _) := foldM (poses_member s shot_ids i pose) (p, gps0, false, []) (enum (members_of s i)) in Ok p.
(** 508-515 *)
Definition poses_observations (s : scene) (p : problem) (shot_id : string) : res problem :=
  try x := of_option RuntimeError (shots s !! shot_id) in
  foldM (fun p lm => try o := of_option RuntimeError (s_obs x !! lm) in add_observation p shot_id lm o) p (enum (dom (s_obs x))).
(** 441-452 *)
Definition landmarks_of (s : scene) (l : gset string) : res (gset string) :=
  foldM (fun acc id => try x := of_option RuntimeError (shots s !! id) in Ok (dom (s_obs x) ∪ acc)) ∅ (enum l).
Definition cameras_of (s : scene) (l : gset string) : res (gset string) :=
  foldM (fun acc id => try x := of_option RuntimeError (shots s !! id) in Ok ({[s_camera x]} ∪ acc)) ∅ (enum l).
(** the shots of the instances *)
Definition shots_of (s : scene) (ids : gset string) : gset string := ⋃ (map (members_of s) (enum ids)).
(** BundleShotPoses, 398-515 *)
Definition poses_problem (s : scene) (shot_ids : gset string) : res (problem * gset string) :=
  try ids := instances_of s shot_ids in
  try rig_camera_ids := rig_cameras_of s (shots_of s ids) in
  try camera_ids := cameras_of s (shots_of s ids) in
  try p := add_rig_cameras s (fun _ => true) rig_camera_ids empty_problem in
  try p := add_cameras s true camera_ids p in
  try lms := landmarks_of s shot_ids in
  try p := foldM (fun p lm => try v := of_option RuntimeError (landmarks s !! lm) in Ok (add_point p lm v.1 true)) p (enum lms) in
  try p := foldM (poses_instance s shot_ids) p (enum ids) in
  try p := foldM (poses_observations s) p (enum shot_ids) in
  Ok (p, ids).
(** 546-550 *)
Definition bundle_shot_poses (s : scene) (shot_ids : gset string) : res scene :=
  try (p, ids) := poses_problem s shot_ids in write_instances s (solve p) ids.

(** Bundle, 619-668: one instance; an accuracy that is not positive is refused *)
Definition full_member (s : scene) (a : gps_sum * list (string * string * string)) (shot_id : string) : res (gps_sum * list (string * string * string)) :=
  let '(g, l) := a in
  try x := of_option RuntimeError (shots s !! shot_id) in
  let l := l ++ [(shot_id, s_camera x, s_rig_camera x)] in
  match use_gps, s_gps x, s_accuracy x with
  | true, Some position, Some accuracy => if Rle_dec accuracy 0 then Err RuntimeError else Ok (gps_add g position accuracy, l)
  | _, _, _ => Ok (g, l)
  end.
Definition full_instance (s : scene) (p : problem) (i : string) : res problem :=
  try pose := of_option RuntimeError (instances s !! i) in
  try (g, l) := foldM (full_member s) (gps0, []) (enum (members_of s i)) in
  try p := add_rig_instance p i pose l false in
  if decide (use_gps = true /\ 0 < g_count g) then let g := gps_divide g in add_position_prior p i (g_position g) (g_std g) else Ok p.
(** 600-616: rig cameras that are lever arms (named as a camera) are constant, and so are all of them when there are at
    most ten shots per rig camera *)
Definition lock_rig_camera (s : scene) (id : string) : bool :=
  bool_decide (id ∈ dom (cameras s)) ||
  bool_decide ((if decide (0 < size (rig_cameras s)) then size (shots s) / size (rig_cameras s) else 1) <= 10).
(** Bundle, 563-696 *)
Definition full_problem (s : scene) (fix_cameras compensate_bias : bool) : res problem :=
  try p := add_cameras s fix_cameras (dom (cameras s)) empty_problem in
  try p := foldM (fun p lm => try v := of_option RuntimeError (landmarks s !! lm) in Ok (add_point p lm v.1 false)) p (enum (dom (landmarks s))) in
  try p := add_rig_cameras s (lock_rig_camera s) (dom (rig_cameras s)) p in
  try p := foldM (full_instance s) p (enum (dom (instances s))) in
  try p := foldM (poses_observations s) p (enum (dom (shots s))) in
  if compensate_bias then
    foldM (fun p id => try b := of_option IndexError (biases s !! id) in set_camera_bias p id b) p (enum (dom (cameras s)))
  else Ok p.
(** BundleToMap, 764-818 *)
Definition write_block {T} (valid : T -> bool) (m : gmap string T) (z : gmap string (T * bool)) : res (gmap string T) :=
  foldM (fun m id => try v := of_option RuntimeError (z !! id) in if valid v.1 then Ok (<[id := v.1]> m) else Err RuntimeError) m (enum (dom m)).
Definition bundle_to_map (s : scene) (z : problem) (update_cameras : bool) : res scene :=
  try cams := (if update_cameras then write_block (fun _ => true) (cameras s) (p_cameras z) else Ok (cameras s)) in
  try bs := write_block bias_valid (biases s) (p_biases z) in
  try is_ := write_block pose_valid (instances s) (p_instances z) in
  try rcs := write_block pose_valid (rig_cameras s) (p_rig_cameras z) in
  try lms := foldM (fun m id => try v := of_option RuntimeError (p_points z !! id) in
      if point_valid v.1 then Ok (<[id := (v.1, errors z id)]> m) else Err RuntimeError) (landmarks s) (enum (dom (landmarks s))) in
  Ok (Scene cams bs rcs is_ (shots s) lms).
Definition bundle (s : scene) (optimize_cameras compensate_bias : bool) : res scene :=
  try p := full_problem s (negb optimize_cameras) compensate_bias in
  bundle_to_map s (solve p) optimize_cameras.
End Bundle.
