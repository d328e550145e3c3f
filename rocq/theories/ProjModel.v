(** Model of the projections of a camera and of the bundle adjustment errors built on them:
    /repo/opensfm/src/geometry/camera_instances.h, src/geometry/src/camera.cc, src/geometry/src/covariance.cc and
    src/bundle/error/projection_errors.h, in exact real arithmetic. *)
From stdpp Require Import prelude.
From Coq Require Import Reals.
From Verif Require Import Base Lin CamModel PoseModel FunctorModel.
Local Open Scope R_scope.

(** camera_instances.h:189-203 and the switch of Dispatch (205-247) *)
Definition Dispatch (t : ptype) : camera_model :=
  match t with
  | PERSPECTIVE => CameraModel PERSP D24 SCALE
  | BROWN => CameraModel PERSP BROWND AFF
  | FISHEYE => CameraModel FISH D24 SCALE
  | FISHEYE_OPENCV => CameraModel FISH D2468 AFF
  | FISHEYE62 => CameraModel FISH D62 AFF
  | FISHEYE624 => CameraModel FISH D624 AFF
  | RADIAL => CameraModel PERSP D24 AFF
  | SIMPLE_RADIAL => CameraModel PERSP D2 AFF
  | DUAL => CameraModel DUALP D24 SCALE
  | SPHERICAL => CameraModel SPHER IDENT IDENT
  end.
(** camera.cc:290-295, 305-310; None is a result that is not a number *)
Definition list_of_vec (p : vec) : list R := [vx p; vy p; vz p].
Definition Project (c : camera) (point : vec) : option (R * R) :=
  match Generic_Forward (Dispatch (cam_type c)) (list_of_vec point) (cam_values c) with Some p => Some (p.[0], p.[1]) | None => None end.
Definition Bearing (c : camera) (point : R * R) : option vec :=
  match Generic_Backward (Dispatch (cam_type c)) [point.1; point.2] (cam_values c) with Some b => Some (Vec b.[0] b.[1] b.[2]) | None => None end.
(** camera.cc:297-303, 312-318 *)
Definition ProjectMany (c : camera) (points : list vec) : list (option (R * R)) := map (Project c) points.
Definition BearingsMany (c : camera) (points : list (R * R)) : list (option vec) := map (Bearing c) points.

(** camera.cc:189-195 GetParametersMap, then the find of 246-268 *)
Definition param_or (c : camera) (p : param) (dflt : R) : R := match get_param c p with Ok x => x | Err _ => dflt end.
(** camera.cc:238-276 *)
Definition GetProjectionMatrix (c : camera) : mat :=
  let focal := param_or c Focal 1 in
  let aspect_ratio := param_or c AspectRatio 1 in
  Mat focal 0 (param_or c Cx 0)
      0 (focal * aspect_ratio) (param_or c Cy 0)
      0 0 1.
(** camera.cc:278-289 *)
Definition GetProjectionMatrixScaled (c : camera) (width_2 height_2 : Z) : mat :=
  let unnormalizer := IZR (Z.max width_2 height_2) in
  let m := GetProjectionMatrix c in
  Mat (unnormalizer * m11 m) (unnormalizer * m12 m) (m13 m * unnormalizer + 0.5 * IZR width_2)
      (unnormalizer * m21 m) (unnormalizer * m22 m) (m23 m * unnormalizer + 0.5 * IZR height_2)
      0 0 1.
(** camera.cc:320-347: the entry of row v and column u of the two matrices *)
Definition ComputeCameraMapping (from to : camera) (width height : Z) (v u : Z) : option (R * R) :=
  let normalizer_factor := IZR (Z.max width height) in
  let inv_normalizer_factor := 1 / normalizer_factor in
  let half_width := IZR width * 0.5 in
  let half_height := IZR height * 0.5 in
  let uv := (inv_normalizer_factor * (IZR u - half_width), inv_normalizer_factor * (IZR v - half_height)) in
  match Bearing to uv with
  | None => None
  | Some b => match Project from b with
              | None => None
              | Some p => Some (normalizer_factor * p.1 + half_width, normalizer_factor * p.2 + half_height)
              end
  end.

(** ** Derivatives: camera_instances.h:36-83 *)
Definition ProjectPoseDerivatives (t : ptype) := ComposeForwardDerivatives true [Generic (Dispatch t); PoseFunctor].
Definition ProjectPosePointDerivatives (t : ptype) := ComposeForwardDerivatives false [Generic (Dispatch t); PoseFunctor].
Definition ProjectRigPoseDerivatives (t : ptype) := ComposeForwardDerivatives true [Generic (Dispatch t); PoseFunctor; PoseFunctor].
Definition PoseNormalizedDerivatives := ComposeForwardDerivatives true [Normalize; PoseFunctor].
Definition RigPoseNormalizedDerivatives := ComposeForwardDerivatives true [Normalize; PoseFunctor; PoseFunctor].

(** ** Bundle adjustment errors: bundle/error/projection_errors.h *)
(** 15-29: the constructor *)
Record reprojection_error := ReprojectionError { re_type : ptype; re_observed : R * R; re_scale : R; re_use_rig_camera : bool }.
Definition new_error (t : ptype) (observed : R * R) (std_deviation : R) (use_rig_camera : bool) : reprojection_error :=
  ReprojectionError t observed (1 / std_deviation) use_rig_camera.
(** The parameter blocks of a ceres::SizedCostFunction<2, C, 6, 6, 3> *)
Record blocks := Blocks { b_camera : list R; b_rig_instance : list R; b_rig_camera : list R; b_point : list R }.
(** Columns [o, o + n) of a matrix of two or three rows of length [stride], scaled *)
Definition scaled_block (scale : R) (rows stride o n : nat) (j : list R) : list R :=
  concat (map (fun i => map (fun k => scale * j.[i * stride + o + k]) (seq 0 n)) (seq 0 rows)).
Definition zero_block (rows n : nat) : list R := replicate (rows * n) 0.
(** 70-83, "Error only": PoseFunctor::Forward reads its input before it writes, so it may work in place *)
Definition transformed (e : reprojection_error) (b : blocks) : list R :=
  let p := Forward PoseFunctor (b_point b) (b_rig_instance b) in
  if re_use_rig_camera e then Forward PoseFunctor p (b_rig_camera b) else p.
Definition residuals (scale : R) (predicted observed : list R) (n : nat) : list R := map (fun i => scale * (predicted.[i] - observed.[i])) (seq 0 n).
Definition Evaluate2D_residuals (C : nat) (e : reprojection_error) (b : blocks) : list R :=
  residuals (re_scale e) (Forward (Generic (Dispatch (re_type e))) (transformed e b) (b_camera b)) [(re_observed e).1; (re_observed e).2] 2.
(** 84-207, "Jacobian + Error": the residuals and the jacobians of the four blocks (camera, rig instance, rig camera, point).
    A jacobian that the caller does not want (a null pointer) is one that it ignores. *)
Definition Evaluate2D (C : nat) (e : reprojection_error) (b : blocks) : list R * (list R * list R * list R * list R) :=
  let scale := re_scale e in
  let '(predicted, jacs) :=
    if re_use_rig_camera e then
      let all_params := take 6 (b_rig_instance b) ++ take 6 (b_rig_camera b) ++ take C (b_camera b) in
      let StrideFull := (3 + C + 2 * 6)%nat in
      let '(predicted, jacobian) := ProjectRigPoseDerivatives (re_type e) (b_point b) all_params in
      (predicted, (scaled_block scale 2 StrideFull (3 + 2 * 6) C jacobian, scaled_block scale 2 StrideFull 3 6 jacobian,
                   scaled_block scale 2 StrideFull (3 + 6) 6 jacobian, scaled_block scale 2 StrideFull 0 3 jacobian))
    else
      let all_params := take 6 (b_rig_instance b) ++ take C (b_camera b) in
      let StrideFull := (3 + C + 6)%nat in
      let '(predicted, jacobian) := ProjectPoseDerivatives (re_type e) (b_point b) all_params in
      (predicted, (scaled_block scale 2 StrideFull (3 + 6) C jacobian, scaled_block scale 2 StrideFull 3 6 jacobian,
                   zero_block 2 6, scaled_block scale 2 StrideFull 0 3 jacobian)) in
  (residuals scale predicted [(re_observed e).1; (re_observed e).2] 2, jacs).
(** 209-226 *)
Definition bearing_vector (observed : R * R) : list R :=
  let lon := observed.1 * 2 * PI in let lat := - observed.2 * 2 * PI in [cos lat * sin lon; - sin lat; cos lat * cos lon].
(** 262-275: Eigen's normalize divides by the norm *)
Definition normalize3 (p : list R) : list R :=
  let n := sqrt (p.[0] * p.[0] + p.[1] * p.[1] + p.[2] * p.[2]) in [p.[0] / n; p.[1] / n; p.[2] / n].
Definition Evaluate3D_residuals (e : reprojection_error) (b : blocks) : list R :=
  residuals (re_scale e) (normalize3 (transformed e b)) (bearing_vector (re_observed e)) 3.
(** 276-372 *)
Definition Evaluate3D (e : reprojection_error) (b : blocks) : list R * (list R * list R * list R * list R) :=
  let scale := re_scale e in
  let '(predicted, jacs) :=
    if re_use_rig_camera e then
      let all_params := take 6 (b_rig_instance b) ++ take 6 (b_rig_camera b) in
      let StrideFull := (6 + 6 + 3)%nat in
      let '(predicted, jacobian) := RigPoseNormalizedDerivatives (b_point b) all_params in
      (predicted, (zero_block 3 1, scaled_block scale 3 StrideFull 3 6 jacobian,
                   scaled_block scale 3 StrideFull (3 + 6) 6 jacobian, scaled_block scale 3 StrideFull 0 3 jacobian))
    else
      let all_params := take 6 (b_rig_instance b) in
      let StrideFull := (6 + 3)%nat in
      let '(predicted, jacobian) := PoseNormalizedDerivatives (b_point b) all_params in
      (predicted, (zero_block 3 1, scaled_block scale 3 StrideFull 3 6 jacobian, zero_block 3 6, scaled_block scale 3 StrideFull 0 3 jacobian)) in
  (residuals scale predicted (bearing_vector (re_observed e)) 3, jacs).

(** ** covariance.cc *)
(** 6-27; [all_params] is rotation | origin | camera *)
Definition ComputeJacobianReprojectionError (c : camera) (p : pose) (observation : R * R) (point : vec) : list R * (R * R) :=
  let all_params := list_of_vec (rotation_cam_to_world_min p) ++ list_of_vec (c_tr p) ++ cam_values c in
  let '(projected, jacobian) := ProjectPosePointDerivatives (cam_type c) (list_of_vec point) all_params in
  (jacobian, (observation.1 - projected.[0], observation.2 - projected.[1])).
(** 29-43: the sum of jacobian^T jacobian (row-major 3x3) and sigma2 *)
Definition ComputePointInverseCovariance (cams : list camera) (obs : list (camera * pose * (R * R))) (point : vec) : list R * R :=
  let each := map (fun o => ComputeJacobianReprojectionError o.1.1 o.1.2 o.2 point) obs in
  (concat (map (fun a => map (fun b => foldr (fun r acc => (sum_n 2 (fun i => r.1.[i * 3 + a] * r.1.[i * 3 + b])) + acc) 0 each) (seq 0 3)) (seq 0 3)),
   foldr (fun r acc => (r.2.1 * r.2.1 + r.2.2 * r.2.2) + acc) 0 each / INR (length cams)).
