(** Model of /repo/opensfm/src/geometry/pose.h (class Pose), similarity.h (class Similarity),
    /repo/opensfm/align.py:44-74 (apply_similarity_pose, apply_similarity), /repo/opensfm/large/tools.py:108-113
    (invert_similarity), in exact real arithmetic. The bottom row of the 4x4 matrices is always 0 0 0 1, so a 4x4 matrix is
    its 3x3 block and its last column. The cached minimal rotations (UpdateMinRotations) are those of the current matrices:
    they are recomputed by every method that changes a rotation block. *)
From Coq Require Import Reals.
From stdpp Require Import prelude gmap strings.
From Verif Require Import Base Lin RotModel MapModel.
Local Open Scope R_scope.

(** pose.h:177-180: world_to_cam_ = [w_rot w_tr], cam_to_world_ = [c_rot c_tr] *)
Record pose := Pose { w_rot : mat; w_tr : vec; c_rot : mat; c_tr : vec }.

(** Mat4d::inverse of [R t; 0 1] *)
Definition inv_rot (Rm : mat) : mat := minv Rm.
Definition inv_tr (Rm : mat) (t : vec) : vec := vopp (mvec (minv Rm) t).
(** pose.h:69-75 *)
Definition from_world_to_cam (Rm : mat) (t : vec) : pose := Pose Rm t (inv_rot Rm) (inv_tr Rm t).
(** pose.h:77-83 *)
Definition from_cam_to_world (Rm : mat) (t : vec) : pose := Pose (inv_rot Rm) (inv_tr Rm t) Rm t.
(** pose.h:12-15, 18-20, 21-26, 106-109 *)
Definition pose0 : pose := from_world_to_cam mI v0.
Definition pose_of_vector (r t : vec) : pose := from_world_to_cam (vector_to_rotation r) t.
Definition pose_of_matrix (Rm : mat) (t : vec) : pose := from_world_to_cam Rm t.
(** pose.h:97-101 *)
Definition set_rotation_matrix (p : pose) (Rm : mat) : pose := Pose Rm (w_tr p) (mT Rm) (c_tr p).
(** pose.h:85-90, the setter of the property [rotation] *)
Definition set_rotation (p : pose) (r : vec) : pose := set_rotation_matrix p (vector_to_rotation r).
(** pose.h:92-95, the setter of [translation] *)
Definition set_translation (p : pose) (t : vec) : pose := Pose (w_rot p) t (c_rot p) (inv_tr (w_rot p) t).
(** pose.h:53-56 *)
Definition get_origin (p : pose) : vec := c_tr p.
Definition set_origin (p : pose) (o : vec) : pose := set_translation p (vopp (mvec (w_rot p) o)).
(** pose.h:184-188, 41-42: [get_R_cam_to_world_min] and [rotation] *)
Definition rotation_cam_to_world_min (p : pose) : vec := rotation_to_vector (c_rot p).
Definition get_rotation (p : pose) : vec := vopp (rotation_to_vector (c_rot p)).
Definition get_translation (p : pose) : vec := w_tr p.
(** pose.h:111-119 *)
Definition transform (p : pose) (x : vec) : vec := vadd (mvec (w_rot p) x) (w_tr p).
Definition transform_inverse (p : pose) (x : vec) : vec := vadd (mvec (c_rot p) x) (c_tr p).
(** pose.h:133-144 *)
Definition relative_to (p base : pose) : pose :=
  from_world_to_cam (mmul (w_rot p) (c_rot base)) (vadd (mvec (w_rot p) (c_tr base)) (w_tr p)).
(** pose.h:146-157 *)
Definition compose (p base : pose) : pose :=
  from_world_to_cam (mmul (w_rot p) (w_rot base)) (vadd (mvec (w_rot p) (w_tr base)) (w_tr p)).
(** pose.h:159-167 *)
Definition inverse (p : pose) : pose := from_world_to_cam (c_rot p) (c_tr p).
(** pose.h:169-172 *)
Definition is_identity (p : pose) : bool :=
  if Rlt_dec (norm (get_origin p)) (/ 10 ^ 15) then (if Rlt_dec (norm (get_rotation p)) (/ 10 ^ 15) then true else false) else false.
(** src/geometry/python/pybind.cc:376-384, pickling: only cam_to_world is kept *)
Definition unpickle (c : mat * vec) : pose := from_cam_to_world c.1 c.2.
Definition pickle (p : pose) : mat * vec := (c_rot p, c_tr p).

(** shot.cc:146-167: GetPoseInRig, GetPose *)
Definition shot_get_pose (rig_camera inst : pose) (shots_in_instance : nat) : pose :=
  if is_identity rig_camera && (shots_in_instance =? 1)%nat then inst else compose rig_camera inst.
(** shot.cc:136-144 (SetPose): the new pose of the instance *)
Definition shot_set_pose (rig_camera inst : pose) (shots_in_instance : nat) (p : pose) : res pose :=
  if is_identity rig_camera && (shots_in_instance =? 1)%nat then Ok p else Err RuntimeError.

(** similarity.h *)
Record similarity := Similarity { sim_pose : pose; sim_scale : R }.
Definition similarity_of_vector (r t : vec) (s : R) : similarity := Similarity (pose_of_vector r t) s.
Definition similarity_of_matrix (Rm : mat) (t : vec) (s : R) : similarity := Similarity (pose_of_matrix Rm t) s.
Definition sim_translation (a : similarity) : vec := w_tr (sim_pose a).
Definition sim_rotation_matrix (a : similarity) : mat := w_rot (sim_pose a).
(** similarity.h:23-25 *)
Definition sim_transform (a : similarity) (x : vec) : vec :=
  vadd (mvec (mscale (sim_scale a) (sim_rotation_matrix a)) x) (sim_translation a).
(** similarity.h:27-30 *)
Definition sim_inverse (a : similarity) : similarity :=
  similarity_of_vector (rotation_cam_to_world_min (sim_pose a)) (vscale (1 / sim_scale a) (get_origin (sim_pose a))) (1 / sim_scale a).

(** large/tools.py:108-113 *)
Definition invert_similarity (s : R) (A : mat) (b : vec) : R * mat * vec :=
  let s_inv := 1 / s in let A_inv := mT A in (s_inv, A_inv, vscale (- s_inv) (mvec A_inv b)).

(** align.py:44-53 *)
Definition apply_similarity_pose (p : pose) (s : R) (A : mat) (b : vec) : pose :=
  let Rp := mmul (w_rot p) (mT A) in
  let tp := vadd (vopp (mvec Rp b)) (vscale s (w_tr p)) in
  set_translation (set_rotation_matrix p Rp) tp.
(** align.py:67-68 *)
Definition apply_similarity_point (x : vec) (s : R) (A : mat) (b : vec) : vec := vadd (vscale s (mvec A x)) b.

(** align.py:56-74 on a map whose poses and points are these *)
Section Apply.
Context {C B D X O Rf : Type}.
Notation map := (@map C B pose vec D X O Rf).
Definition apply_similarity (m : map) (s : R) (A : mat) (b : vec) : map :=
  let m1 := set_landmarks m ((fun l => Landmark (apply_similarity_point (lm_pos l) s A b) (lm_color l) (lm_obs l)) <$> m_landmarks m) in
  let m2 := set_instances m1 ((fun i => Instance (apply_similarity_pose (in_pose i) s A b) (in_members i)) <$> m_instances m1) in
  set_rig_cameras m2 ((fun p => apply_similarity_pose p s mI v0) <$> m_rig_cameras m2).
(** shot.cc:153-167 on a map: the pose that [shot.pose] returns *)
Definition get_pose (m : map) (k : shot_key) : option pose :=
  s ← m_shots m !! k; i ← m_instances m !! sh_instance s; rc ← m_rig_cameras m !! sh_rig_camera s;
  Some (shot_get_pose rc (in_pose i) (size (in_members i))).
(** shot.cc:136-144 on a map: [shot.pose = p]. The write to the cached [pose_] has no effect: GetPose recomputes it. *)
Definition set_pose (m : map) (k : shot_key) (p : pose) : res map :=
  try s := of_option KeyError (m_shots m !! k) in
  try i := of_option KeyError (m_instances m !! sh_instance s) in
  try rc := of_option KeyError (m_rig_cameras m !! sh_rig_camera s) in
  try q := shot_set_pose rc (in_pose i) (size (in_members i)) p in
  Ok (set_instances m (<[sh_instance s := Instance q (in_members i)]> (m_instances m))).
(** rig.cc:42-57 on a map: [rig_instance.update_instance_pose_with_shot(shot_id, p)] *)
Definition update_instance_pose_with_shot (m : map) (inst shot_id : string) (p : pose) : res map :=
  try i := of_option KeyError (m_instances m !! inst) in
  try i' := instance_update_pose compose inverse (m_rig_cameras m) i shot_id p in
  Ok (set_instances m (<[inst := i']> (m_instances m))).
End Apply.
