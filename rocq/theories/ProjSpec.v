(** Specification of what a bundle adjustment error and a camera must satisfy. *)
From stdpp Require Import prelude.
From Coq Require Import Reals.
From Verif Require Import Base Lin CamModel ProjModel.
Local Open Scope R_scope.

(** Where the projections are differentiable: a point in camera coordinates, for each kind of camera. A fisheye camera switches to
    a perspective projection at the distance 1e-8 of its axis; a panorama has a cut behind the camera. *)
Definition axis_distance (x : list R) : R := sqrt (nth 0 x 0 * nth 0 x 0 + nth 1 x 0 * nth 1 x 0).
Definition smooth_point (t : ptype) (x : list R) : Prop :=
  match t with
  | PERSPECTIVE | BROWN | RADIAL | SIMPLE_RADIAL => nth 2 x 0 <> 0
  | FISHEYE | FISHEYE_OPENCV | FISHEYE62 | FISHEYE624 => / 10 ^ 8 < axis_distance x \/ (axis_distance x < / 10 ^ 8 /\ nth 2 x 0 <> 0)
  | DUAL => nth 2 x 0 <> 0 /\ axis_distance x <> / 10 ^ 8
  | SPHERICAL => nth 0 x 0 <> 0 \/ 0 < nth 2 x 0
  end.
(** A pose (rotation vector and origin) whose rotation is not nearly zero: its angle is more than 2^-26 *)
Definition rotating (rt : list R) : Prop := / 2 ^ 52 < nth 0 rt 0 * nth 0 rt 0 + nth 1 rt 0 * nth 1 rt 0 + nth 2 rt 0 * nth 2 rt 0.
(** The number of parameters of each kind of camera *)
Definition camera_size (t : ptype) : nat :=
  match t with PERSPECTIVE | FISHEYE => 3 | DUAL => 4 | SIMPLE_RADIAL => 5 | RADIAL => 6 | FISHEYE_OPENCV => 8 | BROWN => 9 | FISHEYE62 => 12 | FISHEYE624 => 16 | SPHERICAL => 1 end.
(** Four parameter blocks of the right sizes, with poses that rotate *)
Definition well_formed (C : nat) (b : blocks) : Prop :=
  length (b_camera b) = C /\ length (b_rig_instance b) = 6%nat /\ length (b_rig_camera b) = 6%nat /\ length (b_point b) = 3%nat.
Definition rotating_poses (e : reprojection_error) (b : blocks) : Prop :=
  rotating (b_rig_instance b) /\ (re_use_rig_camera e = true -> rotating (b_rig_camera b)).
Definition with_camera (b : blocks) v := Blocks v (b_rig_instance b) (b_rig_camera b) (b_point b).
Definition with_rig_instance (b : blocks) v := Blocks (b_camera b) v (b_rig_camera b) (b_point b).
Definition with_rig_camera (b : blocks) v := Blocks (b_camera b) (b_rig_instance b) v (b_point b).
Definition with_point (b : blocks) v := Blocks (b_camera b) (b_rig_instance b) (b_rig_camera b) v.
