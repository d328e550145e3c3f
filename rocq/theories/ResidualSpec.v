(** Specification of the residuals of a bundle adjustment. The cameras are poses: what the parameters say is the pose of a shot, and a
    residual is judged by what it says about poses, angles and distances. *)
From stdpp Require Import prelude strings.
From Coq Require Import Reals.
From Verif Require Import Base Lin RotModel PoseModel PoseSpec AnglesSpec ResidualModel.
Local Open Scope R_scope.

(** The pose of a shot of a rig: that of its rig camera after that of its instance (C11, C37) *)
Definition pose_of_shot (inst rc : block) : pose := compose (block_to_pose rc) (block_to_pose inst).
(** [d] is the angle from [b] to [a], the short way around *)
Definition turn_between (a b d : R) : Prop := - PI <= d <= PI /\ exists k : Z, a = b + d + 2 * PI * IZR k.
(** the scale matrix of the seven residuals of a relative motion loses nothing *)
Definition injective_rows (m : list (list R)) : Prop := forall v, length v = 7%nat -> Forall (fun x => x = 0) (mul_rows m v) -> Forall (fun x => x = 0) v.
Definition all_zero (l : list R) : Prop := Forall (fun x => x = 0) l.
(** the rotation by [alpha] times the rotation [m], about the axis of [m] *)
Definition part_of_turn (alpha : R) (m : mat) : mat := vector_to_rotation (vscale alpha (rotation_to_vector m)).
(** A GPS reading moved by the bias of its camera *)
Definition biased (bias : sim_block) (x : vec) : vec := vadd (vscale (sb_scale bias) (mvec (vector_to_rotation (sb_r bias)) x)) (sb_t bias).
