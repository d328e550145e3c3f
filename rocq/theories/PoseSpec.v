(** Specification of the pose properties: rigid motions and similarities as functions on points. *)
From Coq Require Import Reals.
From stdpp Require Import prelude gmap strings.
From Verif Require Import Base Lin RotModel MapModel PoseModel.
Local Open Scope R_scope.

(** The pose describes one rigid motion and its inverse: the two stored matrices are [R t] and [R' -R't], R a rotation. *)
Definition valid (p : pose) : Prop :=
  rotation (w_rot p) /\ c_rot p = mT (w_rot p) /\ c_tr p = vopp (mvec (mT (w_rot p)) (w_tr p)).

(** The valid poses a program can build. Setting only the rotation of an existing pose is not in the list (see C12_stale_origin). *)
Inductive built : pose -> Prop :=
  | built_default : built pose0
  | built_vector r t : built (pose_of_vector r t)
  | built_matrix Rm t : rotation Rm -> built (pose_of_matrix Rm t)
  | built_cam_to_world Rm t : rotation Rm -> built (from_cam_to_world Rm t)
  | built_translation p t : built p -> built (set_translation p t)
  | built_origin p o : built p -> built (set_origin p o)
  | built_rotation_translation p r t : built p -> built (set_translation (set_rotation p r) t)
  | built_compose p q : built p -> built q -> built (compose p q)
  | built_inverse p : built p -> built (inverse p)
  | built_relative p q : built p -> built q -> built (relative_to p q)
  | built_similarity p s A b : built p -> rotation A -> built (apply_similarity_pose p s A b).

(** Every pose stored in the map is valid. *)
Definition poses_valid {C B D X O Rf : Type} (m : @map C B pose vec D X O Rf) : Prop :=
  (forall id p, m_rig_cameras m !! id = Some p -> valid p) /\ (forall id i, m_instances m !! id = Some i -> valid (in_pose i)).
(** The poses given to a call are valid. *)
Definition op_valid {C B D X O Rf : Type} (op : @map_op C B pose vec D X O Rf) : Prop :=
  match op with
  | MRigCamera _ p | MInstancePose _ p | MShot _ _ _ _ (Some p) => valid p
  | _ => True
  end.
(** Projections of camera coordinates that only depend on the viewing direction. *)
Definition directional {T : Type} (f : vec -> T) : Prop := forall s v, 0 < s -> f (vscale s v) = f v.
