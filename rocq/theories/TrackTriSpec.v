(** Specification of the triangulation of tracks. *)
From stdpp Require Import prelude.
From Coq Require Import Reals.
From Verif Require Import Base Lin RotModel PoseModel PoseSpec TriangModel TriangSpec TrackTriModel.
Local Open Scope R_scope.

(** The direction from o to X *)
Definition direction (o X : vec) : vec := vscale (/ norm (vsub X o)) (vsub X o).
(** X is seen from the view as close as asked to its bearing *)
Definition agrees (threshold : R) (X : vec) (v : view) : Prop :=
  let r := world_ray v in X <> r.1 /\ norm (vsub (direction r.1 X) r.2) < threshold.
(** The cost of the refinement (triangulation.cc: BearingErrorCost): sum of the squared differences of directions *)
Fixpoint direction_cost (rays : list (vec * vec)) (X : vec) : R :=
  match rays with [] => 0 | r :: rs => sqdist (direction r.1 X) r.2 + direction_cost rs X end.
(** What is asked of the refinement: it does not increase the cost, nor moves from a point with directions to one without. *)
Definition descent (refine : list (vec * vec) -> vec -> nat -> vec) : Prop :=
  forall rays X k, (forall r, In r rays -> X <> r.1) ->
    (forall r, In r rays -> refine rays X k <> r.1) /\ direction_cost rays (refine rays X k) <= direction_cost rays X.
(** A perfect view of P: the camera sees it at the distance d in the direction of its observation *)
Definition perfect (P : vec) (d : R) (v : view) : Prop :=
  valid (sh_pose (v_shot v)) /\ norm (sh_bearing (v_shot v) (v_point v)) = 1 /\ 0 < d /\
  transform (sh_pose (v_shot v)) P = vscale d (sh_bearing (v_shot v) (v_point v)).
(** Angle under which two views see the point *)
Definition view_angle (v w : view) : R := angle (world_ray v).2 (world_ray w).2.
