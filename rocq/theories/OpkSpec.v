(** Specification of the camera of a drone. The drone is turned by the yaw (from the north to the east), then by the pitch (its nose up), then by
    the roll (its right side down); the camera looks down with the top of its image to the nose. *)
From Coq Require Import Reals.
From stdpp Require Import prelude.
From Verif Require Import Base Lin AnglesSpec.
Local Open Scope R_scope.

(** World: x to the east, y to the north, z up. The nose of the drone, its right side, and what is below it *)
Definition nose (y p : R) : vec := Vec (sin y * cos p) (cos y * cos p) (sin p).
Definition starboard (y p r : R) : vec :=
  vadd (vscale (cos r) (Vec (cos y) (- sin y) 0)) (vscale (sin r) (Vec (sin y * sin p) (cos y * sin p) (- cos p))).
Definition below (y p r : R) : vec := cross (nose y p) (starboard y p r).
Definition is_drone_camera (m : mat) (y p r : R) : Prop :=
  right_axis m = starboard y p r /\ down_axis m = vopp (nose y p) /\ forward_axis m = below y p r.
