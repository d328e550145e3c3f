(** Specification of the mesh of a shot. *)
From stdpp Require Import prelude gmap strings.
From Coq Require Import Reals.
From Verif Require Import Lin PoseModel MeshModel.
Local Open Scope R_scope.

(** The corners of all faces are among the first n vertices *)
Definition in_range (n : nat) (faces : list face) : Prop := forall f j, f ∈ faces -> j ∈ corners f -> (j < n)%nat.
(** A pinhole camera with this pose shows q at the pixel, at the depth *)
Definition shows (p : pose) (c : pinhole) (q : vec) (pixel : R * R) (depth : R) : Prop :=
  vz (transform p q) = depth /\ ph_focal c * vx (transform p q) + ph_cx c * depth = pixel.1 * depth /\ ph_focal c * ph_aspect c * vy (transform p q) + ph_cy c * depth = pixel.2 * depth.
(** The vertices from the fourth on with which a vertex shares faces, once for every face *)
Inductive shares (i : nat) : list face -> list nat -> Prop :=
  | shares_nil : shares i [] []
  | shares_with f faces l : i ∈ corners f -> shares i faces l -> shares i (f :: faces) (filter (fun j => 4 <= j)%nat (corners f) ++ l)
  | shares_without f faces l : i ∉ corners f -> shares i faces l -> shares i (f :: faces) l.
(** d is the mean of numbers *)
Definition mean_of (l : list R) (d : R) : Prop := INR (length l) * d = foldr Rplus 0 l.
(** The corner of an image of which the sides are 2 dx and 2 dy *)
Definition image_corners (dx dy : R) : list (R * R) := [(- dx, - dy); (- dx, dy); (dx, dy); (dx, - dy)].
Definition inside (dx dy : R) (pixel : R * R) : Prop := - dx <= pixel.1 <= dx /\ - dy <= pixel.2 <= dy.
(** q is seen from the camera in a direction *)
Definition seen_towards (p : pose) (q direction : vec) : Prop := exists s, 0 < s /\ transform p q = vscale s direction.
