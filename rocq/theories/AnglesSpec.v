(** Specification of camera angles. The world has x to the east, y to the north, z up; a camera has x to the right of its image, y down,
    z forward. A camera rotation takes world directions to camera directions: its rows are the axes of the camera in the world. *)
From stdpp Require Import prelude.
From Coq Require Import Reals.
From Verif Require Import Base Lin.
Local Open Scope R_scope.

Definition right_axis (m : mat) : vec := Vec (m11 m) (m12 m) (m13 m).
Definition down_axis (m : mat) : vec := Vec (m21 m) (m22 m) (m23 m).
Definition forward_axis (m : mat) : vec := Vec (m31 m) (m32 m) (m33 m).
(** The direction at the azimuth [pan] from the north to the east, [tilt] below the horizon; the horizontal direction to its right;
    the direction above it *)
Definition toward (pan tilt : R) : vec := Vec (sin pan * cos tilt) (cos pan * cos tilt) (- sin tilt).
Definition beside (pan : R) : vec := Vec (cos pan) (- sin pan) 0.
Definition above (pan tilt : R) : vec := Vec (sin pan * sin tilt) (cos pan * sin tilt) (cos tilt).
(** A camera that looks [toward] a direction, its right side raised by the angle [roll] *)
Definition has_ptr (m : mat) (pan tilt roll : R) : Prop :=
  rotation m /\ forward_axis m = toward pan tilt /\ right_axis m = vadd (vscale (cos roll) (beside pan)) (vscale (sin roll) (above pan tilt)).

(** Rotations about the axes *)
Definition turn_x (a : R) : mat := Mat 1 0 0 0 (cos a) (- sin a) 0 (sin a) (cos a).
Definition turn_y (a : R) : mat := Mat (cos a) 0 (sin a) 0 1 0 (- sin a) 0 (cos a).
Definition turn_z (a : R) : mat := Mat (cos a) (- sin a) 0 (sin a) (cos a) 0 0 0 1.
(** A camera that first looks straight down with the top of its image to the north, then is turned by kappa about z, phi about y
    and omega about x (in this order): where the axes of the camera go *)
Definition has_opk (m : mat) (omega phi kappa : R) : Prop :=
  let turn := mmul (turn_x omega) (mmul (turn_y phi) (turn_z kappa)) in
  right_axis m = mvec turn (Vec 1 0 0) /\ down_axis m = mvec turn (Vec 0 (-1) 0) /\ forward_axis m = mvec turn (Vec 0 0 (-1)).

(** OpenCV takes rotations of less than 2^-52 for no rotation. *)
Definition not_tiny (a : R) : Prop := a = 0 \/ / 2 ^ 52 <= Rabs a.
Definition angle (a : R) : Prop := - PI < a <= PI.
Definition acute (a : R) : Prop := - (PI / 2) < a < PI / 2.

(** EXIF 2.3, Orientation: on which side of the upright picture the first row and the first column of the stored pixels are *)
Inductive side := Top | Bottom | Left_ | Right_.
Definition exif_sides (orientation : Z) : option (side * side) :=
  match orientation with
  | 1 => Some (Top, Left_) | 2 => Some (Top, Right_) | 3 => Some (Bottom, Right_) | 4 => Some (Bottom, Left_)
  | 5 => Some (Left_, Top) | 6 => Some (Right_, Top) | 7 => Some (Right_, Bottom) | 8 => Some (Left_, Bottom) | _ => None
  end%Z.
(** Where the top of the upright picture is, in the stored pixels (x to the right, y down): on the side of the first row, the last row,
    the first column or the last column *)
Definition up_of (rows columns : side) : vec :=
  match rows, columns with
  | Top, _ => Vec 0 (-1) 0 | Bottom, _ => Vec 0 1 0 | _, Top => Vec (-1) 0 0 | _, Bottom => Vec 1 0 0 | _, _ => v0
  end.
