(** Specification of the camera properties: which cameras exist. *)
From Coq Require Import Reals.
From stdpp Require Import prelude strings.
From Verif Require Import Base JsonModel CamModel.
Local Close Scope R_scope.

(** The cameras a program can hold: made by one of the ten named constructors, then modified through the attributes id,
    width, height and through set_parameter_value (the setters focal, aspect_ratio, transition, principal_point are calls to
    it), in any order. The placeholder parameter None of the spherical camera is not one of its parameters. *)
Inductive made : camera -> Prop :=
  | made_perspective f k1 k2 : made (create_perspective f k1 k2)
  | made_fisheye f k1 k2 : made (create_fisheye f k1 k2)
  | made_dual t f k1 k2 : made (create_dual t f k1 k2)
  | made_spherical : made create_spherical
  | made_radial f a pp d : made (create_radial f a pp d)
  | made_simple_radial f a pp k1 : made (create_simple_radial f a pp k1)
  | made_brown f a pp d c : create_brown f a pp d = Ok c -> made c
  | made_fisheye_opencv f a pp d c : create_fisheye_opencv f a pp d = Ok c -> made c
  | made_fisheye62 f a pp d c : create_fisheye62 f a pp d = Ok c -> made c
  | made_fisheye624 f a pp d c : create_fisheye624 f a pp d = Ok c -> made c
  | made_attributes c id w h : made c -> made (Camera id w h (cam_type c) (cam_params c) (cam_values c))
  | made_set c p x c' : made c -> p <> PNone -> set_param c p x = Ok c' -> made c'.

(** The models with two focal lengths, whose files hold focal_x and focal_y = focal_x * aspect ratio *)
Definition has_aspect (t : ptype) : Prop :=
  match t with PERSPECTIVE | FISHEYE | DUAL | SPHERICAL => False | _ => True end.
(** Their focal length has to be non-zero for the aspect ratio to be recovered *)
Definition recoverable (c : camera) : Prop := has_aspect (cam_type c) -> get_param c Focal <> Ok 0%R.

(** The number of values of the parameter vector of each model *)
Definition vector_length (t : ptype) : nat :=
  match t with
  | PERSPECTIVE | FISHEYE => 3 | BROWN => 9 | FISHEYE_OPENCV => 8 | FISHEYE62 => 12 | FISHEYE624 => 16
  | RADIAL => 6 | SIMPLE_RADIAL => 5 | DUAL => 4 | SPHERICAL => 0
  end.

(** The name under which each parameter is found in a camera file: the two focal
    lengths of the models that have an aspect ratio are focal_x and focal_y. *)
Definition file_name (t : ptype) (p : param) : option string :=
  match p with
  | K1 => Some "k1" | K2 => Some "k2" | K3 => Some "k3" | K4 => Some "k4" | K5 => Some "k5" | K6 => Some "k6"
  | P1 => Some "p1" | P2 => Some "p2" | S0 => Some "s0" | S1 => Some "s1" | S2 => Some "s2" | S3 => Some "s3"
  | Cx => Some "c_x" | Cy => Some "c_y" | Transition => Some "transition"
  | Focal => match t with PERSPECTIVE | FISHEYE | DUAL => Some "focal" | _ => Some "focal_x" end
  | AspectRatio | PNone => None
  end.
