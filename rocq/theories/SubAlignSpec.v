(** Specification of the alignment of submodels. *)
From stdpp Require Import prelude gmap strings.
From Coq Require Import Reals.
From Verif Require Import Base Lin RotModel MapModel PoseModel SubAlignModel.
Local Open Scope R_scope.

(** All the residuals of a kind vanish *)
Definition vanishes (p : problem) (c : constraint) : Prop := Forall (fun r => r = v0) (residual p c).
Definition is_relative_motion (c : constraint) : Prop := match c with RelativeMotion _ _ _ _ _ _ => True | _ => False end.
(** What the problem should hold, for reconstructions given as lists of shots *)
Definition relative_motion_of (c : constraint) : option (string * string * vec * vec) :=
  match c with RelativeMotion a i r t _ _ => Some (a, i, r, t) | _ => None end.
Definition absolute_position_of (c : constraint) : option (string * vec * R) :=
  match c with AbsolutePosition i c sd => Some (i, c, sd) | _ => None end.
(** The first view of a shot *)
Definition first_view (recs : list (key * list view)) (id : string) : option view := head (filter (fun s => vi_id s = id) (mjoin (snd <$> recs))).
(** The pose that the solver gives to a shot *)
Definition solved_pose (p : problem) (id : string) : pose := pose_of_vector (rs_r (the_shot p id)) (rs_t (the_shot p id)).
(** The similarity that takes a reconstruction to the common frame *)
Definition common_frame (p : problem) (k : key) (x : vec) : vec :=
  let a := the_rec p (partial_reconstruction_name k) in vscale (1 / rr_scale a) (mvec (mT (vector_to_rotation (rr_r a))) (vsub x (rr_t a))).
