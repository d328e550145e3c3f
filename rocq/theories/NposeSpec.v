(** Specification of poses from many points. *)
From stdpp Require Import prelude.
From Coq Require Import Reals.
From Verif Require Import Lin FitSpec P3pSpec.
Local Open Scope R_scope.

(** The squared distance from y to the line through the origin of direction b: (|b x y| / |b|)^2 *)
Definition off_sight (b y : vec) : R := dot (cross b y) (cross b y) / dot b b.
(** The sum over the samples (bearing, point), for the pose (R, t) *)
Fixpoint sight_error (r : mat) (t : vec) (samples : list (vec * vec)) : R :=
  match samples with [] => 0 | (b, p) :: rest => off_sight b (vadd (mvec r p) t) + sight_error r t rest end.
Definition in_a_plane (l : list vec) : Prop := exists n c, n <> v0 /\ forall x, x ∈ l -> dot n x = c.
Definition parallel (u v : vec) : Prop := cross u v = v0.
